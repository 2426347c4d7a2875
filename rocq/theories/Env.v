(** The step-wise matching environment, [src/library/include/environment/environments/single.hpp].

    Of the candidates only the numbers of their edges matter here. The rewards are an arbitrary type; how they are computed from
    the network, the routes and the measurements is the oracle [judge], a function of the internal state and action. What [_reward]
    reads from the vectors of candidates and edges, and how it changes the new state and the action, is modelled. Reading outside
    of a vector ([operator[]]) is undefined behaviour. Positions and actions are [std::int64_t], state and action numbers
    [std::size_t]; they do not overflow. *)
From Coq Require Export ZArith.
From Verif Require Import Base.

(** single.hpp 44-45: [state_internal], [action_internal] *)
Definition istate := list Z.
Definition iaction := Z.
(** single.hpp 70-72 *)
Definition no_action : iaction := (-1)%Z.
Definition skip : iaction := (-2)%Z.
Definition special_actions : nat := 2.

(** single.hpp 230-238: [action2internal] *)
Definition action2internal (a : nat) : iaction :=
  match a with
  | 0 => no_action
  | 1 => skip
  | _ => Z.of_nat (a - special_actions)
  end.
(** single.hpp 554-562: [_internal2action] *)
Definition internal2action (a : iaction) : nat :=
  if (a =? no_action)%Z then 0 else if (a =? skip)%Z then 1 else Z.to_nat (a + Z.of_nat special_actions).

Fixpoint istate_eqb (a b : istate) : bool :=
  match a, b with
  | [], [] => true
  | x :: a', y :: b' => (x =? y)%Z && istate_eqb a' b'
  | _, _ => false
  end.

(** vector access with an index held as signed number *)
Definition at_pos {T} (l : list T) (i : Z) : option T := if (i <? 0)%Z then None else nth_error l (Z.to_nat i).

Section Env.
  Context {R : Type}.
  Variable zeroR : R.

  (** what [_reward] finds out about a route: the reward, whether the route is valid, whether the measurement is skipped, and
      whether the previous route does not attach *)
  Record verdict := mkVerdict { v_reward : R; v_valid : bool; v_skip : bool; v_detached : bool }.

  (** the number of edges of each candidate, and [state_size] after [init] (single.hpp 148-157): [2 * settings.state_size - 1] *)
  Variable cands : list nat.
  Variable state_size : nat.
  Variable first_reward : istate -> iaction -> R.
  Variable judge : istate -> iaction -> verdict.

  (** single.hpp 60: [reward_tuple] *)
  Record result := mkResult { r_state : nat; r_action : nat; r_reward : R; r_done : bool }.

  (** single.hpp 567-573: the members; [st_map] is [_state_map], a map from internal states to numbers *)
  Record env := mkEnv { st_list : list istate; st_map : list (istate * nat); st_cache : list (list (option result)); st_cur : nat }.

  (** single.hpp 148-151: the part of [init] resetting the tables *)
  Definition init_env (cur : nat) : env := mkEnv [] [] [] cur.

  (** single.hpp 492-494: [_done]; [back()] of an empty vector is undefined behaviour, also below *)
  Definition back (s : istate) : option Z := match rev s with [] => None | x :: _ => Some x end.
  Definition is_done (s : istate) : outcome bool := derefO (back s) (fun b => Ok (Z.of_nat (length cands) <=? b)%Z).

  (** single.hpp 496-504: [_new_state]; moving an iterator past the end is undefined behaviour *)
  Definition new_state (s : istate) (a : iaction) : outcome istate :=
    bindO (if state_size <=? length s then (if length s <? 2 then UB else Ok (skipn 2 s)) else Ok s) (fun x => x) (fun kept =>
    derefO (back s) (fun b => Ok (kept ++ [a; (b + 1)%Z]))).

  (** single.hpp 506-513: [_skip_state] *)
  Definition set_back (s : istate) (b : Z) : istate := removelast s ++ [b].
  Definition skip_state (s : istate) : istate :=
    if 3 <=? length s then skipn 2 s
    else match back s with None => s | Some b => set_back s (b + 1) end.
  (** single.hpp 515-520: [_done_state] *)
  Definition done_state (s : istate) : istate :=
    match back s with None => s | Some _ => set_back s (Z.of_nat (length cands)) end.

  (** [_candidates[pos].edges[action]] *)
  Definition edge_ok (pos : Z) (a : Z) : outcome unit :=
    derefO (at_pos cands pos) (fun n => if (0 <=? a)%Z && (a <? Z.of_nat n)%Z then Ok tt else UB).

  (** [state[state.size() - k]] *)
  Definition from_back (s : istate) (k : nat) : option Z := nth_error s (length s - k).

  (** single.hpp 274-490: [_reward], which may replace the new state and the action *)
  Definition reward (s new : istate) (a : iaction) : outcome (R * istate * iaction) :=
    if (a <? 0)%Z then Ok (zeroR, new, a)
    else match back s with
    | None => Ok (zeroR, new, a)
    | Some next_position =>
      bindO (edge_ok next_position a) (fun _ => (zeroR, new, a)) (fun _ =>
      if length s <? 3 then Ok (first_reward s a, new, a)
      else
        derefO (from_back s 3) (fun current_position =>
        derefO (from_back s 2) (fun current_action =>
        if (current_action <? 0)%Z then Ok (zeroR, new, a)
        else
          bindO (edge_ok current_position current_action) (fun _ => (zeroR, new, a)) (fun _ =>
          let v := judge s a in
          (** 307-310 and 354-358 *)
          let '(new1, a1) := if v_skip v then (skip_state s, skip) else (new, a) in
          if v_valid v && (3 <? length s) then
            derefO (from_back s 5) (fun prev_position =>
            derefO (from_back s 4) (fun prev_action =>
            if (prev_action <? 0)%Z then Ok (v_reward v, new1, a1)
            else
              (** 421: the edge is taken from the candidate of the current, not of the previous position *)
              bindO (edge_ok current_position prev_action) (fun _ => (zeroR, new, a)) (fun _ =>
              bindO (edge_ok prev_position prev_action) (fun _ => (zeroR, new, a)) (fun _ =>
              Ok (v_reward v, (if v_detached v then done_state s else new1), a1)))))
          else Ok (v_reward v, new1, a1)))))
    end.

  (** single.hpp 532-552: [_internal2state] *)
  Definition find_state (m : list (istate * nat)) (s : istate) : option nat :=
    match find (fun e => istate_eqb (fst e) s) m with Some (_, i) => Some i | None => None end.
  Definition action_count (s : istate) : nat :=
    match back s with
    | None => 1
    | Some b => match at_pos cands b with Some n => n + special_actions | None => 1 end
    end.
  Definition internal2state (e : env) (s : istate) : env * nat :=
    match find_state (st_map e) s with
    | Some i => (e, i)
    | None =>
        let i := length (st_list e) in
        (mkEnv (st_list e ++ [s]) (st_map e ++ [(s, i)]) (st_cache e ++ [repeat None (action_count s)]) (st_cur e), i)
    end.

  Definition set_cur (e : env) (i : nat) : env := mkEnv (st_list e) (st_map e) (st_cache e) i.
  (** single.hpp 181-184: [reset] *)
  Definition reset (e : env) : env * nat :=
    let (e1, i) := internal2state e [0%Z] in (set_cur e1 i, i).

  (** single.hpp 210-213: writing into the cache, growing the row if need be *)
  Fixpoint put (row : list (option result)) (a : nat) (r : result) : list (option result) :=
    match a, row with
    | 0, [] => [Some r]
    | 0, _ :: t => Some r :: t
    | S b, [] => None :: put [] b r
    | S b, x :: t => x :: put t b r
    end.
  Fixpoint put_at (cache : list (list (option result))) (i a : nat) (r : result) : outcome (list (list (option result))) :=
    match cache, i with
    | [], _ => UB
    | row :: t, 0 => Ok (put row a r :: t)
    | row :: t, S j => bindO (put_at t j a r) (fun x => x) (fun t' => Ok (row :: t'))
    end.

  (** single.hpp 187-196: the cached result *)
  Definition cached (e : env) (a : nat) : option result :=
    match nth_error (st_cache e) (st_cur e) with
    | None => None
    | Some row => match nth_error row a with Some (Some r) => Some r | _ => None end
    end.

  (** single.hpp 186-217: [step] *)
  Definition step (e : env) (action : nat) : outcome (env * result) :=
    match cached e action with
    | Some r => Ok (set_cur e (r_state r), r)
    | None =>
        let dummy := (e, mkResult 0 0 zeroR false) in
        derefO (nth_error (st_list e) (st_cur e)) (fun s =>
        let a := action2internal action in
        bindO (new_state s a) (fun _ => dummy) (fun new0 =>
        bindO (reward s new0 a) (fun _ => dummy) (fun '(rw, new1, a1) =>
        let (e1, next) := internal2state e new1 in
        bindO (is_done new1) (fun _ => dummy) (fun d =>
        let r := mkResult next (internal2action a1) rw d in
        bindO (put_at (st_cache e1) (st_cur e) action r) (fun _ => dummy) (fun cache =>
        Ok (mkEnv (st_list e1) (st_map e1) cache next, r))))))
    end.

  (** single.hpp 250-272: [_intelligent_actions]; [sort] orders the actions by their rewards *)
  Variable sort : list (nat * R) -> list (nat * R).
  Fixpoint try_actions (e : env) (actions : list nat) : outcome (env * list (nat * R)) :=
    match actions with
    | [] => Ok (e, [])
    | a :: r =>
        bindO (step e a) (fun _ => (e, [])) (fun '(e1, res) =>
        bindO (try_actions (set_cur e1 (st_cur e)) r) (fun x => x) (fun '(e2, l) => Ok (e2, (a, r_reward res) :: l)))
    end.

  (** single.hpp 158-179: [actions]; reading an unknown state is undefined behaviour *)
  Definition actions (intelligent : bool) (e : env) : outcome (env * list nat) :=
    derefO (nth_error (st_list e) (st_cur e)) (fun s =>
    match back s with
    | None => Ok (e, [internal2action no_action])
    | Some b =>
        let n := match at_pos cands b with Some n => n | None => 0 end in
        if 0 <? n then
          let l := seq special_actions n in
          if intelligent then bindO (try_actions e l) (fun _ => (e, [])) (fun '(e1, rs) => Ok (e1, map fst (sort rs)))
          else Ok (e, l)
        else Ok (e, [internal2action no_action])
    end).
End Env.
