(** Value iteration, [src/library/include/learning/algorithms/value_iteration.hpp].

    The environment is given by the actions offered in each state and the results of steps; that these do not depend on the history
    is the subject of C41. Rewards and values are rational numbers, so there is no rounding; [std::numeric_limits<double>::lowest()]
    is [None], below all of them. The time limit ([abort]) is left out here; [Deadline.v] adds it. *)
From Coq Require Export QArith Qabs.
From Verif Require Import Base.
Open Scope nat_scope.

Section Value.
  (** what [actions] and [step] of the environment give: new state, action taken, reward, end *)
  Variable acts : nat -> list nat.
  Variable stp : nat -> nat -> nat * nat * Q * bool.
  Variable start : nat.
  Variable discount threshold : Q.
  (** [state2internal(state).back()] and [action2internal(action)] *)
  Variable candidate : nat -> nat.
  Variable edge : nat -> Z.

  (** value_iteration.hpp 48-95: [generate_states]; the set of the visited states is that of the states found *)
  Definition discover (s : nat) (acc : list nat * list nat * nat) (a : nat) : list nat * list nat * nat :=
    let '(states, todo, highest) := acc in
    let '(n, _, _, done) := stp s a in
    let '(states1, todo1) := if negb done && negb (existsb (Nat.eqb n) states) then (states ++ [n], todo ++ [n]) else (states, todo) in
    (states1, todo1, if highest <? n then n else highest).
  Fixpoint generate (fuel : nat) (states todo : list nat) (highest : nat) : outcome (list nat * nat) :=
    match todo with
    | [] => Ok (states, highest)
    | s :: todo' =>
        match fuel with
        | 0 => Fuel
        | S f => let '(states1, todo1, highest1) := fold_left (discover s) (acts s) (states, todo', highest) in generate f states1 todo1 highest1
        end
    end.
  Definition generate_states (fuel : nat) : outcome (list nat * nat) := generate fuel [start] [start] start.

  (** value_iteration.hpp 146-154 and 207-215: the value of an action; reading outside of the vector is undefined behaviour *)
  Definition action_value (V : list Q) (s a : nat) : outcome Q :=
    let '(n, _, r, done) := stp s a in
    if done then Ok r else derefO (nth_error V n) (fun v => Ok (r + discount * v)%Q).

  (** value_iteration.hpp 144-161 and 205-223: the first of the best actions and its value *)
  Definition better (x : Q) (m : option (nat * Q)) : bool := match m with None => true | Some (_, y) => negb (Qle_bool x y) end.
  Fixpoint best (V : list Q) (s : nat) (l : list nat) (m : option (nat * Q)) : outcome (option (nat * Q)) :=
    match l with
    | [] => Ok m
    | a :: r => bindO (action_value V s a) (fun _ => m) (fun x => best V s r (if better x m then Some (a, x) else m))
    end.

  Fixpoint update (V : list Q) (s : nat) (x : Q) : option (list Q) :=
    match V, s with
    | [], _ => None
    | _ :: r, 0 => Some (x :: r)
    | y :: r, S t => option_map (cons y) (update r t x)
    end.

  (** value_iteration.hpp 136-173: one sweep over the states *)
  Fixpoint sweep (l : list nat) (V : list Q) (value : Q) (trained : bool) : outcome (list Q * Q * bool) :=
    match l with
    | [] => Ok (V, value, trained)
    | s :: r =>
        bindO (best V s (acts s) None) (fun _ => (V, value, trained)) (fun m =>
        match m with
        | None => sweep r V value trained
        | Some (_, x) => derefO (update V s x) (fun V1 => sweep r V1 (value + x) true)
        end)
    end.

  (** value_iteration.hpp 128-183: the sweeps; [None] is the infinite [delta] *)
  Definition go_on (delta : option Q) : bool := match delta with None => true | Some d => negb (Qle_bool d threshold) end.
  Definition less (new : Q) (delta : option Q) : bool := match delta with None => true | Some d => negb (Qle_bool d new) end.
  Fixpoint iterate (fuel : nat) (states : list nat) (V : list Q) (value : Q) (delta : option Q) (trained : bool) : outcome (list Q * bool) :=
    if go_on delta then
      match fuel with
      | 0 => Fuel
      | S f =>
          bindO (sweep (rev states) V 0 trained) (fun _ => (V, trained)) (fun '(V1, value1, trained1) =>
          let new_delta := Qabs (value1 - value) in
          iterate f states V1 value1 (if less new_delta delta then Some new_delta else delta) trained1)
      end
    else Ok (V, trained).

  (** value_iteration.hpp 231-238: the policy entry of a step; [std::int64_t] to [std::size_t] of a non-negative number *)
  Definition extend (policy : list (nat * nat)) (s a : nat) : list (nat * nat) :=
    if (0 <=? edge a)%Z then policy ++ [(candidate s, Z.to_nat (edge a))]
    else match rev policy with [] => policy | last :: _ => policy ++ [last] end.

  (** value_iteration.hpp 193-247: following the best actions; the first part of the result is the policy, the second [rewards] *)
  Fixpoint follow (fuel : nat) (V : list Q) (s : nat) (policy : list (nat * nat)) (rewards : list Q) : outcome (list (nat * nat) * list Q) :=
    match acts s with
    | [] => Ok (policy, rewards)
    | _ =>
        match fuel with
        | 0 => Fuel
        | S f =>
            bindO (best V s (acts s) None) (fun _ => (policy, rewards)) (fun m =>
            match m with
            | None => UB (* not reached: there is an action *)
            | Some (a, _) =>
                let '(n, a1, r, done) := stp s a in
                let policy1 := extend policy s a1 in
                if done then Ok (policy1, rewards ++ [r]) else follow f V n policy1 (rewards ++ [r])
            end)
        end
    end.

  (** value_iteration.hpp 97-252: [operator()]; the vector [V] is at least as long as the highest state requires *)
  Definition learn (fuel extra : nat) : outcome (list (nat * nat) * list Q) :=
    bindO (generate_states fuel) (fun _ => ([], [])) (fun '(states, highest) =>
    bindO (iterate fuel states (repeat 0%Q (S highest + extra)) 0 None false) (fun _ => ([], [])) (fun '(V, trained) =>
    if trained then follow fuel V start [] [] else Ok ([], []))).
End Value.
