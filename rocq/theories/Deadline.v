(** The time limit in value and policy iteration, [learning/algorithms/value_iteration.hpp] and [policy_iteration.hpp].

    As [Value.v] and [Policy.v], but with the calls of [_environment.abort()], which look at the clock (environments/single.hpp 240-242). [C] is the state
    of that clock; [look] gives the next one and the answer. The clock of the program is [timer_look], made of the helper of [Utils.v].
    [_environment.init()] comes before: its own looks at the clock (candidate_search.hpp) have brought the clock to where the learner starts. *)
From Verif Require Import Base Utils.
From Verif Require Export Value Policy.
Open Scope nat_scope.

Section Deadline.
  Context {C : Type}.
  Variable look : C -> C * bool.
  Variable acts : nat -> list nat.
  Variable stp : nat -> nat -> nat * nat * Q * bool.
  Variable start : nat.
  Variable discount threshold : Q.
  Variable candidate : nat -> nat.
  Variable edge : nat -> Z.

  (** value_iteration.hpp 67-87: the actions of a state, with a look at the clock after each; the last part tells whether the loop was left by it *)
  Fixpoint d_discover (s : nat) (l : list nat) (acc : list nat * list nat * nat) (c : C) : list nat * list nat * nat * C * bool :=
    match l with
    | [] => (acc, c, false)
    | a :: r =>
        let acc1 := discover stp s acc a in
        let '(c1, late) := look c in
        if late then (acc1, c1, true) else d_discover s r acc1 c1
    end.
  (** value_iteration.hpp 48-95: [generate_states]; if the time is up, what has been found up to then is returned *)
  Fixpoint d_generate (fuel : nat) (states todo : list nat) (highest : nat) (c : C) : outcome (list nat * nat * C) :=
    match todo with
    | [] => Ok (states, highest, c)
    | s :: todo' =>
        match fuel with
        | 0 => Fuel
        | S f =>
            let '(states1, todo1, highest1, c1, late) := d_discover s (acts s) (states, todo', highest) c in
            if late then Ok (states1, highest1, c1) else d_generate f states1 todo1 highest1 c1
        end
    end.

  (** value_iteration.hpp 136-173: one sweep; [None] if it was left because the time is up *)
  Fixpoint d_sweep (l : list nat) (V : list Q) (value : Q) (trained : bool) (c : C) : outcome (option (list Q * Q * bool) * C) :=
    match l with
    | [] => Ok (Some (V, value, trained), c)
    | s :: r =>
        bindO (best stp discount V s (acts s) None) (fun _ => (None, c)) (fun m =>
        derefO (match m with None => Some (V, value, trained) | Some (_, x) => option_map (fun V1 => (V1, value + x, true)%Q) (Value.update V s x) end)
          (fun '(V1, value1, trained1) =>
           let '(c1, late) := look c in
           if late then Ok (None, c1) else d_sweep r V1 value1 trained1 c1))
    end.
  (** value_iteration.hpp 128-183 *)
  Fixpoint d_iterate (fuel : nat) (states : list nat) (V : list Q) (value : Q) (delta : option Q) (trained : bool) (c : C) : outcome (option (list Q * bool) * C) :=
    if go_on threshold delta then
      match fuel with
      | 0 => Fuel
      | S f =>
          bindO (d_sweep (rev states) V 0 trained c) (fun x => (None, snd x)) (fun '(x, c1) =>
          match x with
          | None => Ok (None, c1)
          | Some (V1, value1, trained1) =>
              let new_delta := Qabs (value1 - value) in
              d_iterate f states V1 value1 (if less new_delta delta then Some new_delta else delta) trained1 c1
          end)
      end
    else Ok (Some (V, trained), c).

  (** value_iteration.hpp 97-252: [operator()]; [None] is the empty policy returned because the time is up. The last loop (193-247) does not look at the clock. *)
  Definition d_learn (fuel extra : nat) (c : C) : outcome (option (list (nat * nat) * list Q) * C) :=
    let '(c1, late) := look c in
    if late then Ok (None, c1) else
    bindO (d_generate fuel [start] [start] start c1) (fun x => (None, snd x)) (fun '(states, highest, c2) =>
    let '(c3, late) := look c2 in
    if late then Ok (None, c3) else
    bindO (d_iterate fuel states (repeat 0%Q (S highest + extra)) 0 None false c3) (fun x => (None, snd x)) (fun '(x, c4) =>
    match x with
    | None => Ok (None, c4)
    | Some (V, trained) =>
        if trained then bindO (follow acts stp discount candidate edge fuel V start [] []) (fun _ => (None, c4)) (fun r => Ok (Some r, c4))
        else Ok (Some ([], []), c4)
    end)).

  (** policy_iteration.hpp 48-91: here the clock is looked at after each state only *)
  Fixpoint p_generate (fuel : nat) (states todo : list nat) (highest : nat) (c : C) : outcome (list nat * nat * C) :=
    match todo with
    | [] => Ok (states, highest, c)
    | s :: todo' =>
        match fuel with
        | 0 => Fuel
        | S f =>
            let '(states1, todo1, highest1) := fold_left (discover stp s) (acts s) (states, todo', highest) in
            let '(c1, late) := look c in
            if late then Ok (states1, highest1, c1) else p_generate f states1 todo1 highest1 c1
        end
    end.
  (** policy_iteration.hpp 143-185: the evaluation, with a look at the clock after each sweep *)
  Fixpoint p_evaluate (fuel : nat) (states pol : list nat) (V : list Q) (value : Q) (delta : option Q) (c : C) : outcome (option (list Q) * C) :=
    if go_on threshold delta then
      match fuel with
      | 0 => Fuel
      | S f =>
          bindO (esweep stp discount pol (rev states) V 0) (fun _ => (None, c)) (fun '(V1, value1) =>
          let new_delta := Qabs (value1 - value) in
          let '(c1, late) := look c in
          if late then Ok (None, c1)
          else p_evaluate f states pol V1 value1 (if less new_delta delta then Some new_delta else delta) c1)
      end
    else Ok (Some V, c).
  (** policy_iteration.hpp 188-232: the improvement, with a look at the clock after each state *)
  Fixpoint p_improve (V : list Q) (l pol : list nat) (stable trained : bool) (c : C) : outcome (option (list nat * bool * bool) * C) :=
    match l with
    | [] => Ok (Some (pol, stable, trained), c)
    | s :: r =>
        derefO (nth_error pol s) (fun old =>
        bindO (best stp discount V s (acts s) None) (fun _ => (None, c)) (fun m =>
        derefO (match m with None => Some (pol, stable, trained) | Some (a, _) => option_map (fun pol1 => (pol1, if a =? old then stable else false, true)) (assign pol s a) end)
          (fun '(pol1, stable1, trained1) =>
           let '(c1, late) := look c in
           if late then Ok (None, c1) else p_improve V r pol1 stable1 trained1 c1)))
    end.
  (** policy_iteration.hpp 141-233 *)
  Fixpoint p_rounds (fuel : nat) (states : list nat) (V : list Q) (pol : list nat) (trained : bool) (c : C) : outcome (option (list Q * list nat * bool) * C) :=
    match fuel with
    | 0 => Fuel
    | S f =>
        bindO (p_evaluate fuel states pol V 0 None c) (fun x => (None, snd x)) (fun '(x, c1) =>
        match x with
        | None => Ok (None, c1)
        | Some V1 =>
            bindO (p_improve V1 (rev states) pol true trained c1) (fun x => (None, snd x)) (fun '(x, c2) =>
            match x with
            | None => Ok (None, c2)
            | Some (pol1, stable, trained1) => if stable then Ok (Some (V1, pol1, trained1), c2) else p_rounds f states V1 pol1 trained1 c2
            end)
        end)
    end.
  (** policy_iteration.hpp 93-278: [operator()]; the first actions (128-137) and the last loop (235-273) go without the clock *)
  Definition p_learn (fuel extraV extraP : nat) (c : C) : outcome (option (list (nat * nat) * list Q) * C) :=
    let '(c1, late) := look c in
    if late then Ok (None, c1) else
    bindO (p_generate fuel [start] [start] start c1) (fun x => (None, snd x)) (fun '(states, highest, c2) =>
    let '(c3, late) := look c2 in
    if late then Ok (None, c3) else
    bindO (initial acts (rev states) (repeat 0 (S highest + extraP))) (fun _ => (None, c3)) (fun pol =>
    bindO (p_rounds fuel states (repeat 0%Q (S highest + extraV)) pol false c3) (fun x => (None, snd x)) (fun '(x, c4) =>
    match x with
    | None => Ok (None, c4)
    | Some (_, pol1, trained) =>
        if trained then bindO (obey acts stp candidate edge fuel pol1 start [] []) (fun _ => (None, c4)) (fun r => Ok (Some r, c4))
        else Ok (Some ([], []), c4)
    end))).
End Deadline.

(** environments/single.hpp 240-242, environments/hmm.hpp 337-339: [abort]; [now k] is what the clock shows at the k-th look, counted from the second part of the state *)
Definition timer_look (now : nat -> Z) (c : timer * nat) : (timer * nat) * bool :=
  let t1 := update_and_has_reached (fst c) (now (snd c)) in ((t1, S (snd c)), tm_reached t1).

(** What [matcher.hpp] 141-146 sees of a learner: the calls it makes of the time helper and the policy it returns; [now i] is what the clock shows at its look number [i] *)
Definition limited (now : nat -> Z) (run : timer * nat -> outcome (option (list (nat * nat) * list Q) * (timer * nat))) (t : timer) : list tcall * outcome (list (nat * nat)) :=
  match run (t, 0) with
  | Ok (x, (_, k)) => (map (fun i => CBoth (now i)) (seq 0 k), Ok (match x with Some (p, _) => p | None => [] end))
  | Throw _ => ([], Throw [])
  | UB => ([], UB)
  | Fuel => ([], Fuel)
  end.

(** environments/single.hpp 97-122: [set]; each step is there if the settings want it. The first one works on the parameter that has been moved from and leaves the
    line of the environment as it is (C42), so it only looks at the clock. *)
Definition single_set {Line : Type} (now : nat -> Z) (filter : bool) (simplify median : option (Line -> Line)) (track : Line) (t : timer) : list tcall * Line :=
  let c := (t, 0) in
  let '(c1, late1) := if filter then timer_look now c else (c, false) in
  if late1 then ([CBoth (now 0)], track) else
  let line2 := match simplify with Some f => f track | None => track end in
  let '(c2, late2) := match simplify with Some _ => timer_look now c1 | None => (c1, false) end in
  let calls := map (fun i => CBoth (now i)) (seq 0 (snd c2)) in
  if late2 then (calls, line2) else (calls, match median with Some f => f line2 | None => line2 end).
