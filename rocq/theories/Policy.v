(** Policy iteration, [src/library/include/learning/algorithms/policy_iteration.hpp].

    The environment and the numbers are as in [Value.v]. [generate_states] (policy_iteration.hpp 48-91) has the text of that of value
    iteration, and so have the value of an action (156-164 and 203-211), the choice of the best one (199-219) and the policy entry of
    a step (258-264). The time limit ([abort]) is left out here; [Deadline.v] adds it. *)
From Verif Require Import Base.
From Verif Require Export Value.

Section Policy.
  Variable acts : nat -> list nat.
  Variable stp : nat -> nat -> nat * nat * Q * bool.
  Variable start : nat.
  Variable discount threshold : Q.
  Variable candidate : nat -> nat.
  Variable edge : nat -> Z.

  (** [policies[state] = action] *)
  Fixpoint assign (pol : list nat) (s a : nat) : option (list nat) :=
    match pol, s with
    | [], _ => None
    | _ :: r, 0 => Some (a :: r)
    | b :: r, S t => option_map (cons b) (assign r t a)
    end.

  (** policy_iteration.hpp 128-137: the first action of each state, from the last state to the first *)
  Fixpoint initial (l : list nat) (pol : list nat) : outcome (list nat) :=
    match l with
    | [] => Ok pol
    | s :: r => match acts s with [] => initial r pol | a :: _ => derefO (assign pol s a) (fun pol1 => initial r pol1) end
    end.

  (** policy_iteration.hpp 148-171: one sweep of the evaluation; the action of the policy is taken even where no action is offered *)
  Fixpoint esweep (pol l : list nat) (V : list Q) (value : Q) : outcome (list Q * Q) :=
    match l with
    | [] => Ok (V, value)
    | s :: r =>
        derefO (nth_error pol s) (fun a =>
        bindO (action_value stp discount V s a) (fun _ => (V, value)) (fun x =>
        derefO (update V s x) (fun V1 => esweep pol r V1 (value + x))))
    end.

  (** policy_iteration.hpp 143-185: the evaluation; [None] is the infinite [delta] *)
  Fixpoint evaluate (fuel : nat) (states pol : list nat) (V : list Q) (value : Q) (delta : option Q) : outcome (list Q) :=
    if go_on threshold delta then
      match fuel with
      | 0 => Fuel
      | S f =>
          bindO (esweep pol (rev states) V 0) (fun _ => V) (fun '(V1, value1) =>
          let new_delta := Qabs (value1 - value) in
          evaluate f states pol V1 value1 (if less new_delta delta then Some new_delta else delta))
      end
    else Ok V.

  (** policy_iteration.hpp 188-232: the improvement; the result is the policy, [stable] and [trained] *)
  Fixpoint improve (V : list Q) (l pol : list nat) (stable trained : bool) : outcome (list nat * bool * bool) :=
    match l with
    | [] => Ok (pol, stable, trained)
    | s :: r =>
        derefO (nth_error pol s) (fun old =>
        bindO (best stp discount V s (acts s) None) (fun _ => (pol, stable, trained)) (fun m =>
        match m with
        | None => improve V r pol stable trained
        | Some (a, _) => derefO (assign pol s a) (fun pol1 => improve V r pol1 (if a =? old then stable else false) true)
        end))
    end.

  (** policy_iteration.hpp 141-233: the rounds *)
  Fixpoint rounds (fuel : nat) (states : list nat) (V : list Q) (pol : list nat) (trained : bool) : outcome (list Q * list nat * bool) :=
    match fuel with
    | 0 => Fuel
    | S f =>
        bindO (evaluate fuel states pol V 0 None) (fun _ => (V, pol, trained)) (fun V1 =>
        bindO (improve V1 (rev states) pol true trained) (fun _ => (V1, pol, trained)) (fun '(pol1, stable, trained1) =>
        if stable then Ok (V1, pol1, trained1) else rounds f states V1 pol1 trained1))
    end.

  (** policy_iteration.hpp 235-273: following the policy; the first part of the result is the policy, the second [rewards] *)
  Fixpoint obey (fuel : nat) (pol : list nat) (s : nat) (policy : list (nat * nat)) (rewards : list Q) : outcome (list (nat * nat) * list Q) :=
    match acts s with
    | [] => Ok (policy, rewards)
    | _ =>
        match fuel with
        | 0 => Fuel
        | S f =>
            derefO (nth_error pol s) (fun a =>
            let '(n, a1, r, done) := stp s a in
            let policy1 := extend candidate edge policy s a1 in
            if done then Ok (policy1, rewards ++ [r]) else obey f pol n policy1 (rewards ++ [r]))
        end
    end.

  (** policy_iteration.hpp 93-278: [operator()]; both vectors are at least as long as the highest state requires *)
  Definition plearn (fuel extraV extraP : nat) : outcome (list (nat * nat) * list Q) :=
    bindO (generate_states acts stp start fuel) (fun _ => ([], [])) (fun '(states, highest) =>
    bindO (initial (rev states) (repeat 0 (S highest + extraP))) (fun _ => ([], [])) (fun pol =>
    bindO (rounds fuel states (repeat 0%Q (S highest + extraV)) pol false) (fun _ => ([], [])) (fun '(_, pol1, trained) =>
    if trained then obey fuel pol1 start [] [] else Ok ([], [])))).
End Policy.
