(** Q-learning, [src/library/include/learning/algorithms/q_learning.hpp].

    The environment is as in [Value.v]; its actions come in the order of their rewards there ([intelligent_action], set by the
    constructor, q_learning.hpp 43). The random numbers are an oracle: [explore n] tells whether in the n-th step the epsilon test fails,
    [pick n] is the number drawn from the exponential distribution, truncated. The time limit is an oracle as well: [late n] is the result of
    [abort] after the n-th episode. Numbers are rational, minus infinity is [None]. *)
From Verif Require Import Base.
From Verif Require Export Value.

Section QLearn.
  Variable acts : nat -> list nat.
  Variable stp : nat -> nat -> nat * nat * Q * bool.
  Variable start : nat.
  Variable candidate : nat -> nat.
  Variable edge : nat -> Z.
  (** [_settings.learning_rate], [_settings.discount], [_environment.special_actions] *)
  Variable rate discount : Q.
  Variable special : nat.
  Variable explore : nat -> bool.
  Variable pick : nat -> nat.
  Variable late : nat -> bool.
  (** [improvement_stop] and [max_steps] (q_learning.hpp 74 and 81) *)
  Variable improvement_stop max_steps : nat.

  Definition table := list (list (option Q)).

  (** [std::max_element]: the position and value of the first of the greatest entries *)
  Definition below (x y : option Q) : bool := match x, y with _, None => false | None, Some _ => true | Some a, Some b => negb (Qle_bool b a) end.
  Fixpoint greatest (l : list (option Q)) (i : nat) (m : nat * option Q) : nat * option Q :=
    match l with [] => m | x :: r => greatest r (S i) (if below (snd m) x then (i, x) else m) end.
  (** q_learning.hpp 93-98, 137-142 and 191-199: the action with the greatest value, if there is one above minus infinity *)
  Definition top (row : list (option Q)) : option (nat * Q) :=
    match row with
    | [] => None
    | x :: r => match greatest r 1 (0, x) with (a, Some v) => Some (a, v) | (_, None) => None end
    end.

  (** q_learning.hpp 85-87: doubling the table until it has the state *)
  Fixpoint grow (fuel : nat) (T : table) (s : nat) : outcome table :=
    if s <? length T then Ok T else
    match fuel with
    | 0 => Fuel
    | S f => grow f (T ++ repeat [] (match length T with 0 => 16 | n => n end)) s
    end.

  Fixpoint write {X : Type} (l : list X) (i : nat) (x : X) : option (list X) :=
    match l, i with
    | [], _ => None
    | _ :: r, 0 => Some (x :: r)
    | y :: r, S j => option_map (cons y) (write r j x)
    end.

  (** q_learning.hpp 100-116: a random action; [actions.size() - 1] of no actions is the greatest number, so [actions[...]] is
      undefined behaviour then *)
  Definition random_action (T : table) (s n : nat) : outcome (table * nat) :=
    derefO (nth_error T s) (fun row =>
    derefO (match row with [] => write T s (repeat None (length (acts s) + special)) | _ => Some T end) (fun T1 =>
    derefO (nth_error (acts s) (Nat.min (length (acts s) - 1) (pick n))) (fun a => Ok (T1, a)))).

  (** q_learning.hpp 89-116: the action of a step *)
  Definition choose (T : table) (s n : nat) : outcome (table * nat) :=
    if explore n then random_action T s n
    else derefO (nth_error T s) (fun row => match top row with Some (a, _) => Ok (T, a) | None => random_action T s n end).

  (** q_learning.hpp 125-128: [Q[state]] gets the action *)
  Definition pad (row : list (option Q)) (a : nat) : list (option Q) := row ++ repeat None (S a - length row).

  (** q_learning.hpp 130-147: the new entry; the formula as it stands there *)
  Definition next_value (T : table) (n : nat) : Q := match nth_error T n with Some row => match top row with Some (_, v) => v | None => 0%Q end | None => 0%Q end.
  Definition new_entry (current : option Q) (reward next : Q) : Q :=
    let c := match current with Some x => x | None => 0%Q end in (c + rate * (reward + discount * next) - c)%Q.
  Definition renew (T : table) (s a : nat) : outcome table :=
    let '(n, _, r, _) := stp s a in
    derefO (nth_error T s) (fun row =>
    let row1 := pad row a in
    derefO (write T s row1) (fun T1 =>
    derefO (nth_error row1 a) (fun current =>
    derefO (write row1 a (Some (new_entry current r (next_value T1 n)))) (fun row2 =>
    derefO (write T1 s row2) (fun T2 => Ok T2))))).

  (** q_learning.hpp 84-154: the steps of an episode; [left] is [max_steps - step], [n] counts the steps of all episodes *)
  Fixpoint steps (left : nat) (T : table) (s n : nat) (score : Q) : outcome (table * nat * Q) :=
    match left with
    | 0 => Ok (T, n, score)
    | S k =>
        bindO (grow (S s) T s) (fun _ => (T, n, score)) (fun T0 =>
        bindO (choose T0 s n) (fun _ => (T0, n, score)) (fun '(T1, a) =>
        let '(m, _, r, done) := stp s a in
        bindO (renew T1 s a) (fun _ => (T1, n, score)) (fun T2 =>
        if done then Ok (T2, S n, (score + r)%Q) else steps k T2 m (S n) (score + r)%Q)))
    end.

  (** q_learning.hpp 176-223: extracting the policy; the score is [None] (minus infinity) if a state or action never visited is met *)
  Fixpoint extract (left : nat) (T : table) (s : nat) (policy : list (nat * nat)) (score : Q) : list (nat * nat) * option Q :=
    match left with
    | 0 => (policy, Some score)
    | S k =>
        match nth_error T s with
        | None => (policy, None)
        | Some row =>
            match top row with
            | None => (policy, None)
            | Some (a, _) =>
                let '(m, b, r, done) := stp s a in
                let policy1 := extend candidate edge policy s b in
                if done then (policy1, Some (score + r)%Q) else extract k T m policy1 (score + r)%Q
            end
        end
    end.

  (** q_learning.hpp 77-238: the episodes; [left] of them are still to be done, [e] is the number of the current one *)
  Fixpoint episodes (left e : nat) (T : table) (n : nat) (best : option Q) (worse : nat) (policy : list (nat * nat)) : outcome (list (nat * nat) * table) :=
    match left with
    | 0 => Ok (policy, T)
    | S k =>
        bindO (steps max_steps T start n 0) (fun _ => (policy, T)) (fun '(T1, n1, score) =>
        let '(best1, worse1) := if below best (Some score) then (Some score, 0) else (best, S worse) in
        if (improvement_stop <=? worse1) || late e then
          let '(policy1, score1) := extract max_steps T1 start [] 0 in
          let worse2 := match score1 with None => 0 | Some _ => worse1 end in
          if below best1 score1 then episodes k (S e) T1 n1 score1 0 policy1
          else if (improvement_stop <=? worse2) || late e then Ok (policy1, T1)
          else episodes k (S e) T1 n1 best1 worse2 policy1
        else episodes k (S e) T1 n1 best1 worse1 policy)
    end.

  (** q_learning.hpp 50-241: [operator()] with [_settings.episodes]; [late 0] is the test before the episodes *)
  Definition qlearn (count : nat) : outcome (list (nat * nat) * table) :=
    if late 0 then Ok ([], []) else episodes count 1 [] 0 None 0 [].
End QLearn.
