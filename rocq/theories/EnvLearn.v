(** Value iteration on the step-wise environment itself, [learning/algorithms/value_iteration.hpp] on
    [environment/environments/single.hpp]: as [Value.v], but asking the environment of [Env.v], which gives numbers to
    its states while they are met, and whose current state is set and read. The time limit ([abort]) is in [Deadline.v] and [Limit.v]. *)
From Verif Require Import Base Env Value.
Open Scope nat_scope.

Section EnvLearn.
  Variable cands : list nat.
  Variable state_size : nat.
  Variable first_reward : istate -> iaction -> Q.
  Variable judge : istate -> iaction -> @verdict Q.
  Variable sort : list (nat * Q) -> list (nat * Q).
  (** [_environment.intelligent_action] *)
  Variable intelligent : bool.
  Variable discount threshold : Q.
  Notation env := (@env Q).
  Notation step := (step 0%Q cands state_size first_reward judge).
  Notation actions := (actions 0%Q cands state_size first_reward judge sort intelligent).

  (** value_iteration.hpp 66-82: trying an action while looking for states *)
  Definition e_discover (s : nat) (acc : env * list nat * list nat * nat) (a : nat) : outcome (env * list nat * list nat * nat) :=
    let '(e, states, todo, highest) := acc in
    bindO (step e a) (fun _ => acc) (fun '(e1, r) =>
    let n := r_state r in
    let '(states1, todo1) := if negb (r_done r) && negb (existsb (Nat.eqb n) states) then (states ++ [n], todo ++ [n]) else (states, todo) in
    Ok (set_cur e1 s, states1, todo1, if highest <? n then n else highest)).
  (** value_iteration.hpp 58-91 *)
  Fixpoint e_generate (fuel : nat) (e : env) (states todo : list nat) (highest : nat) : outcome (env * list nat * nat) :=
    match todo with
    | [] => Ok (e, states, highest)
    | s :: todo' =>
        match fuel with
        | 0 => Fuel
        | S f =>
            bindO (actions (set_cur e s)) (fun _ => (e, states, highest)) (fun '(e1, l) =>
            bindO (foldO (e_discover s) l (e1, states, todo', highest)) (fun _ => (e, states, highest)) (fun '(e2, states1, todo1, highest1) =>
            e_generate f e2 states1 todo1 highest1))
        end
    end.

  (** value_iteration.hpp 144-161 and 205-223: the first of the best actions and its value; the environment is in the state [s] again after each *)
  Definition e_value (V : list Q) (r : @result Q) : outcome Q :=
    if r_done r then Ok (r_reward r) else derefO (nth_error V (r_state r)) (fun v => Ok (r_reward r + discount * v)%Q).
  Fixpoint e_best (V : list Q) (s : nat) (l : list nat) (m : option (nat * Q)) (e : env) : outcome (env * option (nat * Q)) :=
    match l with
    | [] => Ok (e, m)
    | a :: t =>
        bindO (step e a) (fun _ => (e, m)) (fun '(e1, r) =>
        bindO (e_value V r) (fun _ => (e, m)) (fun x => e_best V s t (if better x m then Some (a, x) else m) (set_cur e1 s)))
    end.

  (** value_iteration.hpp 132-173 *)
  Fixpoint e_sweep (l : list nat) (V : list Q) (value : Q) (trained : bool) (e : env) : outcome (env * (list Q * Q * bool)) :=
    match l with
    | [] => Ok (e, (V, value, trained))
    | s :: r =>
        bindO (actions (set_cur e s)) (fun _ => (e, (V, value, trained))) (fun '(e1, as_) =>
        bindO (e_best V s as_ None e1) (fun _ => (e, (V, value, trained))) (fun '(e2, m) =>
        match m with
        | None => e_sweep r V value trained e2
        | Some (_, x) => derefO (update V s x) (fun V1 => e_sweep r V1 (value + x)%Q true e2)
        end))
    end.
  (** value_iteration.hpp 128-183 *)
  Fixpoint e_iterate (fuel : nat) (states : list nat) (V : list Q) (value : Q) (delta : option Q) (trained : bool) (e : env) : outcome (env * (list Q * bool)) :=
    if go_on threshold delta then
      match fuel with
      | 0 => Fuel
      | S f =>
          bindO (e_sweep (rev states) V 0 trained e) (fun _ => (e, (V, trained))) (fun '(e1, (V1, value1, trained1)) =>
          let new_delta := Qabs (value1 - value) in
          e_iterate f states V1 value1 (if less new_delta delta then Some new_delta else delta) trained1 e1)
      end
    else Ok (e, (V, trained)).

  (** value_iteration.hpp 193-247; [state] is the local variable, [state2internal] gives the candidate of the state before the step *)
  Fixpoint e_follow (fuel : nat) (V : list Q) (state : nat) (policy : list (nat * nat)) (rewards : list Q) (e : env) : outcome (env * (list (nat * nat) * list Q)) :=
    bindO (actions e) (fun _ => (e, (policy, rewards))) (fun '(e1, l) =>
    match l with
    | [] => Ok (e1, (policy, rewards))
    | _ =>
        match fuel with
        | 0 => Fuel
        | S f =>
            bindO (e_best V state l None e1) (fun _ => (e, (policy, rewards))) (fun '(e2, m) =>
            match m with
            | None => UB (* not reached: there is an action *)
            | Some (a, _) =>
                bindO (step e2 a) (fun _ => (e, (policy, rewards))) (fun '(e3, r) =>
                derefO (nth_error (st_list e3) (st_cur e2)) (fun si =>
                derefO (back si) (fun c =>
                let policy1 := extend (fun _ => Z.to_nat c) action2internal policy state (r_action r) in
                if r_done r then Ok (e3, (policy1, rewards ++ [r_reward r]))
                else e_follow f V (r_state r) policy1 (rewards ++ [r_reward r]) e3)))
            end)
        end
    end).

  (** value_iteration.hpp 97-252: [operator()], after the candidates have been found *)
  Definition e_learn (fuel extra cur : nat) : outcome (env * (list (nat * nat) * list Q)) :=
    let '(e0, start) := reset cands (init_env cur) in
    bindO (e_generate fuel e0 [start] [start] start) (fun _ => (e0, ([], []))) (fun '(e1, states, highest) =>
    bindO (e_iterate fuel states (repeat 0%Q (S highest + extra)) 0 None false e1) (fun _ => (e0, ([], []))) (fun '(e2, (V, trained)) =>
    let '(e3, state) := reset cands e2 in
    if trained then e_follow fuel V state [] [] e3 else Ok (e3, ([], [])))).
End EnvLearn.
