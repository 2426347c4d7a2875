(** The environments and learners of the parts of a track, and the references between them: [matching/matcher.hpp] 113-168,
    [learning/algorithms/*.hpp] (a learner keeps a reference to its environment), [io/results/match/csv_candidates_exporter.hpp] 74-78.

    A vector has a capacity and a number that changes with every reallocation; a reference is that number and an index, and using one of an earlier
    allocation is undefined behaviour. How a full vector grows is an oracle. What [set], the learner and [result] do is described by C41-C68; here
    they are functions of the environment. *)
From Verif Require Import Base.
Local Open Scope nat_scope.

Record vec (A : Type) := mkVec { items : list A; cap : nat; alloc : nat }.
Arguments mkVec {A} items cap alloc.
Arguments items {A} v.
Arguments cap {A} v.
Arguments alloc {A} v.
Definition empty_vec {A : Type} : vec A := mkVec [] 0 0.
Record ref := mkRef { r_alloc : nat; r_pos : nat }.

Section Vec.
  Context {A : Type}.
  Variable grow : nat -> nat.
  (** [std::vector::reserve]: a vector is never made smaller *)
  Definition reserve (n : nat) (v : vec A) : vec A := if cap v <? n then mkVec (items v) n (S (alloc v)) else v.
  (** [std::vector::emplace_back]: all references go stale if the vector is full; the reference returned is to the last entry *)
  Definition emplace_back (v : vec A) (x : A) : vec A * ref :=
    let w := if length (items v) <? cap v then mkVec (items v ++ [x]) (cap v) (alloc v)
             else mkVec (items v ++ [x]) (grow (cap v)) (S (alloc v)) in
    (w, mkRef (alloc w) (length (items v))).
  Definition fetch {B} (v : vec A) (r : ref) (k : A -> outcome B) : outcome B :=
    if r_alloc r =? alloc v then derefO (nth_error (items v) (r_pos r)) k else UB.
  Fixpoint put_nth (l : list A) (i : nat) (x : A) : list A :=
    match l, i with
    | [], _ => []
    | _ :: r, 0 => x :: r
    | y :: r, S j => y :: put_nth r j x
    end.
  Definition store (v : vec A) (r : ref) (x : A) : outcome (vec A) :=
    fetch v r (fun _ => Ok (mkVec (put_nth (items v) (r_pos r) x) (cap v) (alloc v))).
End Vec.

Section Parts.
  Context {Track Env Policy Route : Type}.
  Variable grow : nat -> nat.
  Variable fresh : Env.
  Variable set : Env -> Track -> Env.
  Variable learn : Env -> Env * Policy.
  Variable no_policy : Policy.
  Variable result : Env -> Policy -> Route.
  (** whether the time is up after [set] (141), and after the part (164) *)
  Variable late : nat -> bool.
  Variable stop : nat -> bool.

  Record state := mkState { p_envs : vec Env; p_learners : vec ref; p_policies : list Policy; p_matches : list Route }.

  (** matcher.hpp 130-162 *)
  Definition part (i : nat) (track : Track) (s : state) : outcome state :=
    let '(envs1, environment) := emplace_back grow (p_envs s) fresh in
    let '(learners1, learner) := emplace_back grow (p_learners s) environment in
    bindO (fetch envs1 environment (fun e => store envs1 environment (set e track))) (fun _ => s) (fun envs2 =>
    bindO (if late i then Ok (envs2, no_policy)
           else fetch learners1 learner (fun own => fetch envs2 own (fun e =>
                bindO (store envs2 own (fst (learn e))) (fun v => (v, no_policy)) (fun v => Ok (v, snd (learn e))))))
      (fun _ => s) (fun '(envs3, policy) =>
    fetch envs3 environment (fun e =>
    Ok (mkState envs3 learners1 (p_policies s ++ [policy]) (p_matches s ++ [result e policy]))))).
  (** matcher.hpp 129-168 *)
  Fixpoint parts (i : nat) (tracks : list Track) (s : state) : outcome state :=
    match tracks with
    | [] => Ok s
    | track :: rest => bindO (part i track s) (fun s1 => s1) (fun s1 => if stop i then Ok s1 else parts (S i) rest s1)
    end.
  (** matcher.hpp 113-115 and the loop *)
  Definition match_parts (tracks : list Track) : outcome state :=
    parts 0 tracks (mkState (reserve (length tracks) empty_vec) (reserve (length tracks) empty_vec) [] []).

  (** csv_candidates_exporter.hpp 74-78: environment and policy of each part; [at] throws past the end *)
  Definition exported (s : state) : outcome (list (Env * Policy)) :=
    mapO (fun i => match nth_error (items (p_envs s)) i, nth_error (p_policies s) i with
                   | Some e, Some p => Ok (e, p)
                   | Some e, None => Throw (e, no_policy)
                   | None, _ => UB
                   end) (seq 0 (length (items (p_envs s)))).
End Parts.
