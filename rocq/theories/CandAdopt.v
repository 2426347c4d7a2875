(** Adopting candidates from other measurements and the final candidates:
    /repo/src/library/include/matching/algorithm/candidate_search.hpp, _finalize_candidates, lines 368-581.
    Simplifications: numbers are rationals; the state is the list of the measurements with their candidate sets (there is one set for
    each point of the track, line 62, so that [at] never fails); a set is a list in the order of the multiset; the index query and the
    distance of a point to a segment are oracles; references to candidates in the index stay valid since a multiset does not move its
    elements; the time limit is in [Limit.v]. *)
From Coq Require Import QArith.
From Verif Require Import Base CandCreate.
Local Open Scope nat_scope.

Section Adopt.
  Context {P : Type}.
  Variable dist : P -> P -> Q.
  Variable eqp : P -> P -> bool.
  (** distance of a point to a segment *)
  Variable seg_dist : P -> P -> P -> Q.
  (** the index: the entries whose segment meets the box with the given half width around the point *)
  Variable query : P -> Q -> list (nat * P * @candidate P) -> list (nat * P * @candidate P).
  Variable source target : nat -> nat.
  Variable vertex_point : nat -> P.

  Definition state := list (P * list (@candidate P)).

  (** candidate_edge.hpp 80-83 *)
  Definition same (a b : @candidate P) : bool := (edge a =? edge b) && eqp (projection a) (projection b).

  (** 371-397: the candidate of another measurement seen from [point]; emplaced unless the same one is there at the same distance *)
  Definition adopt (point : P) (c : @candidate P) : @candidate P :=
    mkC true (edge c) (projection c) (dist point (projection c)) (before c) (after c).
  Definition add_candidate (point : P) (c : @candidate P) (set : list (@candidate P)) : list (@candidate P) :=
    let n := adopt point c in
    if existsb (fun x => negb (lessQ (distance x) (distance n)) && negb (lessQ (distance n) (distance x)) && same x n) set then set else insert n set.

  Fixpoint upd (i : nat) (f : P -> list (@candidate P) -> list (@candidate P)) (st : state) : state :=
    match st, i with
    | [], _ => []
    | (p, s) :: r, 0 => (p, f p s) :: r
    | x :: r, S i' => x :: upd i' f r
    end.

  (** the candidates of one set that are not adopted, added to another *)
  Definition add_all (cs : list (@candidate P)) (point : P) (set : list (@candidate P)) : list (@candidate P) :=
    fold_left (fun acc c => if adopted c then acc else add_candidate point c acc) cs set.
  Definition set_of (st : state) (i : nat) : list (@candidate P) := match nth_error st i with Some (_, s) => s | None => [] end.

  (** 407-436 *)
  Fixpoint index_values (i : nat) (st : state) : list (nat * P * @candidate P) :=
    match st with
    | [] => []
    | (p, s) :: r => map (fun c => (i, p, c)) (filter (fun c => negb (adopted c)) s) ++ index_values (S i) r
    end.

  (** 459-478 *)
  Definition nearby_step (reverse : bool) (i : nat) (st : state) (x : nat * P * @candidate P) : state :=
    let '(j, _, c) := x in
    if i =? j then st
    else let st1 := upd i (fun p s => add_candidate p c s) st in
         if reverse then upd j (add_all (set_of st1 i)) st1 else st1.
  (** 444-488 *)
  Definition nearby_one (reverse : bool) (values : list (nat * P * @candidate P)) (st : state) (i : nat) : state :=
    match nth_error st i with
    | None => st
    | Some (point, set) =>
        match hd_error (rev set) with
        | None => st
        | Some l =>
            if lessQ 0 (distance l)
            then fold_left (nearby_step reverse i)
                   (filter (fun x => let '(_, q, c) := x in Qle_bool (seg_dist point q (projection c)) (distance l)) (query point (distance l) values)) st
            else st
        end
    end.
  (** 399-489 *)
  Definition nearby (reverse : bool) (st : state) : state :=
    fold_left (nearby_one reverse (index_values 0 st)) (seq 0 (length st)) st.

  (** 491-520 *)
  Definition siblings_one (st : state) (i : nat) : state :=
    let st1 := match i with 0 => st | S i' => upd i (add_all (set_of st i')) st end in
    upd i (add_all (set_of st1 (S i))) st1.
  Definition siblings (st : state) : state := fold_left siblings_one (seq 0 (length st)) st.

  (** a multiset of nodes ordered by distance *)
  Fixpoint insert_node (n : nat * Q) (s : list (nat * Q)) : list (nat * Q) :=
    match s with
    | [] => [n]
    | x :: r => if lessQ (snd n) (snd x) then n :: s else x :: insert_node n r
    end.
  (** 537-549 *)
  Definition add_node (point : P) (v : nat) (x : list (nat * Q) * list nat) : list (nat * Q) * list nat :=
    let '(ns, check) := x in
    if existsb (Nat.eqb v) check then x else (insert_node (v, dist point (vertex_point v)) ns, v :: check).
  (** 529-551 *)
  Definition nodes_of (point : P) (set : list (@candidate P)) : list (nat * Q) :=
    fst (fold_left (fun acc c => add_node point (target (edge c)) (add_node point (source (edge c)) acc)) set ([], [])).

  (** candidate.hpp: index, whether the next point of the track is equal, nodes, edges *)
  Record final := mkF { at_index : nat; next_equal : bool; nodes : list (nat * Q); edges : list (@candidate P) }.
  (** 522-580 *)
  Fixpoint finals (i : nat) (st : state) : list final :=
    match st with
    | [] => []
    | (p, s) :: r => mkF i (match r with (q, _) :: _ => eqp p q | [] => false end) (nodes_of p s) s :: finals (S i) r
    end.

  Definition adoptions (use_nearby reverse use_siblings : bool) (st : state) : state :=
    let st1 := if use_nearby then nearby reverse st else st in
    if use_siblings then siblings st1 else st1.
  Definition finalize (use_nearby reverse use_siblings : bool) (st : state) : list final :=
    finals 0 (adoptions use_nearby reverse use_siblings st).
End Adopt.
