(** Specification vocabulary for traversals: walks in a graph given by its out-neighbours. *)
From Verif Require Import Base.

Section Spec.
  Variable out : nat -> list nat.

  (** a walk of [k] edges from [s] to [v]; no vertex after [s] is in [avoid] *)
  Inductive walk (avoid : list nat) (s : nat) : nat -> nat -> Prop :=
  | walk_start : walk avoid s 0 s
  | walk_edge k u v : walk avoid s k u -> In v (out u) -> ~ In v avoid -> walk avoid s (S k) v.

  Definition reachable (avoid : list nat) (s v : nat) : Prop := exists k, walk avoid s k v.

  (** [k] is the least number of edges needed to get from [s] to [v] *)
  Definition hops (avoid : list nat) (s v k : nat) : Prop :=
    walk avoid s k v /\ forall k', walk avoid s k' v -> k <= k'.

  (** all out-neighbours are among the finitely many vertices [vs] *)
  Definition closed_in (vs : list nat) : Prop := forall u v, In v (out u) -> In v vs.
End Spec.
