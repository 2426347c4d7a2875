(** Specification vocabulary for shortest paths. *)
From Verif Require Import Base.

Section Spec.
  Context {W : Type}.
  Variable add : W -> W -> W.
  Variable leb : W -> W -> bool.
  Variable zero : W.
  Variable adj : nat -> list (nat * W).

  (** lengths are totally ordered (no NaN, one zero) *)
  Record total_order : Prop := {
    to_refl : forall a, leb a a = true;
    to_trans : forall a b c, leb a b = true -> leb b c = true -> leb a c = true;
    to_total : forall a b, leb a b = true \/ leb b a = true;
    to_antisym : forall a b, leb a b = true -> leb b a = true -> a = b
  }.
  (** adding an edge length on the right is monotone; holds for exact and for rounded addition *)
  Definition monotone_add : Prop := forall a b w, leb a b = true -> leb (add a w) (add b w) = true.
  (** edge lengths are not negative; with rounded addition this says that adding one never decreases *)
  Definition non_negative : Prop := forall u v w, In (v, w) (adj u) -> forall a, leb a (add a w) = true.

  (** the path along the vertices [l] from [s] to [v], of length [d] (added up from the start) *)
  Inductive path (s : nat) : list nat -> nat -> W -> Prop :=
  | path_start : path s [s] s zero
  | path_edge l u d v w : path s l u d -> In (v, w) (adj u) -> path s (l ++ [v]) v (add d w).

  Definition connected_to (s v : nat) : Prop := exists l d, path s l v d.

  (** [d] is the length of a shortest path from [s] to [v] *)
  Definition shortest (s v : nat) (d : W) : Prop :=
    (exists l, path s l v d) /\ forall l d', path s l v d' -> leb d d' = true.

  (** all vertices of the graph that matter: the start and all edge targets *)
  Definition vertices_in (vs : list nat) : Prop := forall u v w, In (v, w) (adj u) -> In v vs.

  (** number of edges *)
  Definition edge_count (vs : list nat) : nat := fold_right (fun v n => length (adj v) + n) 0 vs.

  (** [h] is consistent: along an edge the estimate drops by at most the length of the edge; stated with
      a distance [d] in front, as the search adds it *)
  Definition consistent (h : nat -> W) : Prop :=
    forall d u v w, In (v, w) (adj u) -> leb (add d (h u)) (add (add d w) (h v)) = true.
  (** exact addition can be cancelled; this does not hold for rounded addition *)
  Definition cancels : Prop := forall a b c, leb (add a c) (add b c) = true -> leb a b = true.
End Spec.
