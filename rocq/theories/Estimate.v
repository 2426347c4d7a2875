(** Model of the estimate that guides A*: geometry/network/network.hpp 256-278 and geometry/algorithm/distance.hpp 67-91.

    The length of an edge is the sum of the distances of its consecutive points (rich_line.hpp computes it so); its first
    and last point are the points of its two vertices.  [euclid] is the straight distance of two points in the unit of the
    coordinates, [metres] the distance that the lengths are measured with: the same on the plane, but on the sphere
    (distance.hpp 29-32) and on the ellipsoid the coordinates are degrees and the lengths metres. *)
From Verif Require Import Base.

Section Estimate.
  Context {P W : Type}.
  Variable add : W -> W -> W.
  Variable zero : W.
  Variable metres euclid : P -> P -> W.
  (** the points of the vertices *)
  Variable at_ : nat -> P.
  (** the out-edges of each vertex: target and points *)
  Variable lines : nat -> list (nat * list P).

  Fixpoint line_sum (l : list P) : W :=
    match l with
    | a :: ((b :: _) as rest) => add (metres a b) (line_sum rest)
    | _ => zero
    end.

  (** *** network.hpp 265-267: the weight of an edge is the length of its line *)
  Definition weighted (u : nat) : list (nat * W) := map (fun e => (fst e, line_sum (snd e))) (lines u).

  (** *** network.hpp 269-274: the estimate from a vertex to the goal *)
  Definition estimate (goal v : nat) : W := euclid (at_ v) (at_ goal).
End Estimate.
