(** The tolerance of the merge near a network: geometry/algorithm/median_merge.hpp 145-168 (under src/library/include/).

    Distances are rational numbers. A network is the function from a point to what [query_segments_unique] of the nearest
    segment finds, as a list of edges, and the distance from a point to the line of an edge. *)
From Coq Require Import QArith.
From Verif Require Import Base ListAux Median.

Section Adapt.
  Context {C E : Type}.

  Record network := { nearest : C * C -> list E; line_distance : C * C -> E -> Q }.

  (** [std::max(a, b)]: [b] only if [a < b] *)
  Definition std_max (a b : Q) : Q := if Qle_bool b a then a else b.

  (** median_merge.hpp 151-163: [adaptive_tolerance_adjuster] *)
  Definition adaptive_tolerance (adaptive : bool) (net : option network) (tolerance : Q) (p : C * C) : Q :=
    match adaptive, net with
    | true, Some n =>
        match nearest n p with
        | [] => tolerance
        | e :: _ => std_max tolerance (line_distance n p e * (1 # 2))
        end
    | _, _ => tolerance
    end.

  Variable nth_el : nat -> list C -> list C.
  Variable mean : C -> C -> C.
  Variable dist : C * C -> C * C -> Q.
  Variable in_box : C * C -> Q -> C * C -> bool.

  (** buffer.hpp 43-45: a radius that is not positive throws *)
  Definition qpositive (t : Q) : bool := negb (Qle_bool t 0).

  (** median_merge.hpp 145-168 *)
  Definition median_merge_adaptive (fuel : nat) (tolerance : Q) (adaptive : bool) (net : option network) (line : list (C * C)) :
      outcome (list (C * C)) :=
    median_merge nth_el mean dist Qle_bool (adaptive_tolerance adaptive net tolerance) in_box qpositive fuel line.
End Adapt.
Arguments network : clear implicits.
