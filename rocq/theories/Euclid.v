(** Model of geometry/algorithm/distance.hpp 67-91 on exact real numbers: the straight distance of two points with one,
    two or three coordinates.  Rounding, overflow and NaN are not modelled here. *)
From Coq Require Import Reals.
From Verif Require Import Base.
Local Open Scope R_scope.

(** *** distance.hpp 80-87: [std::pow(x - y, 2)] of one coordinate *)
Definition squared (i : nat) (a b : list R) : R := (nth i a 0 - nth i b 0) * (nth i a 0 - nth i b 0).

(** *** distance.hpp 67-91; [n] is the dimension of the two points *)
Definition euclidean_distance (n : nat) (a b : list R) : R :=
  match n with
  | 1%nat => sqrt (0 + squared 0 a b)
  | 2%nat => sqrt (0 + squared 0 a b + squared 1 a b)
  | _ => sqrt (0 + squared 0 a b + squared 1 a b + squared 2 a b)
  end.

(** The order of real numbers as a test, as the priority queue compares. *)
Definition Rleb (x y : R) : bool := if Rle_dec x y then true else false.
