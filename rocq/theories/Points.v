(** Model of the comparison of points: geometry/point.hpp, geometry/algorithm/equals.hpp, and of the two containers
    keyed by points, [std::set] (geometry/algorithm/compare.hpp 124, 580-587) and [boost::unordered_flat_map]
    (geometry/network/network_import.hpp 160, 178-179).

    A point is the list of its coordinates; the number of coordinates is fixed by the type in the program, so the
    functions are only meant for two lists of the same length.  The coordinates are an abstract type with the two
    comparisons of the processor; NaN and the two zeroes are values of that type.  The functions of the standard
    library are modelled by what they ask of the comparison, not by their trees and tables. *)
From Coq Require Import NArith.
From Verif Require Import Base.

Section Points.
  Variable C : Type.
  Variable ltc eqc : C -> C -> bool.
  (** *** [boost::hash_combine] of a seed with a coordinate *)
  Variable combine : N -> C -> N.

  Definition point := list C.

  (** *** geometry/point.hpp 30-35, 42-45: seed 0, then every coordinate in order *)
  Fixpoint hash_from (seed : N) (a : point) : N :=
    match a with
    | [] => seed
    | x :: a' => hash_from (combine seed x) a'
    end.
  Definition hash_point (a : point) : N := hash_from 0%N a.

  (** *** geometry/point.hpp 37-40, 47-57: all coordinates equal *)
  Fixpoint eq_point (a b : point) : bool :=
    match a, b with
    | x :: a', y :: b' => eqc x y && eq_point a' b'
    | _, _ => true
    end.
  Definition ne_point (a b : point) : bool := negb (eq_point a b).

  (** *** geometry/point.hpp 59-67 *)
  Fixpoint lt_point (a b : point) : bool :=
    match a, b with
    | x :: a', y :: b' => ltc x y || (eqc x y && lt_point a' b')
    | _, _ => false
    end.

  (** *** geometry/point.hpp 69-91 *)
  Definition le_point (a b : point) : bool := negb (lt_point b a).
  Definition gt_point (a b : point) : bool := lt_point b a.
  Definition ge_point (a b : point) : bool := negb (lt_point a b).

  (** *** geometry/algorithm/equals.hpp 31-46: one, two, else three coordinates.  A coordinate the point does not have
      does not compile, [None] here. *)
  Definition eq_at (i : nat) (a b : point) : option bool :=
    match nth_error a i, nth_error b i with
    | Some x, Some y => Some (eqc x y)
    | _, _ => None
    end.
  Definition and_opt (x y : option bool) : option bool :=
    match x, y with Some p, Some q => Some (p && q) | _, _ => None end.
  Definition equals_points (a b : point) : option bool :=
    match length a with
    | 1 => eq_at 0 a b
    | 2 => and_opt (eq_at 0 a b) (eq_at 1 a b)
    | _ => and_opt (and_opt (eq_at 0 a b) (eq_at 1 a b)) (eq_at 2 a b)
    end.

  (** *** compare.hpp 580-587: [std::set::emplace]; the elements in their order.  A point that is neither smaller nor
      larger than an element is taken to be that element and is not inserted. *)
  Fixpoint set_insert (p : point) (s : list point) : list point :=
    match s with
    | [] => [p]
    | q :: s' => if lt_point q p then q :: set_insert p s'
                 else if lt_point p q then p :: s else s
    end.
  (** *** compare.hpp 580-587: both ends of every segment *)
  Definition points_set (segments : list (point * point)) : list point :=
    fold_left (fun s seg => set_insert (snd seg) (set_insert (fst seg) s)) segments [].

  (** *** network_import.hpp 160, 178-179 and the [emplace] after it: a table from points to vertices.  An entry is only
      compared with the key when the hashes are equal. *)
  Section Table.
    Context {V : Type}.
    Definition same_key (p q : point) : bool := N.eqb (hash_point p) (hash_point q) && eq_point p q.
    Definition table_find (p : point) (t : list (point * V)) : option V :=
      option_map snd (find (fun e => same_key p (fst e)) t).
    Definition table_emplace (p : point) (v : V) (t : list (point * V)) : list (point * V) :=
      match table_find p t with
      | Some _ => t
      | None => (p, v) :: t
      end.
  End Table.
End Points.
