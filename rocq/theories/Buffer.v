(** Buffers around points and segments: /repo/src/library/include/geometry/algorithm/buffer.hpp, lines 38-133.
    Simplifications: coordinates are rational numbers and the coordinate system is cartesian (64-69; for the other systems boost
    computes the points of the circle on the sphere or on the ellipsoid); the multi polygon of boost is its one ring. *)
From Coq Require Import QArith.
From Verif Require Import Base Utils.
Local Open Scope Q_scope.

Definition pt : Type := (Q * Q)%type.
(** lower left and upper right corner *)
Definition rect : Type := (pt * pt)%type.

Section Buffer.
  (** cosine and sine of the [i]-th of [n] angles around the circle, clockwise from the right, as boost's [point_circle] takes them *)
  Variable cosine sine : nat -> nat -> Q.

  Definition circle_point (p : pt) (radius : Q) (n i : nat) : pt := (fst p + radius * cosine n i, snd p + radius * sine n i).
  (** the ring is closed with its first point *)
  Definition ring (p : pt) (radius : Q) (n : nat) : list pt := map (circle_point p radius n) (seq 0 n ++ [0%nat]).

  (** 38-74 [buffer(point, buffer_radius, buffer_points)] *)
  Definition buffer (p : pt) (radius : Q) (n : nat) : outcome (list pt) :=
    if Qle_bool radius 0 then Throw [] else Ok (ring p radius n).

  (** 79: the conversion to a 64-bit unsigned integer cuts the fraction off and is undefined if the result does not fit *)
  Definition to_uint64 (x : Q) : outcome N :=
    let z := Z.quot (Qnum x) (Zpos (Qden x)) in
    if (z <? 0)%Z || (2 ^ 64 <=? z)%Z then UB else Ok (Z.to_N z).
  (** 76-83 [buffer(point, buffer_radius)]: the number of points of the circle, and the buffer *)
  Definition points_for (radius : Q) : outcome N :=
    bindO (to_uint64 (radius / 4)) (fun n => n) (fun n => Ok (N.max (next_pow2 n) 8)).
  Definition round_buffer (p : pt) (radius : Q) : outcome (list pt) :=
    bindO (points_for radius) (fun _ => []) (fun n => buffer p radius (N.to_nat n)).

  (** std::min and std::max return their first argument unless the second is smaller (larger) *)
  Definition smaller (a b : Q) : Q := if negb (Qle_bool a b) then b else a.
  Definition larger (a b : Q) : Q := if negb (Qle_bool b a) then b else a.
  (** 95-96: [boost::geometry::envelope] of the ring; without points there is none *)
  Definition grow (b : rect) (p : pt) : rect :=
    ((smaller (fst (fst b)) (fst p), smaller (snd (fst b)) (snd p)), (larger (fst (snd b)) (fst p), larger (snd (snd b)) (snd p))).
  Definition envelope (l : list pt) : option rect :=
    match l with [] => None | p :: r => Some (fold_left grow r (p, p)) end.

  (** 85-99 [buffer_box]; after an exception there is no box *)
  Definition buffer_box (p : pt) (radius : Q) : outcome (option rect) :=
    bindO (buffer p radius 4) (fun _ => None) (fun r => Ok (envelope r)).

  (** 112-115: the infinities the coordinates start with are [None] *)
  Definition found : Type := (option Q * option Q * option Q * option Q)%type.
  Definition smaller_o (a : option Q) (b : Q) : option Q := match a with None => Some b | Some a => Some (smaller a b) end.
  Definition larger_o (a : option Q) (b : Q) : option Q := match a with None => Some b | Some a => Some (larger a b) end.
  (** 117-128 [coordinate_finder] *)
  Definition finder (radius : Q) (p : pt) (f : found) : outcome found :=
    bindO (buffer_box p radius) (fun _ => f) (fun b => derefO b (fun b =>
    let '(min_x, min_y, max_x, max_y) := f in
    Ok (smaller_o min_x (fst (fst b)), smaller_o min_y (snd (fst b)), larger_o max_x (fst (snd b)), larger_o max_y (snd (snd b))))).
  (** 101-134 [segment_buffer_box] *)
  Definition segment_buffer_box (s : pt * pt) (radius : Q) : outcome (option rect) :=
    bindO (finder radius (fst s) (None, None, None, None)) (fun _ => None) (fun f =>
    bindO (finder radius (snd s) f) (fun _ => None) (fun f =>
    match f with
    | (Some min_x, Some min_y, Some max_x, Some max_y) => Ok (Some ((min_x, min_y), (max_x, max_y)))
    | _ => Ok None
    end)).
End Buffer.
