(** Model of the measures of lines and segments: geometry/algorithm/direction.hpp, azimuth.hpp, length.hpp and
    distance.hpp 24-36.

    [az] is the azimuth of two points in degrees (azimuth.hpp 56-61; its cache is modelled in DistCache.v), [rnd] the
    rounding of the floating point format, [unit_distance] the distance that boost computes: on the plane in the unit of
    the coordinates, on the sphere for the radius one.  NaN and infinities are not modelled. *)
From Coq Require Import QArith Qabs.
From Verif Require Import Base Utils.
Local Open Scope nat_scope.

Section Measures.
  Variable P : Type.
  Variable rnd : Q -> Q.
  Variable az : P -> P -> Q.
  Variable unit_distance : P -> P -> Q.

  Definition segment := (P * P)%type.

  (** *** direction.hpp 29-32 *)
  Definition direction_az (a b : Q) : Q := angle_diff rnd a b.
  (** *** direction.hpp 34-39 *)
  Definition direction (a b c : P) : Q := angle_diff rnd (az a b) (az b c).

  (** *** direction.hpp 41-50: the sum over all three consecutive points *)
  Fixpoint directions_from (acc : Q) (line : list P) : Q :=
    match line with
    | a :: ((b :: c :: _) as rest) => directions_from (rnd (acc + direction a b c)%Q) rest
    | _ => acc
    end.
  Definition directions (line : list P) : Q := directions_from 0%Q line.
  (** *** direction.hpp 52-61 *)
  Fixpoint absolute_from (acc : Q) (line : list P) : Q :=
    match line with
    | a :: ((b :: c :: _) as rest) => absolute_from (rnd (acc + Qabs (direction a b c))%Q) rest
    | _ => acc
    end.
  Definition absolute_directions (line : list P) : Q := absolute_from 0%Q line.
  (** *** direction.hpp 63-75 *)
  Fixpoint combined_from (acc : Q * Q) (line : list P) : Q * Q :=
    match line with
    | a :: ((b :: c :: _) as rest) =>
        let d := direction a b c in
        combined_from (rnd (fst acc + d)%Q, rnd (snd acc + Qabs d)%Q) rest
    | _ => acc
    end.
  Definition combined_directions (line : list P) : Q * Q := combined_from (0%Q, 0%Q) line.

  (** *** azimuth.hpp 63-71 *)
  Definition azimuth_line (line : list P) : Q :=
    match line with
    | a :: _ :: _ => az a (List.last line a)
    | _ => 0%Q
    end.
  (** *** azimuth.hpp 73-84 *)
  Definition azimuth_segment (s : segment) : Q := az (fst s) (snd s).
  (** *** azimuth.hpp 86-105 *)
  Definition segments_azimuths (segments : list segment) : list Q := map azimuth_segment segments.

  (** *** direction.hpp 92-94, 125-127, 161-164: [reserve(segments.size() - 1)] wraps around without segments; a
      container that has [reserve] then throws [std::length_error], others do nothing. *)
  Definition reserved {A} (has_reserve : bool) (segments : list segment) (k : A) : outcome A :=
    match segments with
    | [] => if has_reserve then Throw k else Ok k
    | _ => Ok k
    end.

  (** *** direction.hpp 95-101: two consecutive segments; the assertion that they are connected is not compiled in a
      release *)
  Fixpoint dirs_segments (segments : list segment) : list Q :=
    match segments with
    | a :: ((b :: _) as rest) => direction (fst a) (snd a) (snd b) :: dirs_segments rest
    | _ => []
    end.
  (** *** direction.hpp 102-106 *)
  Fixpoint dirs_azimuths (azimuths : list Q) : list Q :=
    match azimuths with
    | a :: ((b :: _) as rest) => direction_az a b :: dirs_azimuths rest
    | _ => []
    end.
  Definition dirs (segments : list segment) (azimuths : list Q) : list Q :=
    match azimuths with [] => dirs_segments segments | _ => dirs_azimuths azimuths end.
  (** *** direction.hpp 77-108, 110-141, 143-182 *)
  Definition segments_directions (has_reserve : bool) (segments : list segment) (azimuths : list Q)
    : outcome (list Q) := reserved has_reserve segments (dirs segments azimuths).
  Definition segments_absolute_directions (has_reserve : bool) (segments : list segment) (azimuths : list Q)
    : outcome (list Q) := reserved has_reserve segments (map Qabs (dirs segments azimuths)).
  Definition segments_combined_directions (has_reserve : bool) (segments : list segment) (azimuths : list Q)
    : outcome (list Q * list Q) :=
    reserved has_reserve segments (dirs segments azimuths, map Qabs (dirs segments azimuths)).

  (** *** distance.hpp 24-36: on the sphere with the radius in metres *)
  Definition distance (spherical : bool) (a b : P) : Q :=
    if spherical then (6371 * 1000 * unit_distance a b)%Q else unit_distance a b.
  (** *** length.hpp 37-48 *)
  Definition length_segment (spherical : bool) (s : segment) : Q := distance spherical (fst s) (snd s).
  (** *** length.hpp 50-69 *)
  Definition segments_lengths (spherical : bool) (segments : list segment) : list Q :=
    map (length_segment spherical) segments.
  (** *** length.hpp 26-35, the sum by [boost::geometry::length]: on the sphere with the radius in kilometres *)
  Fixpoint unit_length (line : list P) : Q :=
    match line with
    | a :: ((b :: _) as rest) => (unit_distance a b + unit_length rest)%Q
    | _ => 0%Q
    end.
  Definition line_length (spherical : bool) (line : list P) : Q :=
    if spherical then (6371 * unit_length line)%Q else unit_length line.
End Measures.
