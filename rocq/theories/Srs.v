(** Model of the spatial reference systems: /repo/src/library/src/geometry/srs.cpp 24-150, include/geometry/srs.hpp 24-57,
    include/geometry/reprojector.hpp 22-50, include/geometry/algorithm/srs_dispatch.hpp 25-57, algorithm/reproject.hpp 23-78,
    src/geometry/algorithm/reproject.cpp 21-27; its uses in app/prepare.hpp 194-208, in the importers of networks and tracks and in
    matching/matcher.hpp 194-213.

    A reference system has an EPSG code and a type.  What Boost knows of a code is the oracle [latlong] ([None]: no such code, building its
    projection throws).  [forward] is the transformation of Boost between two codes for points of two types (the type decides whether the
    coordinates are angles in degrees).  A point that a function leaves as it was made is [None].  Types of points are compile-time types in the
    program; here they are values. *)
From Coq Require Import ZArith String.
From Verif Require Import Base.
Local Open Scope Z_scope.

(** srs.hpp 24-29 *)
Inductive srs_type := Invalid | Geographic | Spherical | Cartesian.
Definition type_eqb (a b : srs_type) : bool :=
  match a, b with Invalid, Invalid | Geographic, Geographic | Spherical, Spherical | Cartesian, Cartesian => true | _, _ => false end.

Section Srs.
  Context {P : Type}.
  Variable latlong : Z -> option bool.
  Variable forward : Z * srs_type -> Z * srs_type -> P -> P.

  (** srs.hpp 33-57; [proj] and [transform_proj] are given by their codes *)
  Record srs := mkSrs { code : Z; type : srs_type; proj : Z }.
  Record srs_transform := mkTransform { base : srs; t_code : Z; t_type : srs_type; t_proj : Z; transform : bool }.

  (** srs.cpp 28-38 *)
  Definition named_type (s : string) : srs_type :=
    if String.eqb s "geographic" then Geographic
    else if String.eqb s "spherical-equatorial" then Spherical
    else if String.eqb s "cartesian" then Cartesian
    else Invalid.
  (** 40-49: building the projection throws for an unknown code *)
  Definition detected_type (c : Z) : outcome srs_type :=
    match latlong c with Some true => Ok Geographic | Some false => Ok Cartesian | None => Throw Invalid end.
  (** 77-82 *)
  Definition make_transform (b : srs) (c : Z) (t : srs_type) (p : Z) : srs_transform :=
    mkTransform b c t p (negb ((proj b =? p) && type_eqb (type b) t)).
  (** 84-98 *)
  Definition compute_srs (c : Z) (name : string) : outcome srs :=
    if c <? 0 then Throw (mkSrs c Invalid c)
    else
      match named_type name with
      | Invalid => bindO (detected_type c) (fun t => mkSrs c t c) (fun t => Ok (mkSrs c t c))
      | t => Ok (mkSrs c t c)
      end.
  (** 100-128 *)
  Definition compute_srs_transform (c : Z) (name : string) (tc : Z) (tname : string) : outcome srs_transform :=
    let none b := mkTransform b (-1) Invalid (-1) false in
    bindO (compute_srs c name) none (fun b =>
    bindO (match named_type tname with
           | Geographic => if tc <? 0 then Ok (4326, Geographic, 4326) else Ok (tc, Geographic, tc)
           | Cartesian => if tc <? 0 then Ok (3857, Cartesian, 3857) else Ok (tc, Cartesian, tc)
           | Spherical => if tc <? 0 then Ok (c, Spherical, c) else Ok (tc, Spherical, tc)
           | Invalid => if 0 <=? tc then bindO (detected_type tc) (fun _ => (tc, Invalid, tc)) (fun t => Ok (tc, t, tc)) else Ok (tc, Invalid, tc)
           end) (fun _ => none b) (fun r =>
    let '(rc, rt, rp) := r in
    match rt with
    | Invalid => Ok (make_transform b (code b) (type b) (proj b))
    | _ => Ok (make_transform b rc rt rp)
    end)).
  (** 130-145: constructors 68-69, 74-75 *)
  Definition compute_next_srs_transform (t : srs_transform) (c : Z) (ty : srs_type) : srs_transform :=
    if negb (type_eqb (t_type t) Invalid) && negb (code (base t) =? c) && negb (type_eqb (t_type t) ty)
    then make_transform (mkSrs (code (base t)) (t_type t) (code (base t))) c ty c
    else make_transform (mkSrs c ty c) c ty c.

  (** reprojector.hpp 22-50, with the types of its points (the alternative of the variant) *)
  Record reprojector := mkReprojector { r_in : srs_type; r_out : srs_type; r_transform : bool; r_from : Z; r_to : Z }.
  (** reproject.cpp 21-27, srs_dispatch.hpp 25-57: invalid types throw; building the transformation needs both projections *)
  Definition create_point_reprojector (t : srs_transform) : outcome reprojector :=
    let r := mkReprojector (type (base t)) (t_type t) (transform t) (proj (base t)) (t_proj t) in
    match type (base t), t_type t with
    | Invalid, _ | _, Invalid => Throw r
    | _, _ => match latlong (proj (base t)), latlong (t_proj t) with Some _, Some _ => Ok r | _, _ => Throw r end
    end.
  (** reproject.hpp 25-48: [static_assert] holds in both cases, nothing is assigned *)
  Definition reproject_point (r : reprojector) (tin tout : srs_type) (p : P) : option P :=
    if r_transform r then
      if type_eqb (r_out r) tout && type_eqb (r_in r) tin then Some (forward (r_from r, r_in r) (r_to r, r_out r) p) else None
    else if type_eqb tin tout then Some p else None.

  (** *** the callers *)
  (** importers of tracks, e.g. csv_track_importer.hpp 68-80: both types by the dispatch *)
  Definition track_point (t : srs_transform) (r : reprojector) (p : P) : option P := reproject_point r (type (base t)) (t_type t) p.
  (** io/helper/osm_handler_helper.hpp 110-122: longitude and latitude, into the point of the network *)
  Definition osm_point (t : srs_transform) (r : reprojector) (p : P) : option P := reproject_point r Geographic (t_type t) p.
  (** arc_node_importer.hpp 75-79, seattle_importer.hpp 80-91, melbourne_importer.hpp, giscup_importer.hpp 74-81: the point that is read already has
      the type of the points of the network, app/network.cpp 50-60 *)
  Definition file_point (t : srs_transform) (r : reprojector) (p : P) : option P := reproject_point r (t_type t) (t_type t) p.
  (** app/prepare.hpp 194-208, osm_exporter.hpp 57-60, 118, 133-134, 176-178 *)
  Definition export_reprojector (t : srs_transform) : outcome reprojector := create_point_reprojector (compute_next_srs_transform t 4326 Geographic).
  Definition export_point (t : srs_transform) (r : reprojector) (p : P) : option P := reproject_point r (t_type t) Geographic p.
  (** matcher.hpp 198-212: a track is matched if its points have the type of the points of the network *)
  Definition track_accepted (network : srs) (t : srs_transform) : bool := type_eqb (type network) (t_type t).
End Srs.
