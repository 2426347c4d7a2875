(** Cutting a part out of a line, [src/library/include/geometry/algorithm/substring.hpp].

    Points and lengths are arbitrary types with arbitrary operations. The comparisons of lengths come from one relation
    [leb], i.e. no length is NaN. Only the points of the lines are modelled here; the attributes of the lines that [sub_rich_line]
    and [merge] yield are the subject of RichLine.v. [Throw]: an exception is raised. *)
From Verif Require Import Base ListAux RichLine.

Section Substring.
  Context {P L : Type}.
  Variable eqp : P -> P -> bool.
  (** [geometry::distance] and, what is taken to be the same, the length of a segment *)
  Variable dist : P -> P -> L.
  Variable addL : L -> L -> L.
  Variable zeroL : L.
  Variable leb : L -> L -> bool.
  (** [boost::geometry::line_interpolate(line, distance, point)] *)
  Variable interp : list P -> L -> P.
  (** [boost::geometry::closest_points(point, segment, projection)]: [projection.second]; [projection.first] is the point *)
  Variable closest : P -> P * P -> P.

  Definition ltb (a b : L) : bool := negb (leb b a).
  Definition eqL (a b : L) : bool := leb a b && leb b a.

  (** substring.hpp 75-90: the loop over the segments; [current_distance], [found], [from_index]. [length()] of a segment
      without length raises (rich_segment.hpp 119-125, eager_rich_line.hpp 289-291). [size] is the initial [to_index]. *)
  Fixpoint cut_loop (segs : list (P * P)) (i : nat) (cur : L) (found : bool) (from_index size : nat) (from to : L) : outcome (nat * nat) :=
    match segs with
    | [] => Ok (from_index, size)
    | (a, b) :: r =>
        if eqp a b then Throw (from_index, size)
        else
          let cur1 := addL cur (dist a b) in
          let first := negb found && ltb from cur1 in
          let from_index1 := if first then i + 1 else from_index in
          let found1 := if first then true else found in
          if leb to cur1 then Ok (from_index1, i + 1)
          else cut_loop r (i + 1) cur1 found1 from_index1 size from to
    end.

  (** substring.hpp 28-108: [substring] *)
  Definition substring (line : list P) (from to : L) (from_point to_point : P) (use_from use_to : bool) : outcome (list P) :=
    match line with
    | [] => Ok []
    | [_] => if use_from && use_to && eqp from_point to_point then Ok [] else Ok line
    | _ =>
        if use_from && use_to && eqp from_point to_point then Ok []
        else
          let whole := match plain_length eqp dist addL zeroL line with Ok len => eqL from zeroL && eqL to len | _ => false end in
          if plain_has_length eqp line && whole then Ok line
          else if plain_has_length eqp line && ltb from to then
            let f := if use_from then from_point else interp line from in
            let t := if use_to then to_point else interp line to in
            bindO (cut_loop (segments line) 0 zeroL false 0 (length line) from to) (fun _ => []) (fun ft =>
            bindO (sub_line line (fst ft) (snd ft)) (fun _ => []) (fun middle =>
            match middle with
            | [] => plain_merge eqp [f; t] [[]; []]
            | m :: _ =>
                let front := if negb (eqp f m) then [f; m] else [] in
                let back := if negb (eqp (last middle m) t) then [last middle m; t] else [] in
                plain_merge eqp front [middle; back]
            end))
          else Ok []
    end.

  (** substring.hpp 110-118: [substring_from]; [back()] of an empty line is undefined behaviour *)
  Definition substring_from (line : list P) (from : L) (from_point : P) (use_from : bool) : outcome (list P) :=
    match line with
    | [] => UB
    | p :: _ => bindO (plain_length eqp dist addL zeroL line) (fun _ => []) (fun len =>
                substring line from len from_point (last line p) use_from true)
    end.
  (** substring.hpp 120-131: [substring_to] *)
  Definition substring_to (line : list P) (to : L) (to_point : P) (use_to : bool) : outcome (list P) :=
    match line with
    | [] => UB
    | p :: _ => substring line zeroL to p to_point true use_to
    end.

  (** substring.hpp 161-183 and 194-216: the search for the nearest segment, here over the segments still to visit with their
      indices; [exact] tests the end of the segment that is compared first ([first()] for the start, [second()] for the end).
      [best] is the smallest distance so far, [None] the infinity. The result is the index of the segment and the projection;
      [None]: the variables were never assigned. A segment without length raises. *)
  Fixpoint nearest (exact : P * P -> P) (p : P) (use_point : bool) (segs : list (nat * (P * P))) (best : option L)
      (found : option (nat * P)) : outcome (option (nat * P)) :=
    match segs with
    | [] => Ok found
    | (i, s) :: r =>
        if eqp (fst s) (snd s) then Throw found
        else if eqp p (exact s) then Ok (Some (i, p))
        else
          let proj := closest p s in
          let d := dist p proj in
          if match best with None => true | Some b => ltb d b end
          then nearest exact p use_point r (Some d) (Some (i, if use_point then p else proj))
          else nearest exact p use_point r best found
    end.

  Definition indexed (line : list P) : list (nat * (P * P)) := combine (seq 0 (length (segments line))) (segments line).

  (** substring.hpp 185-190: the correction of the start's segment *)
  Definition nearest_from (line : list P) (from : P) (use_from : bool) : outcome (nat * P) :=
    bindO (nearest fst from use_from (indexed line) None None) (fun _ => (0, from)) (fun r =>
    derefO r (fun '(i, proj) =>
    derefO (nth_error (segments line) i) (fun '(a, b) =>
    if eqp a b then Throw (0, from)
    else if ltb (dist a b) (dist a from) && (i + 1 <? length line - 1) then Ok (i + 1, proj) else Ok (i, proj)))).
  (** substring.hpp 218-223: the correction of the end's segment; the search starts at the last segment *)
  Definition nearest_to (line : list P) (to : P) (use_to : bool) : outcome (nat * P) :=
    bindO (nearest snd to use_to (rev (indexed line)) None None) (fun _ => (0, to)) (fun r =>
    derefO r (fun '(i, proj) =>
    derefO (nth_error (segments line) i) (fun '(a, b) =>
    if eqp a b then Throw (0, to)
    else if ltb (dist a b) (dist b to) && (0 <? i) then Ok (i - 1, proj) else Ok (i, proj)))).

  (** substring.hpp 233-261 for one of the two points: the distance along the line up to the projection in segment [k]; [k] is
      [None] if the point is not asked for *)
  Definition along (k : option (nat * P)) (i : nat) (a b : P) (acc : L) (found : bool) : L * bool :=
    match k with
    | None => (acc, found)
    | Some (k, proj) =>
        if i <? k then (addL acc (dist a b), found)
        else if i =? k then
          if eqp b proj then (addL acc (dist a b), true) else (addL acc (dist a proj), true)
        else (acc, found)
    end.
  (** substring.hpp 226-266: the loop over the segments *)
  Fixpoint along_loop (segs : list (P * P)) (i : nat) (kf kt : option (nat * P)) (df dt : L) (ff ft : bool) : outcome (L * L) :=
    match segs with
    | [] => Ok (df, dt)
    | (a, b) :: r =>
        if eqp a b then Throw (df, dt)
        else
          let (df1, ff1) := along kf i a b df ff in
          let (dt1, ft1) := along kt i a b dt ft in
          if ff1 && ft1 then Ok (df1, dt1) else along_loop r (i + 1) kf kt df1 dt1 ff1 ft1
    end.

  (** substring.hpp 133-274: [distances] *)
  Definition distances (line : list P) (from to : P) (calc_from calc_to use_from use_to : bool) : outcome (L * L) :=
    if length line <=? 1 then Ok (zeroL, zeroL)
    else
      bindO (if calc_from then bindO (nearest_from line from use_from) (fun _ => None) (fun k => Ok (Some k)) else Ok None)
        (fun _ => (zeroL, zeroL)) (fun kf =>
      bindO (if calc_to then bindO (nearest_to line to use_to) (fun _ => None) (fun k => Ok (Some k)) else Ok None)
        (fun _ => (zeroL, zeroL)) (fun kt =>
      along_loop (segments line) 0 kf kt zeroL zeroL (negb calc_from) (negb calc_to))).

  (** substring.hpp 276-292: [distance_from], [distance_to]; the other point is not used *)
  Definition distance_from (line : list P) (from : P) (use_from : bool) : outcome L :=
    bindO (distances line from from true false use_from false) fst (fun x => Ok (fst x)).
  Definition distance_to (line : list P) (to : P) (use_to : bool) : outcome L :=
    bindO (distances line to to false true false use_to) snd (fun x => Ok (snd x)).

  (** substring.hpp 294-303: [substring_points] *)
  Definition substring_points (line : list P) (from to : P) (use_from use_to : bool) : outcome (list P) :=
    bindO (distances line from to true true use_from use_to) (fun _ => []) (fun x =>
    substring line (fst x) (snd x) from to use_from use_to).
  (** substring.hpp 305-312: [substring_point_from] *)
  Definition substring_point_from (line : list P) (from : P) (use_from : bool) : outcome (list P) :=
    bindO (distance_from line from use_from) (fun _ => []) (fun d => substring_from line d from use_from).
  (** substring.hpp 314-321: [substring_point_to] *)
  Definition substring_point_to (line : list P) (to : P) (use_to : bool) : outcome (list P) :=
    bindO (distance_to line to use_to) (fun _ => []) (fun d => substring_to line d to use_to).
End Substring.
