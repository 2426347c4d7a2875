(** Model of the comparison of a match with the ground truth, /repo/src/library/include/geometry/algorithm/compare.hpp 39-760.

    Segments are pairs of points.  [equals_points] is a boolean equality of points, distances and angles are answers of parameters
    (boost::geometry); the r-trees are modelled by what a query answers, in any order ([near], [touched]).  Lengths are rational
    numbers: rounding, overflow and NaN are not modelled; infinity is the value [Inf].  Debug output and the memory resource are not
    modelled. *)
From Coq Require Import QArith.
From Verif Require Import Base.
Local Open Scope nat_scope.

Inductive fraction := Fin (q : Q) | Inf.

(** comparison.hpp 27-72 *)
Record comparison (S : Type) := mkComparison {
  correct_fraction : fraction; error_fraction : fraction; correct : Q; error_added : Q; error_missed : Q;
  corrects : list S; error_adds : list S; error_misses : list S }.
Arguments mkComparison {S}.
Arguments correct_fraction {S}. Arguments error_fraction {S}. Arguments correct {S}. Arguments error_added {S}. Arguments error_missed {S}.
Arguments corrects {S}. Arguments error_adds {S}. Arguments error_misses {S}.

Section Compare.
  Context {P D : Type}.
  Variable eqp : P -> P -> bool.
  Notation seg := (P * P)%type.
  Definition eqs (s t : seg) : bool := eqp (fst s) (fst t) && eqp (snd s) (snd t).

  (** ** Classification *)
  (** 713-735 [_detect_reverse]; the loop ends after its first hit, since [end] is set to [i]: from [start] to the next segment that begins
      at the same point *)
  Fixpoint next_start (p : P) (segs : list seg) (i : nat) : option nat :=
    match segs with
    | [] => None
    | s :: r => if eqp (fst s) p then Some i else next_start p r (S i)
    end.
  Definition detect_reverse (segs : list seg) (start : nat) : outcome (option nat) :=
    derefO (nth_error segs start) (fun s =>
    match start with
    | 0 => Ok None
    | S before => derefO (nth_error segs before) (fun t =>
        if eqp (snd t) (fst s) && eqp (fst t) (snd s) then Ok (next_start (fst s) (skipn (start + 1) segs) (start + 1)) else Ok None)
    end).

  (** 737-757 [_find_merge] *)
  Fixpoint merge_row (p : P) (a : list seg) (i : nat) : option nat :=
    match a with
    | [] => None
    | s :: r => if eqp (fst s) p then Some i else merge_row p r (S i)
    end.
  Fixpoint merge_rows (a : list seg) (i : nat) (b : list seg) (j : nat) : option (nat * nat) :=
    match b with
    | [] => None
    | t :: r => match merge_row (fst t) a i with Some i' => Some (i', j) | None => merge_rows a i r (S j) end
    end.
  Definition find_merge (a b : list seg) (i j : nat) : outcome (nat * nat) :=
    derefO (nth_error a i) (fun s => derefO (nth_error b j) (fun t =>
    let j1 := if eqp (fst s) (fst t) && negb (eqp (snd s) (snd t)) then j + 1 else j in
    Ok (match merge_rows (skipn i a) i (skipn j1 b) j1 with Some m => m | None => (length a, length b) end))).

  Definition slice {X} (l : list X) (from to : nat) : list X := firstn (to - from) (skipn from l).

  (** the lists of 137 and 294 *)
  Record sorted := mkSorted { s_correct : list seg; s_adds : list seg; s_misses : list seg; s_rev_a : list seg; s_rev_b : list seg }.
  Definition no_sorted : sorted := mkSorted [] [] [] [] [].

  (** 296-350 *)
  Fixpoint sort_loop (fuel : nat) (a b : list seg) (i j : nat) (x : sorted) : outcome (nat * nat * sorted) :=
    match fuel with
    | 0 => Fuel
    | S fuel =>
      if (i <? length a) && (j <? length b) then
        derefO (nth_error a i) (fun s => derefO (nth_error b j) (fun t =>
        if eqs s t then sort_loop fuel a b (i + 1) (j + 1) (mkSorted (s_correct x ++ [s]) (s_adds x) (s_misses x) (s_rev_a x) (s_rev_b x))
        else
          bindO (detect_reverse a i) (fun _ => (i, j, x)) (fun ra =>
          bindO (detect_reverse b j) (fun _ => (i, j, x)) (fun rb =>
          let i1 := match ra with Some e => e | None => i end in
          let j1 := match rb with Some e => e | None => j end in
          let x1 := mkSorted (s_correct x) (s_adds x) (s_misses x)
                             (match ra with Some e => s_rev_a x ++ slice a i e | None => s_rev_a x end)
                             (match rb with Some e => s_rev_b x ++ slice b j e | None => s_rev_b x end) in
          if (length a <=? i1) || (length b <=? j1) then Ok (i1, j1, x1)
          else match ra, rb with
               | None, None =>
                   bindO (find_merge a b i1 j1) (fun _ => (i1, j1, x1)) (fun m =>
                   sort_loop fuel a b (fst m) (snd m)
                     (mkSorted (s_correct x1) (s_adds x1 ++ slice b j1 (snd m)) (s_misses x1 ++ slice a i1 (fst m)) (s_rev_a x1) (s_rev_b x1)))
               | _, _ => sort_loop fuel a b i1 j1 x1
               end))))
      else Ok (i, j, x)
    end.
  (** 352-361 *)
  Definition sort_segments (a b : list seg) : outcome sorted :=
    bindO (sort_loop (length a + length b + 1) a b 0 0 no_sorted) snd (fun r =>
    let '(i, j, x) := r in
    Ok (mkSorted (s_correct x) (s_adds x ++ skipn j b) (s_misses x ++ skipn i a) (s_rev_a x) (s_rev_b x))).

  (** 365-383, 387-405, 409-427, 455-475: the first element of [outer] that has an equal one in [inner] is removed together with this, and
      one starts again.  The element of [inner] is noted. *)
  Fixpoint take_equal (s : seg) (inner : list seg) : option (seg * list seg) :=
    match inner with
    | [] => None
    | t :: r => if eqs t s then Some (t, r) else match take_equal s r with Some (u, r') => Some (u, t :: r') | None => None end
    end.
  Fixpoint cancel_once (outer inner : list seg) : option (seg * list seg * list seg) :=
    match outer with
    | [] => None
    | s :: r => match take_equal s inner with
                | Some (t, inner') => Some (t, r, inner')
                | None => match cancel_once r inner with Some (t, r', inner') => Some (t, s :: r', inner') | None => None end
                end
    end.
  Fixpoint cancel (fuel : nat) (outer inner noted : list seg) : outcome (list seg * list seg * list seg) :=
    match fuel with
    | 0 => Fuel
    | S fuel => match cancel_once outer inner with
                | None => Ok (outer, inner, noted)
                | Some (t, outer', inner') => cancel fuel outer' inner' (noted ++ [t])
                end
    end.
  Definition cancel_all (outer inner noted : list seg) : outcome (list seg * list seg * list seg) := cancel (length outer + 1) outer inner noted.

  (** 431-440, 443-452: what is left is added if it is not there yet *)
  Definition add_new (acc : list seg) (s : seg) : list seg := if existsb (eqs s) acc then acc else acc ++ [s].

  (** 285-475: corrects, adds and misses *)
  Definition classify (a b : list seg) : outcome (list seg * list seg * list seg) :=
    bindO (sort_segments a b) (fun x => (s_correct x, s_adds x, s_misses x)) (fun x =>
    let conv := fun _ => ([], [], []) in
    bindO (cancel_all (s_rev_b x) (s_rev_a x) (s_correct x)) conv (fun r1 => let '(rev_b1, rev_a1, c1) := r1 in
    bindO (cancel_all (s_adds x) rev_a1 c1) conv (fun r2 => let '(adds2, rev_a2, c2) := r2 in
    bindO (cancel_all (s_misses x) rev_b1 c2) conv (fun r3 => let '(misses3, rev_b3, c3) := r3 in
    let misses4 := fold_left add_new rev_a2 misses3 in
    let adds4 := fold_left add_new rev_b3 adds2 in
    bindO (cancel_all misses4 adds4 c3) conv (fun r5 => let '(misses5, adds5, c5) := r5 in
    Ok (c5, adds5, misses5)))))).

  (** ** Lengths *)
  (** rich_segment::length(), [None] if the ends are equal *)
  Variable len : P -> P -> Q.
  Definition length_of (s : seg) : option Q := if eqp (fst s) (snd s) then None else Some (len (fst s) (snd s)).
  (** 478-524: the segments with a length and its sum *)
  Definition long (s : seg) : bool := match length_of s with Some q => negb (Qeq_bool q 0) | None => false end.
  Definition sum_up (l : list seg) : list seg * Q :=
    (filter long l, fold_left Qplus (map (fun s => match length_of s with Some q => q | None => 0%Q end) (filter long l)) 0%Q).

  (** 526-567; [None]: has_length() is false *)
  Definition positive (l : option Q) : bool := match l with Some q => negb (Qle_bool q 0) | None => false end.
  Definition zero (l : option Q) : bool := match l with Some q => Qeq_bool q 0 | None => true end.
  Definition value (l : option Q) : Q := match l with Some q => q | None => 0%Q end.
  Definition max_q (a b : Q) : Q := if Qle_bool b a then a else b.   (* std::max: the first one if not smaller *)
  Definition min_q (a b : Q) : Q := if Qle_bool a b then a else b.
  Definition error_of (added missed : Q) (truth : option Q) : fraction :=
    if negb (Qeq_bool added 0) || negb (Qeq_bool missed 0) then
      if positive truth then Fin ((added + missed) / value truth)%Q else Inf
    else Fin 0%Q.
  Definition is_zero (f : fraction) : bool := match f with Fin q => Qeq_bool q 0 | Inf => false end.
  Definition correct_of (good : Q) (error : fraction) (truth match_ : option Q) : Q :=
    if is_zero error then 1%Q
    else
      let f := if positive truth && positive match_ then (good / max_q (value truth) (value match_))%Q
               else if zero truth && zero match_ then 1%Q else 0%Q in
      min_q 1%Q (max_q 0%Q f).

  (** ** Preparation *)
  Variable simplify : list seg -> outcome (list seg).   (* simplify.hpp 170-208 with the tolerances, see Simplify.v *)
  Variable ltb : D -> D -> bool.
  Variable dist : P -> P -> D.
  Variable near : list P -> P -> list P.            (* points of the set in the box around the point, 614-616 *)
  Variable point_tolerance : D.

  (** 580-587: the points of the segments; the set has every point once, in its order *)
  Variable as_set : list P -> list P.
  Definition points_of (segs : list seg) : list P := as_set (concat (map (fun s => [fst s; snd s]) segs)).

  (** 618-629 *)
  Definition nearest (p : P) (found : list P) : option P :=
    option_map snd (fold_left (fun (best : option (D * P)) q =>
      if negb (eqp p q) then
        let d := dist p q in
        if ltb d point_tolerance && match best with Some (m, _) => ltb d m | None => true end then Some (d, q) else best
      else best) found None).
  (** 610-644 [adapt_point]; [point] is a reference into the segment that is replaced, so afterwards it is the new point *)
  Definition adapt_point (points : list P) (is_begin first : bool) (s : seg) (next : list seg) : seg * list seg :=
    let point := if first then fst s else snd s in
    match nearest point (near points point) with
    | None => (s, next)
    | Some n =>
        let s1 := if first then (n, snd s) else (fst s, n) in
        let next1 := match next with
                     | t :: r => if negb (is_begin && eqp n (fst s1)) && negb (eqp (fst t) n) then (n, snd t) :: r else next
                     | [] => []
                     end in
        (s1, next1)
    end.
  (** 646-651; [fuel] is the number of segments *)
  Fixpoint adapt_loop (fuel : nat) (points : list P) (is_begin : bool) (segs : list seg) : list seg :=
    match fuel with
    | 0 => segs
    | S fuel =>
      match segs with
      | [] => []
      | s :: next =>
          let '(s1, next1) := if is_begin then adapt_point points true true s next else (s, next) in
          let '(s2, next2) := adapt_point points is_begin false s1 next1 in
          s2 :: adapt_loop fuel points false next2
      end
    end.
  (** 605-664 [_adapt_points] *)
  Definition adapt_points (segs others : list seg) : list seg := filter long (adapt_loop (length segs) (points_of others) true segs).

  (** 666-711 [_split_segments]: for every point, all segments found; they are different list elements, each is split on its own *)
  Variable touched : P -> seg -> bool.              (* found in the box around the point, 676-679 *)
  Variable splits : P -> seg -> bool.               (* 689-698: distance and direction are within the tolerances *)
  Definition split_at (p : P) (s : seg) : list seg :=
    if touched p s && negb (eqp (fst s) p) && negb (eqp (snd s) p) && splits p s then [(fst s, p); (p, snd s)] else [s].
  Definition split_segments (segs others : list seg) : list seg :=
    fold_left (fun l p => concat (map (split_at p) l)) (points_of others) segs.

  (** 188-283 *)
  Definition prepare (a b : list seg) : outcome (list seg * list seg) :=
    bindO (simplify a) (fun l => (l, b)) (fun a1 => bindO (simplify b) (fun l => (a1, l)) (fun b1 =>
    let a2 := adapt_points a1 a1 in let b2 := adapt_points b1 b1 in
    let a3 := adapt_points a2 b2 in let b3 := adapt_points b2 a3 in
    let a4 := split_segments a3 a3 in let b4 := split_segments b3 b3 in
    let a5 := split_segments a4 b4 in let b5 := split_segments b4 a5 in
    let a6 := adapt_points a5 a5 in let b6 := adapt_points b5 b5 in
    let a7 := adapt_points a6 b6 in let b7 := adapt_points b6 a7 in
    Ok (a7, b7))).

  (** 130-578 [_compare] *)
  Definition evaluate (a b : list seg) (truth match_ : option Q) : outcome (comparison seg) :=
    bindO (classify a b) (fun _ => mkComparison Inf Inf 0%Q 0%Q 0%Q [] [] []) (fun r => let '(c, d, m) := r in
    let '(c', good) := sum_up c in
    let '(d', added) := sum_up d in
    let '(m', missed) := sum_up m in
    let error := error_of added missed truth in
    Ok (mkComparison (Fin (correct_of good error truth match_)) error good added missed c' d' m')).
  Definition compare_segments (a b : list seg) (truth match_ : option Q) : outcome (comparison seg) :=
    match a, b with
    | [], [] => Ok (mkComparison (Fin 1%Q) (Fin 0%Q) 0%Q 0%Q 0%Q [] [] [])
    | [], _ => Ok (mkComparison (Fin 0%Q) Inf 0%Q (value match_) 0%Q [] b [])
    | _, [] => Ok (mkComparison (Fin 0%Q) (Fin 1%Q) 0%Q 0%Q (value truth) [] [] a)
    | _, _ => bindO (prepare a b) (fun _ => mkComparison Inf Inf 0%Q 0%Q 0%Q [] [] []) (fun r => evaluate (fst r) (snd r) truth match_)
    end.

  (** 72-120 [compare]: the segments of all lines one after the other; the lengths of the lines before the preparation, for several lines
      the sum (multi_rich_line, see MultiRich.v) *)
  Fixpoint segments (line : list P) : list seg :=
    match line with a :: ((b :: _) as r) => (a, b) :: segments r | _ => [] end.
  Definition lengths (segs : list seg) : option Q :=
    match filter (fun s => negb (eqp (fst s) (snd s))) segs with [] => None | l => Some (fold_left Qplus (map (fun s => len (fst s) (snd s)) l) 0%Q) end.
  Definition compare_lines (truth match_ : list (list P)) : outcome (comparison seg) :=
    let a := concat (map segments truth) in
    let b := concat (map segments match_) in
    compare_segments a b (lengths a) (lengths b).
End Compare.
