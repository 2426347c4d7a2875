(** Model of line simplification, /repo/src/library/include/geometry/algorithm/simplify.hpp 30-208.

    Distances are a type with a total order; the distance of a point to a segment is a parameter (boost::geometry).  NaN is
    not modelled.  The recursion is bounded by explicit fuel, running out of it is the outcome [Fuel]. *)
From Verif Require Import Base.

Section Simplify.
  Context {P D A : Type}.
  Variable leb : D -> D -> bool.
  Variable zero : D.
  (** geometry::distance(point, segment) *)
  Variable dist : P -> P -> P -> D.
  Definition gtb (a b : D) : bool := negb (leb a b).

  (** 48-57 and 142-150: the first position of the largest distance greater than zero *)
  Fixpoint farthest (a b : P) (l : list (nat * P)) (max : nat) (max_distance : D) : nat * D :=
    match l with
    | [] => (max, max_distance)
    | (i, p) :: r => if gtb (dist p a b) max_distance then farthest a b r i (dist p a b) else farthest a b r max max_distance
    end.

  (** 30-74 *)
  Fixpoint simplify_indices (fuel : nat) (line : list P) (from to : nat) (tolerance : D) : outcome (list nat) :=
    if (to <=? from) || (to - from <? 2) || (length line <=? from) || (length line <? to) then Ok []
    else
      match fuel with
      | 0 => Fuel
      | S fuel =>
        derefO (nth_error line from) (fun a =>
        derefO (nth_error line (to - 1)) (fun b =>
          let inner := combine (seq (from + 1) (to - 1 - (from + 1))) (skipn (from + 1) line) in
          let '(max, max_distance) := farthest a b inner 0 zero in
          if gtb max_distance tolerance then
            bindO (simplify_indices fuel line from (max + 1) tolerance) (fun l => l) (fun indices =>
            bindO (simplify_indices fuel line max to tolerance) (fun l => l) (fun indices' =>
              Ok (indices ++ indices')))
          else Ok (seq (from + 1) (to - 1 - (from + 1)))))
      end.

  (** 76-87: erase the indices from the back *)
  Definition erase_at (i : nat) (line : list P) : list P := firstn i line ++ skipn (S i) line.
  Definition erase_indices (line : list P) (indices : list nat) : list P :=
    fold_left (fun line i => if i <? length line then erase_at i line else line) (rev indices) line.
  Definition simplify (fuel : nat) (line : list P) (from to : nat) (tolerance : D) : outcome (list P) :=
    bindO (simplify_indices fuel line from to tolerance) (fun _ => []) (fun indices => Ok (erase_indices line indices)).

  (** 89-123 with the azimuth of a segment ([None]: it has none, its end points are equal) and the comparison
      [fabs(direction_deg(...)) > 180 - reverse_tolerance] as parameters *)
  Variable azimuth : P -> P -> option A.
  Variable turns_back : A -> A -> bool.
  Definition reversal (p q r : P) : bool :=
    match azimuth p q, azimuth q r with Some a, Some b => turns_back a b | _, _ => false end.

  Fixpoint reversals_loop (line : list P) (tolerance : D) (n i index : nat) (indices : list nat) : outcome (nat * list nat) :=
    match n with
    | 0 => Ok (index, indices)
    | S n =>
      derefO (nth_error line i) (fun p => derefO (nth_error line (i + 1)) (fun q => derefO (nth_error line (i + 2)) (fun r =>
        if reversal p q r then
          bindO (simplify_indices (length line) line index (i + 2) tolerance) (fun l => (0, l)) (fun indices' =>
            reversals_loop line tolerance n (S i) (i + 1) (indices ++ indices'))
        else reversals_loop line tolerance n (S i) index indices)))
    end.
  Definition simplify_rich_line_indices (line : list P) (retain_reversals : bool) (tolerance : D) : outcome (list nat) :=
    if retain_reversals then
      bindO (reversals_loop line tolerance (length line - 2) 0 0 []) (fun _ => []) (fun '(index, indices) =>
        bindO (simplify_indices (length line) line index (length line) tolerance) (fun l => l) (fun indices' => Ok (indices ++ indices')))
    else simplify_indices (length line) line 0 (length line) tolerance.

  (** 132-168: the same on a list of segments.  The segments between [begin] and [end] are given, the list that replaces
      them is returned; a maximum that was never set is read when the tolerance is negative. *)
  Fixpoint farthest_seg (a b : P) (i : nat) (l : list (P * P)) (max : option nat) (max_distance : D) : option nat * D :=
    match l with
    | [] => (max, max_distance)
    | s :: r => if gtb (dist (fst s) a b) max_distance then farthest_seg a b (S i) r (Some i) (dist (fst s) a b)
                else farthest_seg a b (S i) r max max_distance
    end.
  Fixpoint simplify_segs (fuel : nat) (segs : list (P * P)) (tolerance : D) : outcome (list (P * P)) :=
    match segs with
    | s :: ((_ :: _) as rest) =>
      match fuel with
      | 0 => Fuel
      | S fuel =>
        let a := fst s in
        let b := snd (last rest s) in
        let '(max, max_distance) := farthest_seg a b 1 rest None zero in
        if gtb max_distance tolerance then
          derefO max (fun m =>
            bindO (simplify_segs fuel (firstn m segs) tolerance) (fun l => l) (fun l1 =>
            bindO (simplify_segs fuel (skipn m segs) tolerance) (fun l => l) (fun l2 => Ok (l1 ++ l2))))
        else Ok [(a, b)]
      end
    | _ => Ok segs
    end.

  (** 170-208.  The list is kept as the part before [index], the segments from [index] to [it] and those after [it]; the
      iterator arithmetic of 193-197 lands on [next_it] again. *)
  Definition seg_reversal (s t : P * P) : bool :=
    match azimuth (fst s) (snd s), azimuth (fst t) (snd t) with Some a, Some b => turns_back a b | _, _ => false end.
  Fixpoint simplify_segs_loop (fuel : nat) (tolerance : D) (done pending : list (P * P)) (it : P * P) (rest : list (P * P))
    : outcome (list (P * P)) :=
    match rest with
    | [] => bindO (simplify_segs fuel (pending ++ [it]) tolerance) (fun l => l) (fun l => Ok (done ++ l))
    | next :: rest =>
      if seg_reversal it next then
        bindO (simplify_segs fuel (pending ++ [it]) tolerance) (fun l => l) (fun l =>
          simplify_segs_loop fuel tolerance (done ++ l) [] next rest)
      else simplify_segs_loop fuel tolerance done (pending ++ [it]) next rest
    end.
  Definition simplify_rich_segments (fuel : nat) (segs : list (P * P)) (retain_reversals : bool) (tolerance : D) : outcome (list (P * P)) :=
    if retain_reversals then
      match segs with [] => Ok [] | s :: r => simplify_segs_loop fuel tolerance [] [] s r end
    else simplify_segs fuel segs tolerance.
End Simplify.
