(** Lines with attributes: geometry/rich_type/{rich_line,rich_line_data,eager_rich_line,lazy_rich_line,multi_rich_line}.hpp
    (all under src/library/include/).

    Points, lengths and angles are arbitrary types with arbitrary operations, so that every statement holds in
    particular for the rounded floating point operations.  [cv] is a cached floating point value: the signalling NaN
    ([not_initialized]), the infinity ([not_valid]) or a number (common.hpp 24-40); computed distances and azimuths are
    taken to be numbers.  Capacity ([reserve], [shrink_to_fit]), allocators and serialization are left out. *)
From Verif Require Import Base ListAux Simplify.
Local Open Scope nat_scope.

Inductive cv (V : Type) : Type :=
| Uninit
| Invalid
| Val (v : V).
Arguments Uninit {V}.
Arguments Invalid {V}.
Arguments Val {V} v.

(** common.hpp 30-38: [initialized]; [valid] (a number) is matched on below *)
Definition initialized {V} (c : cv V) : bool := match c with Uninit => false | _ => true end.

Section Rich.
  Context {P L A : Type}.
  (** [equals_points] (equals.hpp 31-45), [point_distance] (distance.hpp 38-65), [azimuth_deg] (azimuth.hpp), the
      additions, [direction_deg] (direction.hpp 28-31) and [std::fabs] *)
  Variable eqp : P -> P -> bool.
  Variable dist : P -> P -> L.
  Variable azi : P -> P -> A.
  Variable addL : L -> L -> L.
  Variable zeroL : L.
  Variable addA : A -> A -> A.
  Variable zeroA : A.
  Variable diffA : A -> A -> A.
  Variable absA : A -> A.

  (** *** rich_line.hpp: attributes computed from the points on every call *)

  (** rich_line.hpp 336-343: [referring_segment(pos)], [None]: out_of_range is raised *)
  Definition segment (line : list P) (pos : nat) : option (P * P) :=
    match nth_error line pos, nth_error line (pos + 1) with
    | Some a, Some b => Some (a, b)
    | _, _ => None
    end.

  (** all segments in order; the loops [for i < size() - 1: referring_segment(i)] run over these *)
  Fixpoint segments (line : list P) : list (P * P) :=
    match line with
    | a :: ((b :: _) as r) => (a, b) :: segments r
    | _ => []
    end.

  (** rich_line.hpp 132-143 *)
  Definition plain_has_length (line : list P) : bool := existsb (fun s => negb (eqp (fst s) (snd s))) (segments line).

  (** rich_line.hpp 145-164; [Throw]: length_computation_exception *)
  Fixpoint plain_length_loop (segs : list (P * P)) (has : bool) (len : L) : outcome L :=
    match segs with
    | [] => if has then Ok len else Throw zeroL
    | (a, b) :: r => if eqp a b then plain_length_loop r has len else plain_length_loop r true (addL len (dist a b))
    end.
  Definition plain_length (line : list P) : outcome L := plain_length_loop (segments line) false zeroL.

  (** rich_line.hpp 166-172 *)
  Definition plain_has_azimuth (line : list P) : bool :=
    match line with
    | a :: b :: r => negb (eqp a (last (b :: r) b))
    | _ => false
    end.
  (** rich_line.hpp 174-184 *)
  Definition plain_azimuth (line : list P) : outcome A :=
    match line with
    | a :: b :: r => let e := last (b :: r) b in if eqp a e then Throw zeroA else Ok (azi a e)
    | _ => Throw zeroA
    end.

  (** rich_line.hpp 285-301: [direction(pos)]; out_of_range when pos + 2 >= size *)
  Definition plain_direction (line : list P) (pos : nat) : outcome (cv A) :=
    match segment line pos, segment line (pos + 1) with
    | Some (a, b), Some (c, d) => if eqp a b || eqp c d then Ok Invalid else Ok (Val (diffA (azi a b) (azi c d)))
    | _, _ => Throw Invalid
    end.
  (** rich_line.hpp 186-196, 198-217, 219-240: the loops over pos < size() - 2 ([g] is the identity or fabs) *)
  Fixpoint plain_directions_loop (g : A -> A) (line : list P) (todo pos : nat) (has : bool) (acc : A) : outcome A :=
    match todo with
    | 0 => if has then Ok acc else Throw zeroA
    | S n => match plain_direction line pos with
             | Ok (Val d) => plain_directions_loop g line n (pos + 1) true (addA acc (g d))
             | Ok _ => plain_directions_loop g line n (pos + 1) has acc
             | _ => Throw zeroA
             end
    end.
  Definition plain_directions (g : A -> A) (line : list P) : outcome A :=
    plain_directions_loop g line (length line - 2) 0 false zeroA.

  (** rich_line.hpp 246-255 and 261-270: [length(pos)], [azimuth(pos)] *)
  Definition plain_at {V} (f : P -> P -> V) (line : list P) (pos : nat) : outcome (option V) :=
    match segment line pos with
    | None => Throw None
    | Some (a, b) => if eqp a b then Throw None else Ok (Some (f a b))
    end.

  (** rich_line.hpp 398-403: [attaches] *)
  Definition attaches (a b : list P) : bool :=
    match rev a, b with
    | p :: _, q :: _ => eqp p q
    | _, _ => false
    end.

  (** rich_line.hpp 405-423: [sub_line(from, to)] *)
  Definition sub_line (line : list P) (from to : nat) : outcome (list P) :=
    if (from <=? to) && (from <? length line) && (to <=? length line) then Ok (firstn (to - from) (skipn from line)) else Throw [].

  (** rich_line.hpp 435-439: [erase(index)] *)
  Definition erase_point (line : list P) (index : nat) : list P :=
    if index <? length line then erase_at index line else line.

  (** rich_line.hpp 560-569: [_add_size] and 474-490: [calculate_new_size] *)
  Definition add_size (n : nat) (next : list P) : nat :=
    match next with
    | [] => n
    | _ => (if n =? 0 then 1 else n) + (length next - 1)
    end.
  Definition calculate_new_size (line : list P) (lines : list (list P)) : nat := fold_left add_size lines (length line).

  (** rich_line.hpp 571-587: [_merge_single]; [Throw]: rich_line_merge_exception *)
  Definition merge_single (line next : list P) : outcome (list P) :=
    match next with
    | [] => Ok line
    | q :: next' => match line with
                    | [] => Ok (q :: next')
                    | _ => if eqp (last line q) q then Ok (line ++ next') else Throw line
                    end
    end.
  (** rich_line.hpp 492-514: [merge] *)
  Definition plain_merge (line : list P) (lines : list (list P)) : outcome (list P) := foldO merge_single lines line.

  (** *** rich_line_data.hpp *)
  Record data : Type := mkData {
    d_len : cv L; d_az : cv A; d_dirs : cv A; d_abs : cv A;
    d_lens : list (cv L); d_azs : list (cv A) }.

  (** rich_line_data.hpp 243-248 *)
  Definition data0 : data := mkData Uninit Uninit Uninit Uninit [] [].

  (** rich_line_data.hpp 281-299 *)
  Definition invalidate (l a d ls az : bool) (x : data) : data :=
    mkData (if l then Uninit else d_len x) (if a then Uninit else d_az x)
           (if d then Uninit else d_dirs x) (if d then Uninit else d_abs x)
           (if ls then [] else d_lens x) (if az then [] else d_azs x).

  (** rich_line_data.hpp 327-335 and 370-378: [_compute_segment_length], [_compute_segment_azimuth] *)
  Definition seg_value {V} (f : P -> P -> V) (s : P * P) : cv V :=
    if eqp (fst s) (snd s) then Invalid else Val (f (fst s) (snd s)).

  (** rich_line_data.hpp 337-348 and 380-391: [_compute_lengths], [_compute_azimuths] *)
  Definition compute_list {V} (f : P -> P -> V) (line : list P) (l : list (cv V)) : list (cv V) :=
    match l with
    | [] => map (seg_value f) (segments line)
    | _ => l
    end.

  (** the initialization of the entries in the loops of rich_line_data.hpp 310-319 and 412-429;
      [referring_segment] raises for an entry without segment, the list then stays as it is at that moment *)
  Fixpoint init_list {V} (f : P -> P -> V) (line : list P) (i : nat) (l : list (cv V)) : outcome (list (cv V)) :=
    match l with
    | [] => Ok []
    | Uninit :: r => match segment line i with
                     | None => Throw (Uninit :: r)
                     | Some s => bindO (init_list f line (i + 1) r) (cons (seg_value f s)) (fun r' => Ok (seg_value f s :: r'))
                     end
    | c :: r => bindO (init_list f line (i + 1) r) (cons c) (fun r' => Ok (c :: r'))
    end.

  (** the summation of rich_line_data.hpp 307-324 *)
  Fixpoint sum_valid (l : list (cv L)) (has : bool) (acc : L) : cv L :=
    match l with
    | [] => if has then Val acc else Invalid
    | Val v :: r => sum_valid r true (addL acc v)
    | _ :: r => sum_valid r has acc
    end.

  (** rich_line_data.hpp 301-325 *)
  Definition compute_length (line : list P) (d : data) : outcome data :=
    if initialized (d_len d) then Ok d
    else
      let fin len lens := mkData len (d_az d) (d_dirs d) (d_abs d) lens (d_azs d) in
      bindO (init_list dist line 0 (compute_list dist line (d_lens d)))
            (fun lens => fin Invalid lens)
            (fun lens => Ok (fin (sum_valid lens false zeroL) lens)).

  (** rich_line_data.hpp 356-368 *)
  Definition azimuth_of (line : list P) : cv A :=
    match line with
    | a :: b :: r => let e := last (b :: r) b in if eqp a e then Invalid else Val (azi a e)
    | _ => Invalid
    end.
  Definition compute_azimuth (line : list P) (d : data) : data :=
    if initialized (d_az d) then d
    else mkData (d_len d) (azimuth_of line) (d_dirs d) (d_abs d) (d_lens d) (d_azs d).

  (** the summation of rich_line_data.hpp 406-431 ([g] is the identity or fabs) *)
  Fixpoint sum_directions (g : A -> A) (l : list (cv A)) (has : bool) (acc : A) : cv A :=
    match l with
    | Val a :: ((Val b :: _) as r) => sum_directions g r true (addA acc (g (diffA a b)))
    | _ :: r => sum_directions g r has acc
    | [] => if has then Val acc else Invalid
    end.
  (** rich_line_data.hpp 399-434; with fewer than two azimuths nothing is initialized *)
  Definition compute_directions (line : list P) (d : data) : outcome data :=
    if initialized (d_dirs d) && initialized (d_abs d) then Ok d
    else
      let azs := compute_list azi line (d_azs d) in
      let fin a b l := mkData (d_len d) (d_az d) a b (d_lens d) l in
      if 2 <=? length azs then
        bindO (init_list azi line 0 azs) (fun l => fin Invalid Invalid l)
              (fun l => Ok (fin (sum_directions (fun x => x) l false zeroA) (sum_directions absA l false zeroA) l))
      else Ok (fin Invalid Invalid azs).

  (** rich_line_data.hpp 447-451: [_compute] *)
  Definition compute (line : list P) (d : data) : outcome data :=
    bindO (compute_length line d) (fun x => x) (fun d1 => compute_directions line (compute_azimuth line d1)).

  (** rich_line_data.hpp 453-468: [_rebuild] (length and directions are always rebuilt by the callers) *)
  Definition rebuild (line : list P) (azimuth : bool) (d : data) : outcome data :=
    bindO (compute_length line (invalidate true false false false false d)) (fun x => x) (fun d1 =>
      let d2 := if azimuth then compute_azimuth line (invalidate false true false false false d1) else d1 in
      compute_directions line (invalidate false false true false false d2)).

  (** rich_line_data.hpp 470-513: [sub_data(from, to)] *)
  Definition sub_list {V} (l : list (cv V)) (from to : nat) : list (cv V) :=
    match l with
    | [] => []
    | _ => if (from <=? to) && (from <? length l) && (to <=? length l) then firstn (to - from) (skipn from l) else []
    end.
  Definition sub_data (d : data) (from to0 : nat) : data :=
    let to := to0 - 1 in
    if to <=? from then data0
    else
      let wl := (from =? 0) && (to + 1 =? length (d_lens d)) in
      let wa := (from =? 0) && (to + 1 =? length (d_azs d)) in
      mkData (if wl then d_len d else Uninit) (if wl then d_az d else Uninit)
             (if wa then d_dirs d else Uninit) (if wa then d_abs d else Uninit)
             (sub_list (d_lens d) from to) (sub_list (d_azs d) from to).

  (** the padding loops of rich_line_data.hpp 519-528 and 542-551: entries not computed yet *)
  Definition pad {V} (line : list P) (l : list (cv V)) : list (cv V) :=
    match line with
    | [] => l
    | _ => l ++ repeat Uninit (length line - 1 - length l)
    end.
  (** rich_line_data.hpp 540-552: [_reserve] *)
  Definition reserve (line : list P) (d : data) : data :=
    mkData (d_len d) (d_az d) (d_dirs d) (d_abs d) (pad line (d_lens d)) (pad line (d_azs d)).
  (** rich_line_data.hpp 515-538: [_merge_single] *)
  Definition merge_single_data (d : data) (next : data * list P) : data :=
    mkData (d_len d) (d_az d) (d_dirs d) (d_abs d)
           (d_lens d ++ pad (snd next) (d_lens (fst next))) (d_azs d ++ pad (snd next) (d_azs (fst next))).
  (** rich_line_data.hpp 554-573: [_merge] *)
  Definition merge_data (line : list P) (d : data) (nexts : list (data * list P)) : data :=
    fold_left merge_single_data nexts (reserve line d).

  (** rich_line_data.hpp 575-591: [_erase_and_replace_length], [_erase_and_replace_azimuth]; [line] is the line after the
      point has been removed; writing through an index outside the list would be undefined *)
  Definition erase_and_replace {V} (f : P -> P -> V) (line : list P) (index : nat) (l : list (cv V)) : outcome (list (cv V)) :=
    match l with
    | [] => Ok l
    | _ => if index <=? length l then
             let l1 := erase_at (if index <? length l then index else index - 1) l in
             match l1 with
             | [] => Ok l1
             | _ => if (0 <? index) && (index <? length line) then
                      match segment line (index - 1) with
                      | None => Throw l1
                      | Some s => if index - 1 <? length l1 then Ok (firstn (index - 1) l1 ++ seg_value f s :: skipn index l1) else UB
                      end
                    else Ok l1
             end
           else Ok l
    end.

  (** *** eager_rich_line.hpp and lazy_rich_line.hpp *)
  Record rich : Type := mkRich { r_data : data; r_line : list P }.

  Definition on_line (r : rich) (x : outcome data) : outcome rich :=
    bindO x (fun d => mkRich d (r_line r)) (fun d => Ok (mkRich d (r_line r))).

  (** eager_rich_line.hpp 65-107 and 128-142 (default, from a line), 80-91 (from a line and data) *)
  Definition eager_default : rich := mkRich data0 [].
  Definition eager_make (line : list P) (d : data) : outcome rich := on_line (mkRich d line) (compute line d).
  Definition eager_of (line : list P) : outcome rich := eager_make line data0.
  (** lazy_rich_line.hpp 65-95 *)
  Definition lazy_of (line : list P) : rich := mkRich data0 line.

  (** eager_rich_line.hpp 184-190 and lazy_rich_line.hpp 154-159: [operator=(line_type &&)] *)
  Definition eager_assign_line (r : rich) (line : list P) : outcome rich :=
    eager_make line (invalidate true true true true true (r_data r)).
  Definition lazy_assign_line (r : rich) (line : list P) : rich :=
    mkRich (invalidate true true true true true (r_data r)) line.
  (** eager_rich_line.hpp 192-198 and lazy_rich_line.hpp 161-166: [operator=(const rich_line &)] *)
  Definition eager_assign_plain (r : rich) (line : list P) : outcome rich := eager_make line (r_data r).
  Definition lazy_assign_plain (r : rich) (line : list P) : rich := mkRich (r_data r) line.
  (** eager_rich_line.hpp 200-213: [operator=(const lazy_rich_line &)]; the getters of [other] compute its values *)
  Definition eager_assign_lazy (r other : rich) : outcome rich :=
    bindO (compute (r_line other) (r_data other)) (fun _ => r) (fun o =>
      Ok (mkRich (mkData (d_len o) (d_az o) (d_dirs o) (d_abs o)
                         (d_lens (r_data r) ++ d_lens o) (d_azs (r_data r) ++ d_azs o)) (r_line other))).
  (** eager_rich_line.hpp 143-168: construction from a lazy line *)
  Definition eager_of_lazy (other : rich) : outcome rich := eager_assign_lazy eager_default other.
  (** lazy_rich_line.hpp 127-137: construction from an eager line copies the data *)
  Definition lazy_of_eager (other : rich) : rich := other.
  (** lazy_rich_line.hpp 168-174 with rich_line_data.hpp 112-123: [operator=(const eager_rich_line &)] where the container
      types differ; with equal containers the data is copied *)
  Definition lazy_assign_eager_other (r other : rich) : rich :=
    let o := r_data other in
    mkRich (mkData (d_len o) (d_az o) (d_dirs o) (d_abs o)
                   (d_lens (r_data r) ++ d_lens o) (d_azs (r_data r) ++ d_azs o)) (r_line other).

  (** eager_rich_line.hpp 298-313 and lazy_rich_line.hpp 288-303: [sub_rich_line(from, to)] *)
  Definition eager_sub (r : rich) (from to : nat) : outcome rich :=
    bindO (sub_line (r_line r) from to) (fun _ => r) (fun line => eager_make line (sub_data (r_data r) from to)).
  Definition lazy_sub (r : rich) (from to : nat) : outcome rich :=
    bindO (sub_line (r_line r) from to) (fun _ => r) (fun line => Ok (mkRich (sub_data (r_data r) from to) line)).

  (** eager_rich_line.hpp 315-318, lazy_rich_line.hpp 305-307: the part common to both [erase]s *)
  Definition erase_raw (r : rich) (index : nat) : outcome rich :=
    let line := erase_point (r_line r) index in
    let d := r_data r in
    bindO (erase_and_replace dist line index (d_lens d))
      (fun lens => mkRich (mkData (d_len d) (d_az d) (d_dirs d) (d_abs d) lens (d_azs d)) line) (fun lens =>
      bindO (erase_and_replace azi line index (d_azs d))
        (fun azs => mkRich (mkData (d_len d) (d_az d) (d_dirs d) (d_abs d) lens azs) line) (fun azs =>
        Ok (mkRich (mkData (d_len d) (d_az d) (d_dirs d) (d_abs d) lens azs) line))).
  (** eager_rich_line.hpp 315-322: [erase(index, true)]; lazy_rich_line.hpp 305-312 *)
  Definition eager_erase (r : rich) (index : nat) : outcome rich :=
    bindO (erase_raw r index) (fun x => x) (fun r1 =>
      on_line r1 (rebuild (r_line r1) ((index =? 0) || (index + 1 =? length (r_line r1))) (r_data r1))).
  Definition lazy_erase (r : rich) (index : nat) : outcome rich :=
    bindO (erase_raw r index) (fun x => x) (fun r1 =>
      Ok (mkRich (invalidate true ((index =? 0) || (index + 1 =? length (r_line r1))) true false false (r_data r1)) (r_line r1))).
  (** eager_rich_line.hpp 324-332, lazy_rich_line.hpp 314-322: [erase(indices)], from the last index to the first *)
  Definition ends_touched (r : rich) (indices : list nat) : bool :=
    match indices with
    | [] => false
    | i :: _ => (i =? 0) || (last indices i + 1 =? length (r_line r))
    end.
  Definition eager_erase_all (r : rich) (indices : list nat) : outcome rich :=
    match indices with
    | [] => Ok r
    | _ => bindO (foldO erase_raw (rev indices) r) (fun x => x) (fun r1 =>
             on_line r1 (rebuild (r_line r1) (ends_touched r indices) (r_data r1)))
    end.
  Definition lazy_erase_all (r : rich) (indices : list nat) : outcome rich :=
    match indices with
    | [] => Ok r
    | _ => bindO (foldO erase_raw (rev indices) r) (fun x => x) (fun r1 =>
             Ok (mkRich (invalidate true (ends_touched r indices) true false false (r_data r1)) (r_line r1)))
    end.

  (** eager_rich_line.hpp 334-353, lazy_rich_line.hpp 324-343: [merge]: the data is merged before the points *)
  Definition merge_raw (r : rich) (rs : list rich) : outcome rich :=
    let d := merge_data (r_line r) (r_data r) (map (fun x => (r_data x, r_line x)) rs) in
    bindO (plain_merge (r_line r) (map r_line rs)) (fun line => mkRich d line) (fun line => Ok (mkRich d line)).
  Definition eager_merge (r : rich) (rs : list rich) : outcome rich :=
    bindO (merge_raw r rs) (fun x => x) (fun r1 => on_line r1 (rebuild (r_line r1) true (r_data r1))).
  Definition lazy_merge (r : rich) (rs : list rich) : outcome rich :=
    bindO (merge_raw r rs) (fun x => x) (fun r1 =>
      Ok (mkRich (invalidate true true true false false (r_data r1)) (r_line r1))).

  (** lazy_rich_line.hpp 186-219: the getters compute the missing values and keep them.
      [length()], [azimuth()], [directions()], [absolute_directions()] *)
  Definition lazy_get_length (r : rich) : outcome rich := on_line r (compute_length (r_line r) (r_data r)).
  Definition lazy_get_azimuth (r : rich) : outcome rich := Ok (mkRich (compute_azimuth (r_line r) (r_data r)) (r_line r)).
  Definition lazy_get_directions (r : rich) : outcome rich := on_line r (compute_directions (r_line r) (r_data r)).
  (** rich_line_data.hpp 350-354 and 393-397: [_initialize_length(pos)], [_initialize_azimuth(pos)] after
      [_compute_lengths] / [_compute_azimuths]; [_lengths.at(pos)] and [referring_segment] raise *)
  Definition initialize_at {V} (f : P -> P -> V) (line : list P) (l0 : list (cv V)) (pos : nat) : outcome (list (cv V)) :=
    let l := compute_list f line l0 in
    match nth_error l pos with
    | None => Throw l
    | Some Uninit => match segment line pos with
                     | None => Throw l
                     | Some s => Ok (firstn pos l ++ seg_value f s :: skipn (pos + 1) l)
                     end
    | Some _ => Ok l
    end.
  Definition lazy_get_length_at (r : rich) (pos : nat) : outcome rich :=
    let d := r_data r in
    let fin l := mkRich (mkData (d_len d) (d_az d) (d_dirs d) (d_abs d) l (d_azs d)) (r_line r) in
    bindO (initialize_at dist (r_line r) (d_lens d) pos) fin (fun l => Ok (fin l)).
  Definition lazy_get_azimuth_at (r : rich) (pos : nat) : outcome rich :=
    let d := r_data r in
    let fin l := mkRich (mkData (d_len d) (d_az d) (d_dirs d) (d_abs d) (d_lens d) l) (r_line r) in
    bindO (initialize_at azi (r_line r) (d_azs d) pos) fin (fun l => Ok (fin l)).
  (** rich_line_data.hpp 436-445: [_initialize_direction(pos)]: the exception is raised on every path, since nothing
      returns before it; lazy_rich_line.hpp 245-261: [has_direction(pos)], [direction(pos)], [absolute_direction(pos)] *)
  Definition lazy_get_direction_at (r : rich) (pos : nat) : outcome rich :=
    let d := r_data r in
    let l := compute_list azi (r_line r) (d_azs d) in
    let fin l := mkRich (mkData (d_len d) (d_az d) (d_dirs d) (d_abs d) (d_lens d) l) (r_line r) in
    if pos + 1 <? length l then
      bindO (initialize_at azi (r_line r) l pos) fin (fun l1 =>
      bindO (initialize_at azi (r_line r) l1 (pos + 1)) fin (fun l2 => Throw (fin l2)))
    else Throw (fin l).

  (** rich_line_data.hpp 199-215: [has_direction(pos)], [direction(pos)] of eager lines.  [angle_diff] of an infinity and
      a number is an infinity, of two infinities NaN *)
  Definition eager_direction (d : data) (pos : nat) : outcome (cv A) :=
    match nth_error (d_azs d) pos, nth_error (d_azs d) (pos + 1) with
    | Some (Val a), Some (Val b) => Ok (Val (diffA a b))
    | Some Invalid, Some Invalid => Ok Uninit
    | Some Uninit, Some _ | Some _, Some Uninit => Ok Uninit
    | Some _, Some _ => Ok Invalid
    | _, _ => Throw Uninit
    end.

  (** *** multi_rich_line.hpp 393-421: [merge(rich_lines)] of plain lines.
      [group] is the range [start_it, it), newest first; [prev] the line before [it] *)
  Fixpoint multi_merge_loop (done : list (list P)) (group : list (list P)) (lines : list (list P)) : outcome (list (list P)) :=
    let flush := plain_merge [] (rev group) in
    match lines with
    | [] => bindO flush (fun _ => done) (fun l => Ok (done ++ [l]))
    | next :: rest =>
        match group with
        | [] => multi_merge_loop done [next] rest
        | prev :: _ =>
            match rev prev, next with
            | p :: _, q :: _ =>
                if eqp p q then multi_merge_loop done (next :: group) rest
                else bindO flush (fun _ => done) (fun l => multi_merge_loop (done ++ [l]) [next] rest)
            | _, _ => multi_merge_loop done (next :: group) rest
            end
        end
    end.
  Definition multi_merge (have : list (list P)) (lines : list (list P)) : outcome (list (list P)) :=
    multi_merge_loop have [] lines.

  (** multi_rich_line.hpp 135-143: [has_length]; 145-161: [length] over plain lines *)
  Definition multi_has_length (ls : list (list P)) : bool := existsb plain_has_length ls.
  Fixpoint multi_length_loop (ls : list (list P)) (has : bool) (acc : L) : outcome L :=
    match ls with
    | [] => if has then Ok acc else Throw zeroL
    | l :: r => if plain_has_length l then bindO (plain_length l) (fun x => x) (fun v => multi_length_loop r true (addL acc v))
                else multi_length_loop r has acc
    end.
  Definition multi_length (ls : list (list P)) : outcome L := multi_length_loop ls false zeroL.
  (** multi_rich_line.hpp 354-365: [empty()] *)
  Definition multi_empty (ls : list (list P)) : bool := forallb (fun l => match l with [] => true | _ => false end) ls.
  (** multi_rich_line.hpp 178-195: [azimuth()]; front() or back() of an empty line is undefined *)
  Definition multi_azimuth (ls : list (list P)) : outcome A :=
    if multi_empty ls then Throw zeroA
    else match ls with
         | [l] => plain_azimuth l
         | f :: _ => match f, rev (last ls []) with
                     | a :: _, b :: _ => if eqp a b then Throw zeroA else Ok (azi a b)
                     | _, _ => UB
                     end
         | [] => Throw zeroA
         end.
End Rich.
Arguments mkData {L A} _ _ _ _ _ _.
Arguments mkRich {P L A} _ _.
Arguments data0 {L A}.
