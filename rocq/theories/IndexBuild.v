(** Model of the vectors the spatial indices are built from, with their capacities and the size of their file:
    /repo/src/library/include/io/memory_mapped/storage/index_build_storage.hpp 33-391, io/helper/index_build_helper.hpp 108-183, the loops of
    geometry/network/network.hpp 106-132, and the size taken from them in io/helper/index_helper.hpp 123-131.

    SpatialIndex.v takes any answer of the memory to any request; here a request is made only when a vector is full, and it is answered by
    [place].  Not modelled: more capacity than asked for, growing a vector in its place, the two vectors themselves (they are constructed
    with the file), removing the file at the end (Storage.v). *)
From Verif Require Import Base AdjList Csr.

Section IndexBuild.
  Context {P : Type}.
  Local Notation csr := (@csr (nat * P) (nat * list P)).
  Local Notation pvalue := (P * nat)%type.
  Local Notation svalue := ((P * P) * (nat * nat))%type.
  (** bytes of a value of each kind; is there place for so many more bytes in a file of this size with so many in use; the capacity a full
      vector asks for (boost::container: 8/5 of the old one) *)
  Variable wp ws : nat.
  Variable place : nat -> nat -> nat -> bool.
  Variable bigger : nat -> nat.

  Record vec (A : Type) := mkVec { items : list A; cap : nat }.
  Arguments mkVec {A}.
  Arguments items {A}.
  Arguments cap {A}.
  (** [asked]: the requests so far, the last first *)
  Record build := mkBuild { b_file : nat; b_p : vec pvalue; b_s : vec svalue; asked : list nat }.
  (** 160-163, 375-382: [_create] *)
  Definition new_build (n : nat) : build := mkBuild n (mkVec [] 0) (mkVec [] 0) [].
  Definition bytes (s : build) : nat := wp * cap (b_p s) + ws * cap (b_s s).
  (** 119-121 (the counter of the allocator, Counting.v), 343-345 *)
  Definition storage_size (mmap : bool) (s : build) : nat := if mmap then b_file s else bytes s.

  Definition ask (n : nat) (s : build) : bool * build := (place (b_file s) (bytes s) n, mkBuild (b_file s) (b_p s) (b_s s) (n :: asked s)).

  (** [std::vector::reserve] and [emplace_back]; [false]: bad_alloc was thrown *)
  Definition vec_reserve_p (n : nat) (s : build) : build * bool :=
    if cap (b_p s) <? n then
      let (a, s1) := ask (wp * n) s in
      if a then (mkBuild (b_file s1) (mkVec (items (b_p s1)) n) (b_s s1) (asked s1), true) else (s1, false)
    else (s, true).
  Definition vec_reserve_s (n : nat) (s : build) : build * bool :=
    if cap (b_s s) <? n then
      let (a, s1) := ask (ws * n) s in
      if a then (mkBuild (b_file s1) (b_p s1) (mkVec (items (b_s s1)) n) (asked s1), true) else (s1, false)
    else (s, true).
  Definition vec_add_p (x : pvalue) (s : build) : build * bool :=
    if length (items (b_p s)) <? cap (b_p s) then (mkBuild (b_file s) (mkVec (items (b_p s) ++ [x]) (cap (b_p s))) (b_s s) (asked s), true)
    else
      let n := bigger (cap (b_p s)) in
      let (a, s1) := ask (wp * n) s in
      if a then (mkBuild (b_file s1) (mkVec (items (b_p s1) ++ [x]) n) (b_s s1) (asked s1), true) else (s1, false).
  Definition vec_add_s (x : svalue) (s : build) : build * bool :=
    if length (items (b_s s)) <? cap (b_s s) then (mkBuild (b_file s) (b_p s) (mkVec (items (b_s s) ++ [x]) (cap (b_s s))) (asked s), true)
    else
      let n := bigger (cap (b_s s)) in
      let (a, s1) := ask (ws * n) s in
      if a then (mkBuild (b_file s1) (b_p s1) (mkVec (items (b_s s1) ++ [x]) n) (asked s1), true) else (s1, false).

  (** index_build_storage.hpp 266-287: the file is twice as big, what is in it is found again *)
  Definition grow (s : build) : build := mkBuild (2 * b_file s) (b_p s) (b_s s) (asked s).
  (** index_build_helper.hpp 171-183 *)
  Definition handle_bad_alloc (s : build) : outcome build :=
    let s1 := grow s in
    if (length (items (b_p s1)) =? length (items (b_p s))) && (length (items (b_s s1)) =? length (items (b_s s))) then Ok s1 else Throw s1.
  (** utils.hpp 72-87 *)
  Fixpoint retry (once : build -> build * bool) (retries : nat) (s : build) : outcome build :=
    match once s with
    | (s1, true) => Ok s1
    | (s1, false) => bindO (handle_bad_alloc s1) (fun s2 => s2) (fun s2 => match retries with 0 => Throw s2 | S r => retry once r s2 end)
    end.
  Definition at_once (once : build -> build * bool) (s : build) : outcome build :=
    match once s with (s1, true) => Ok s1 | (s1, false) => Throw s1 end.
  (** index_build_storage.hpp 262-264, base_storage.hpp 466-469 *)
  Definition max_retries (available : nat) (s : build) : outcome nat :=
    match b_file s with
    | 0 => UB
    | n => if available / n =? 0 then UB else Ok (Nat.log2 (available / n))
    end.
  (** index_build_helper.hpp 108-120, 122-134; the retries are counted before the first attempt *)
  Definition reserve_points (mmap : bool) (available n : nat) (s : build) : outcome build :=
    if mmap then bindO (max_retries available s) (fun _ => s) (fun r => retry (vec_reserve_p n) r s) else at_once (vec_reserve_p n) s.
  Definition reserve_segments (mmap : bool) (available n : nat) (s : build) : outcome build :=
    if mmap then bindO (max_retries available s) (fun _ => s) (fun r => retry (vec_reserve_s n) r s) else at_once (vec_reserve_s n) s.
  (** 136-148, 150-162 *)
  Definition add_point (mmap : bool) (s : build) (x : pvalue) : outcome build :=
    if mmap then retry (vec_add_p x) 1 s else at_once (vec_add_p x) s.
  Definition add_segment (mmap : bool) (s : build) (x : svalue) : outcome build :=
    if mmap then retry (vec_add_s x) 1 s else at_once (vec_add_s x) s.

  (** [size() - 1] of unsigned numbers; [None]: it wraps around *)
  Definition less_one (n : nat) : option nat := match n with 0 => None | S k => Some k end.
  (** rich_line.hpp 315-322; [None]: out_of_range is thrown *)
  Definition segment (line : list P) (i : nat) : option (P * P) :=
    match nth_error line i, nth_error line (i + 1) with Some a, Some b => Some (a, b) | _, _ => None end.
  (** network.hpp 115-123: the lines of the edges in order; a size that wrapped around would not be reserved *)
  Definition count_segments (lines : list (list P)) : outcome nat :=
    foldO (fun k line => if 1 <=? length line then derefO (less_one (length line)) (fun m => Ok (k + m)) else Ok k) lines 0.
  (** 110-113 *)
  Fixpoint add_points (mmap : bool) (k : nat) (points : list P) (s : build) : outcome build :=
    match points with
    | [] => Ok s
    | p :: r => bindO (add_point mmap s (p, k)) (fun s => s) (add_points mmap (S k) r)
    end.
  (** 126-131 *)
  Definition add_line (mmap : bool) (k : nat) (line : list P) (s : build) : outcome build :=
    if 1 <=? length line then
      derefO (less_one (length line)) (fun m =>
      foldO (fun s i => match segment line i with Some x => add_segment mmap s (x, (k, i)) | None => Throw s end) (seq 0 m) s)
    else Ok s.
  (** 124-132 *)
  Fixpoint add_lines (mmap : bool) (k : nat) (lines : list (list P)) (s : build) : outcome build :=
    match lines with
    | [] => Ok s
    | l :: r => bindO (add_line mmap k l s) (fun s => s) (add_lines mmap (S k) r)
    end.
  Definition points_of (c : csr) : list P := map (fun v => snd (snd v)) (c_vs c).
  Definition lines_of (c : csr) : list (list P) := map (fun e => snd (snd e)) (c_es c).
  (** 106-132; [av1], [av2]: the space available on the disk at the two reservations *)
  Definition build_vectors (mmap : bool) (av1 av2 : nat) (c : csr) (s : build) : outcome build :=
    bindO (reserve_points mmap av1 (length (c_vs c)) s) (fun s => s) (fun s1 =>
    bindO (add_points mmap 0 (points_of c) s1) (fun s => s) (fun s2 =>
    bindO (count_segments (lines_of c)) (fun _ => s2) (fun n =>
    bindO (reserve_segments mmap av2 n s2) (fun s => s) (fun s3 =>
    add_lines mmap 0 (lines_of c) s3)))).
  (** index_helper.hpp 125-130: the size the file of the indices is grown to before they are built *)
  Definition index_room (mmap : bool) (s : build) : nat :=
    let grow_size := 2 * storage_size mmap s in if mmap then grow_size else 2 * grow_size.
End IndexBuild.
Arguments mkVec {A}.
Arguments items {A}.
Arguments cap {A}.
