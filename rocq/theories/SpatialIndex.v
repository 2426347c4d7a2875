(** Model of the spatial indices of a network: /repo/src/library/include/geometry/network/network.hpp 106-183 and 373-424,
    /repo/src/library/include/io/helper/index_build_helper.hpp 99-183 and index_helper.hpp 110-162, with [retry_alloc] of
    /repo/src/library/include/io/memory_mapped/utils.hpp 72-87.

    [P]: points.  The network is the compressed graph of Csr.v with nodes (id, point) and edges (id, line).  Whether memory suffices
    is asked of a list of answers, one for every attempt to get some; an empty list answers yes.  The contents of a memory-mapped
    file survive [grow] (offset pointers) and not [drop_grow].  The R-trees are oracles with the contracts stated in
    SpatialIndexProps.v.  Taking the address of the first member of the object that was not found (index_storage.hpp, [_open] in the
    first [grow]) is taken to give a null pointer, as compilers do. *)
From Verif Require Import Base AdjList Csr.

Section SpatialIndex.
  Context {P : Type}.
  Local Notation csr := (@csr (nat * P) (nat * list P)).
  Local Notation pvalue := (P * nat)%type.                      (* index_build_storage.hpp, points_value_type *)
  Local Notation svalue := ((P * P) * (nat * nat))%type.        (* segments_value_type: segment, edge and position in it *)

  Record indices := mkIx { b_points : list pvalue; b_segs : list svalue; i_points : option (list pvalue); i_segs : option (list svalue);
    answers : list bool }.
  Definition fresh (ans : list bool) : indices := mkIx [] [] None None ans.
  (** the next answer of the memory *)
  Definition ask (s : indices) : bool * indices :=
    match answers s with
    | [] => (true, s)
    | a :: r => (a, mkIx (b_points s) (b_segs s) (i_points s) (i_segs s) r)
    end.

  (** utils.hpp 72-87: [once] says if it was left by [bad_alloc]; [recover] is the function called then *)
  Fixpoint retry_alloc (once : indices -> indices * bool) (recover : indices -> indices) (retries : nat) (s : indices) : outcome indices :=
    match once s with
    | (s1, true) => Ok s1
    | (s1, false) => match retries with 0 => Throw (recover s1) | S r => retry_alloc once recover r (recover s1) end
    end.
  (** the two kinds of storage: in a file, or in memory, where [bad_alloc] is not caught *)
  Definition allocate (mmap : bool) once recover retries (s : indices) : outcome indices :=
    if mmap then retry_alloc once recover retries s
    else match once s with (s1, true) => Ok s1 | (s1, false) => Throw s1 end.

  (** index_build_helper.hpp 171-183: [grow] of the build storage keeps both vectors *)
  Definition keep (s : indices) : indices := s.
  (** 99-125 *)
  Definition reserve (mmap : bool) (retries : nat) (s : indices) : outcome indices :=
    allocate mmap (fun s => let (a, s1) := ask s in (s1, a)) keep retries s.
  (** 127-139, 141-153; one retry *)
  Definition add_point (mmap : bool) (s : indices) (x : pvalue) : outcome indices :=
    allocate mmap (fun s => let (a, s1) := ask s in
      if a then (mkIx (b_points s1 ++ [x]) (b_segs s1) (i_points s1) (i_segs s1) (answers s1), true) else (s1, false)) keep 1 s.
  Definition add_segment (mmap : bool) (s : indices) (x : svalue) : outcome indices :=
    allocate mmap (fun s => let (a, s1) := ask s in
      if a then (mkIx (b_points s1) (b_segs s1 ++ [x]) (i_points s1) (i_segs s1) (answers s1), true) else (s1, false)) keep 1 s.

  (** index_helper.hpp 120-123, 127-128: both indices, one after the other *)
  Definition build_once (s : indices) : indices * bool :=
    let (a, s1) := ask s in
    if a then
      let s2 := mkIx (b_points s1) (b_segs s1) (Some (b_points s1)) (i_segs s1) (answers s1) in
      let (b, s3) := ask s2 in
      if b then (mkIx (b_points s3) (b_segs s3) (i_points s3) (Some (b_segs s3)) (answers s3), true) else (s3, false)
    else (s1, false).
  (** 152-160: the file is made anew and bigger *)
  Definition drop (s : indices) : indices := mkIx (b_points s) (b_segs s) None None (answers s).
  Definition build_indices (mmap : bool) (retries : nat) (s : indices) : outcome indices := allocate mmap build_once drop retries s.

  Fixpoint numbered_from {A} (k : nat) (l : list A) : list (nat * A) := match l with [] => [] | x :: r => (k, x) :: numbered_from (S k) r end.
  (** the segments of a line with their positions: for i from 0 to size() - 2 *)
  Fixpoint segments_from (k : nat) (l : list P) : list (nat * (P * P)) :=
    match l with
    | p :: (q :: _) as r => (k, (p, q)) :: segments_from (S k) r
    | _ => []
    end.
  (** network.hpp 106-135; [bm], [im]: the build storage and the index storage are in files; [rp], [rs], [ri]: their numbers of
      retries ([max_retries]) *)
  Definition build_spatial_indices (bm im : bool) (rp rs ri : nat) (c : csr) (s : indices) : outcome indices :=
    bindO (reserve bm rp s) keep (fun s =>
    bindO (foldO (fun s v => add_point bm s (snd (snd (snd v)), fst v)) (numbered_from 0 (c_vs c)) s) keep (fun s =>
    bindO (reserve bm rs s) keep (fun s =>
    bindO (foldO (fun s e => foldO (fun s is => add_segment bm s (snd is, (fst e, fst is))) (segments_from 0 (snd (snd (snd e)))) s)
                 (numbered_from 0 (c_es c)) s) keep (fun s =>
    build_indices im ri s)))).

  (** *** lookups *)
  (** [query(predicate)] and [query(nearest(point, k))] of the R-trees *)
  Variable query : (svalue -> bool) -> list svalue -> list svalue.
  Variable nearest_points : P -> nat -> list pvalue -> list pvalue.
  Variable nearest_segs : P -> nat -> list svalue -> list svalue.
  Variable eqp : P -> P -> bool.

  (** 137-147, 149-159 *)
  Definition find_node (c : csr) (id : nat) : list nat :=
    flat_map (fun v => if fst (snd (snd v)) =? id then [fst v] else []) (numbered_from 0 (c_vs c)).
  Definition find_edge (c : csr) (id : nat) : list nat :=
    flat_map (fun e => if fst (snd (snd e)) =? id then [fst e] else []) (numbered_from 0 (c_es c)).

  (** 161-171; an index that has not been built is a null pointer *)
  Definition point_in_nodes (s : indices) (p : P) : outcome (bool * nat) :=
    derefO (i_points s) (fun index =>
    match nearest_points p 1 index with
    | x :: _ => Ok (eqp (fst x) p, snd x)
    | [] => Ok (false, 0)
    end).
  (** 173-185 *)
  Definition point_in_edges (s : indices) (p : P) : outcome (bool * (nat * nat)) :=
    derefO (i_segs s) (fun index =>
    match nearest_segs p 1 index with
    | x :: _ => Ok (eqp (fst (fst x)) p || eqp (snd (fst x)) p, snd x)
    | [] => Ok (false, (0, 0))
    end).
  (** 415-422: [boost::container::set] *)
  Fixpoint set_insert (e : nat) (l : list nat) : list nat :=
    match l with
    | [] => [e]
    | x :: r => if e <? x then e :: l else if e =? x then l else x :: set_insert e r
    end.
  Definition unique_edges (xs : list svalue) : list nat := fold_left (fun set x => set_insert (fst (snd x)) set) xs [].
  (** 387-391 *)
  Definition query_unique (s : indices) (pred : P * P -> bool) : outcome (list nat) :=
    derefO (i_segs s) (fun index => Ok (unique_edges (query (fun x => pred (fst x)) index))).
  Definition nearest_unique (s : indices) (p : P) (k : nat) : outcome (list nat) :=
    derefO (i_segs s) (fun index => Ok (unique_edges (nearest_segs p k index))).
End SpatialIndex.
