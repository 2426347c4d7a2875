(** Model of src/library/include/io/helper/tag_helper.hpp: interning of tags ([id], lines 84-157; [tag], 207-217), tag
    lists of nodes and edges (lines 266-447), and of [retry_alloc], src/library/include/io/memory_mapped/utils.hpp 72-87.

    Strings are an abstract type with decidable equality; [store] is [_tag_storage.string(str)], which copies
    [str.c_str()], that is the part before the first NUL (tag_storage.hpp 218-220, 588-590).
    Unordered maps are association lists; only [find], [emplace] (does nothing if the key is present), [erase],
    [size] and [at] are used, none of which depends on the order.
    [oom n = true] means that the n-th allocation point fails with [bad_alloc]; the counter is part of the state. Every
    [emplace] is one allocation point: if it fails (in the string copy, the rehash or the node) the map is unchanged
    (strong guarantee of [boost::unordered_flat_map]). *)
From Verif Require Import Base.

(** maps *)
Section Map.
  Context {K D : Type}.
  Variable keqb : K -> K -> bool.
  Fixpoint find_key (k : K) (m : list (K * D)) : option D :=
    match m with
    | [] => None
    | (k', d) :: r => if keqb k k' then Some d else find_key k r
    end.
  Definition emplace (k : K) (d : D) (m : list (K * D)) : list (K * D) :=
    match find_key k m with
    | Some _ => m
    | None => m ++ [(k, d)]
    end.
  Definition erase (k : K) (m : list (K * D)) : list (K * D) := filter (fun p => negb (keqb k (fst p))) m.
End Map.

Section Intern.
  Variable oom : nat -> bool.

  (** The common shape of lines 92-105 (keys), 107-120 (values) and 122-136 (pairs): look the item up, otherwise take
      the size of the map as its new id and enter it in both maps, undoing both on failure.
      The result is the id (absent: [bad_alloc] was thrown), the two maps, and the counter of allocation points. *)
  Definition intern {A : Type} (aeqb : A -> A -> bool) (store : A -> A) (x : A) (m1 : list (A * nat)) (m2 : list (nat * A))
             (clock : nat) : option nat * (list (A * nat) * list (nat * A)) * nat :=
    match find_key aeqb x m1 with
    | Some i => (Some i, (m1, m2), clock)
    | None =>
        let i := length m1 in
        if oom clock then (None, (erase aeqb x m1, erase Nat.eqb i m2), S clock)
        else let m1' := emplace aeqb (store x) i m1 in
             if oom (S clock) then (None, (erase aeqb x m1', erase Nat.eqb i m2), S (S clock))
             else (Some i, (m1', emplace Nat.eqb i (store x) m2), S (S clock))
    end.

  Context {Str : Type}.
  Variable seqb : Str -> Str -> bool.
  Variable store : Str -> Str.

  Definition peqb (a b : nat * nat) : bool := (fst a =? fst b) && (snd a =? snd b).

  (** the maps of the tag storage (tag_storage.hpp, accessors [key_id_map] ... [edges_map]) *)
  Record tags_state : Type := mkTags {
    key_id : list (Str * nat);
    id_key : list (nat * Str);
    value_id : list (Str * nat);
    id_value : list (nat * Str);
    ids : list ((nat * nat) * nat);
    tags : list (nat * (nat * nat));
    nodes : list (nat * list nat);
    edges : list (nat * list nat);
    finalized : bool;
    clock : nat;                (* allocation points so far *)
    mapping : nat               (* how often the file was re-mapped by grow() *)
  }.
  Definition empty_tags : tags_state := mkTags [] [] [] [] [] [] [] [] false 0 0.

  (** tag_helper.hpp 89-139: the closure [_id]. [Throw]: [bad_alloc]. *)
  Definition id_once (k v : Str) (s : tags_state) : outcome (option nat * tags_state) :=
    let '(rk, (ki, ik), c1) := intern seqb store k (key_id s) (id_key s) (clock s) in
    let s1 := mkTags ki ik (value_id s) (id_value s) (ids s) (tags s) (nodes s) (edges s) (finalized s) c1 (mapping s) in
    match rk with
    | None => Throw (None, s1)
    | Some kid =>
        let '(rv, (vi, iv), c2) := intern seqb store v (value_id s1) (id_value s1) c1 in
        let s2 := mkTags ki ik vi iv (ids s) (tags s) (nodes s) (edges s) (finalized s) c2 (mapping s) in
        match rv with
        | None => Throw (None, s2)
        | Some vid =>
            let '(rt, (idm, tm), c3) := intern peqb (fun p => p) (kid, vid) (ids s2) (tags s2) c2 in
            let s3 := mkTags ki ik vi iv idm tm (nodes s) (edges s) (finalized s) c3 (mapping s) in
            match rt with
            | None => Throw (None, s3)
            | Some t => Ok (Some t, s3)
            end
        end
    end.

  (** tag_helper.hpp 242-248: [grow()] re-maps the file; the contents survive, references into it do not. *)
  Definition grow (s : tags_state) : tags_state :=
    mkTags (key_id s) (id_key s) (value_id s) (id_value s) (ids s) (tags s) (nodes s) (edges s) (finalized s) (clock s)
           (S (mapping s)).

  (** utils.hpp 72-87 with its default of one retry, and [handle_bad_alloc] as the catch function. *)
  Definition retry_alloc {A : Type} (f : tags_state -> outcome (A * tags_state)) (s : tags_state) : outcome (A * tags_state) :=
    match f s with
    | Throw (_, s1) => match f (grow s1) with
                       | Throw (a, s2) => Throw (a, grow s2)
                       | r => r
                       end
    | r => r
    end.

  (** tag_helper.hpp 84-157. [mmap]: the storage is a memory mapped file. The exception of a finalized storage is not a
      [bad_alloc], so it is not retried. *)
  Definition id (mmap retry : bool) (k v : Str) (s : tags_state) : outcome (option nat * tags_state) :=
    if finalized s then Throw (None, s)
    else if mmap && retry then retry_alloc (id_once k v) s else id_once k v s.

  (** tag_helper.hpp 207-217. [None]: an exception ([invalid_argument] or [out_of_range]). *)
  Definition tag (s : tags_state) (i : nat) : option (Str * Str) :=
    match find_key Nat.eqb i (tags s) with
    | None => None
    | Some (kid, vid) =>
        match find_key Nat.eqb kid (id_key s), find_key Nat.eqb vid (id_value s) with
        | Some k, Some v => Some (k, v)
        | _, _ => None
        end
    end.

  (** tag_helper.hpp 267-274 ([mk_tags], from tag pairs) and 309-318 ([clone_tags], the pairs are read from another
      helper): one [id(…, false)] after the other; [reserve] is an allocation point.  For a storage that is not finalized:
      the exception of a finalized one, raised in the middle, would not be retried. *)
  Fixpoint ids_of (l : list (Str * Str)) (s : tags_state) : outcome (list nat * tags_state) :=
    match l with
    | [] => Ok ([], s)
    | (k, v) :: r =>
        match id false false k v s with
        | Ok (Some i, s1) =>
            match ids_of r s1 with
            | Ok (is, s2) => Ok (i :: is, s2)
            | Throw (_, s2) => Throw ([], s2)
            | UB => UB
            | Fuel => Fuel
            end
        | Ok (None, s1) => Throw ([], s1)
        | Throw (_, s1) => Throw ([], s1)
        | UB => UB
        | Fuel => Fuel
        end
    end.
  Definition tick (s : tags_state) : tags_state :=
    mkTags (key_id s) (id_key s) (value_id s) (id_value s) (ids s) (tags s) (nodes s) (edges s) (finalized s) (S (clock s))
           (mapping s).
  Definition mk_tags_once (l : list (Str * Str)) (s : tags_state) : outcome (list nat * tags_state) :=
    if oom (clock s) then Throw ([], tick s) else ids_of l (tick s).
  Definition mk_tags (mmap : bool) (l : list (Str * Str)) (s : tags_state) : outcome (list nat * tags_state) :=
    if mmap then retry_alloc (mk_tags_once l) s else mk_tags_once l s.

  Definition set_nodes (m : list (nat * list nat)) (s : tags_state) : tags_state :=
    mkTags (key_id s) (id_key s) (value_id s) (id_value s) (ids s) (tags s) m (edges s) (finalized s) (clock s) (mapping s).
  Definition set_edges (m : list (nat * list nat)) (s : tags_state) : tags_state :=
    mkTags (key_id s) (id_key s) (value_id s) (id_value s) (ids s) (tags s) (nodes s) m (finalized s) (clock s) (mapping s).

  (** tag_helper.hpp 376-394: [clone_map_tags] for nodes.  Line 380 takes a reference to the map before line 381 calls
      [clone_tags], which retries on its own; if that re-mapped the file the reference dangles. *)
  Definition clone_node_once (mmap : bool) (n : nat) (l : list (Str * Str)) (s : tags_state) : outcome (unit * tags_state) :=
    match l with
    | [] => Ok (tt, s)
    | _ :: _ =>
        match mk_tags mmap l s with
        | Ok (is, s1) =>
            if mapping s1 =? mapping s
            then if oom (clock s1) then Throw (tt, tick s1)
                 else Ok (tt, tick (set_nodes (emplace Nat.eqb n is (nodes s1)) s1))
            else UB
        | Throw (_, s1) => Throw (tt, s1)
        | UB => UB
        | Fuel => Fuel
        end
    end.
  Definition clone_node_tags (mmap : bool) (n : nat) (l : list (Str * Str)) (s : tags_state) : outcome (unit * tags_state) :=
    if mmap then retry_alloc (clone_node_once mmap n l) s else clone_node_once mmap n l s.

  (** tag_helper.hpp 396-438: [merge_map_tags] for edges, without allocation failures. *)
  Definition merge_lists (a b : list nat) : list nat := a ++ filter (fun t => negb (existsb (Nat.eqb t) a)) b.
  Definition merge_edge_tags (e other : nat) (s : tags_state) : tags_state :=
    if e =? other then s
    else match find_key Nat.eqb other (edges s) with
         | None => s
         | Some ot =>
             match find_key Nat.eqb e (edges s) with
             | Some t => set_edges (map (fun p => if fst p =? e then (fst p, merge_lists (snd p) ot) else p) (edges s)) s
             | None => set_edges (emplace Nat.eqb e ot (edges s)) s
             end
         end.
  (** tag_helper.hpp 331-348: [set_map_tags] for edges, without allocation failures. *)
  Definition set_edge_tags (e : nat) (l : list nat) (s : tags_state) : tags_state :=
    match l with [] => s | _ :: _ => set_edges (emplace Nat.eqb e l (edges s)) s end.
  (** tag_helper.hpp 440-447 *)
  Definition edge_tags (s : tags_state) (e : nat) : list nat :=
    match find_key Nat.eqb e (edges s) with Some t => t | None => [] end.
  Definition node_tags (s : tags_state) (n : nat) : list nat :=
    match find_key Nat.eqb n (nodes s) with Some t => t | None => [] end.
End Intern.

Arguments tags_state Str : clear implicits.
