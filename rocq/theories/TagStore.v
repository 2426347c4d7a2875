(** Model of the named objects of the tag storage and of the index storage,
    /repo/src/library/include/io/memory_mapped/storage/tag_storage.hpp 114-385 (in memory), 388-788 (memory mapped) and
    index_storage.hpp 35-150 (in memory), 152-385 (memory mapped), as io/helper/tag_helper.hpp 240-248, 333-351 and index_helper.hpp 110-162 use them.

    The file and its mapping are those of Storage.v (C76), here only the size, whether the mapping may be written and its number: every reopening
    gives a new number, and a pointer with another number is dangling.  A file holds at most one object of each name; a pointer member only ever
    gets the address of the object of its own name, so it is modelled by the number of the mapping.  Reading a null pointer, a dangling pointer or a
    destroyed object and writing into a mapping for reading is undefined behaviour, [UB].  What the maps hold is a value [V]; the place of what is
    stored is [used], a change without place is refused with bad_alloc and changes nothing (the maps give the strong guarantee for one insertion).
    Not modelled: the allocator and its counter (C76, C83), Windows, moving a storage (C76). *)
From Verif Require Import Base.

(** 432-441 *)
Inductive name := IdKey | KeyId | IdValue | ValueId | TagsMap | IdsMap | NodesMap | EdgesMap | EmptyTags | Finalized.
Definition name_eqb (x y : name) : bool :=
  match x, y with
  | IdKey, IdKey | KeyId, KeyId | IdValue, IdValue | ValueId, ValueId | TagsMap, TagsMap | IdsMap, IdsMap | NodesMap, NodesMap
  | EdgesMap, EdgesMap | EmptyTags, EmptyTags | Finalized, Finalized => true
  | _, _ => false
  end.
(** the order of [_create], [_open] and [_check_availability], 715-782 *)
Definition names : list name := [IdKey; KeyId; IdValue; ValueId; TagsMap; IdsMap; NodesMap; EdgesMap; EmptyTags; Finalized].

Section TagStore.
  Context {V : Type}.
  Inductive value := Data (v : V) | Flag (b : bool).
  Variable empty : V.
  Variable used : list (name * value) -> nat.

  (** ** The memory mapped tag storage *)
  Record store := mkStore { size : nat; objects : name -> option value; mapping : nat; writable : bool; ptr : name -> option nat }.
  Definition set {A} (f : name -> A) (x : name) (a : A) : name -> A := fun y => if name_eqb y x then a else f y.
  Definition listing (f : name -> option value) : list (name * value) :=
    flat_map (fun x => match f x with Some v => [(x, v)] | None => [] end) names.
  Definition fits (n : nat) (f : name -> option value) : bool := used (listing f) <=? n.

  (** boost's [construct]: throws if there is one of this name, or no place; the pointer is only then assigned *)
  Definition construct (x : name) (v : value) (s : store) : outcome store :=
    match objects s x with
    | Some _ => Throw s
    | None =>
        let o := set (objects s) x (Some v) in
        if fits (size s) o then Ok (mkStore (size s) o (mapping s) (writable s) (set (ptr s) x (Some (mapping s)))) else Throw s
    end.
  Definition fresh (x : name) : value := match x with Finalized => Flag false | _ => Data empty end.
  (** 715-736 *)
  Definition create (s : store) : outcome store := foldO (fun s x => construct x (fresh x) s) names s.
  (** 738-749: what is not found is a null pointer *)
  Definition open (s : store) : store :=
    mkStore (size s) (objects s) (mapping s) (writable s) (fun x => match objects s x with Some _ => Some (mapping s) | None => None end).
  (** 751-782: the first null pointer *)
  Definition missing (s : store) : option name := find (fun x => match ptr s x with Some _ => false | None => true end) names.
  Inductive error := CouldNotFind (x : name) | Refused.   (* [Refused]: bad_alloc, or there is one of this name *)
  Definition check (s : store) : outcome (store * option error) :=
    match missing s with Some x => Throw (s, Some (CouldNotFind x)) | None => Ok (s, None) end.

  (** 443-461, a new file and an existing one *)
  Definition new_store (n m : nat) : outcome store := create (mkStore n (fun _ => None) m true (fun _ => None)).
  Definition reopen (s : store) : store := open (mkStore (size s) (objects s) (S (mapping s)) false (fun _ => None)).
  (** 523-531, then the next one opens the file for reading *)
  Definition shrink_reopen (s : store) : store :=
    reopen (mkStore (Nat.min (size s) (used (listing (objects s)))) (objects s) (mapping s) (writable s) (ptr s)).

  (** 541-550, base_storage.hpp 475-487 *)
  Definition grow (n : nat) (s : store) : outcome (store * option error) :=
    check (open (if size s <? n then mkStore n (objects s) (S (mapping s)) true (ptr s) else s)).
  (** 556-566, base_storage.hpp 493-499 *)
  Definition drop_grow (n : nat) (s : store) : outcome (store * option error) :=
    bindO (create (if size s <? n then mkStore n (fun _ => None) (S (mapping s)) true (ptr s) else s)) (fun s1 => (s1, Some Refused)) check.

  (** 596-666 *)
  Definition access (s : store) (x : name) : outcome value :=
    match ptr s x, objects s x with
    | Some m, Some v => if m =? mapping s then Ok v else UB
    | _, _ => UB
    end.
  Definition change (x : name) (v : value) (s : store) : outcome store :=
    bindO (match access s x with Ok v => Ok v | _ => UB end) (fun _ => s) (fun _ =>
    if writable s then
      let o := set (objects s) x (Some v) in
      if fits (size s) o then Ok (mkStore (size s) o (mapping s) (writable s) (ptr s)) else Throw s
    else UB).
  (** 672-677: destroyed in the file, the pointers keep their values; then the flag is set in place *)
  Definition destroy (x : name) (s : store) : store := mkStore (size s) (set (objects s) x None) (mapping s) (writable s) (ptr s).
  Definition finalize (s : store) : outcome store :=
    if writable s then
      let s1 := destroy IdsMap (destroy ValueId (destroy KeyId s)) in
      match access s1 Finalized with
      | Ok _ => Ok (mkStore (size s1) (set (objects s1) Finalized (Some (Flag true))) (mapping s1) (writable s1) (ptr s1))
      | _ => UB
      end
    else UB.

  (** tag_helper.hpp 240-248, 333-351 with retry_alloc of io/memory_mapped/utils.hpp 72-87: the storage grows to twice its size after every
      refusal, also after the last one *)
  Fixpoint put_retry (retries : nat) (x : name) (v : value) (s : store) : outcome (store * option error) :=
    match change x v s with
    | Ok s1 => Ok (s1, None)
    | Throw s1 =>
        bindO (grow (2 * size s1) s1) (fun r => r) (fun r =>
        match retries with 0 => Throw (fst r, Some Refused) | S n => put_retry n x v (fst r) end)
    | UB => UB | Fuel => Fuel
    end.
  Definition put : name -> value -> store -> outcome (store * option error) := put_retry 1.

  (** ** The tag storage in memory: owning pointers to the nine maps, and the flag *)
  Record memory := mkMemory { cell : name -> option V; flag : bool }.
  (** 162-165, 372-384 *)
  Definition new_memory : memory := mkMemory (fun _ => Some empty) false.
  (** 226-296 *)
  Definition mem_access (m : memory) (x : name) : outcome value :=
    match x with
    | Finalized => Ok (Flag (flag m))
    | _ => match cell m x with Some v => Ok (Data v) | None => UB end
    end.
  Definition mem_change (x : name) (v : V) (m : memory) : outcome memory :=
    match cell m x with Some _ => Ok (mkMemory (set (cell m) x (Some v)) (flag m)) | None => UB end.
  (** 302-307 *)
  Definition mem_finalize (m : memory) : memory :=
    mkMemory (set (set (set (cell m) KeyId None) ValueId None) IdsMap None) true.
  (** 311-325: the same function writes and reads; the pointers are written with what they own *)
  Inductive item := IFlag (b : bool) | IPtr (p : option V).
  Definition save (m : memory) : list item :=
    IFlag (flag m) :: map (fun x => IPtr (cell m x)) ([IdKey; IdValue; TagsMap; NodesMap; EdgesMap; EmptyTags] ++ (if flag m then [] else [KeyId; ValueId; IdsMap])).
  Fixpoint load_ptrs (l : list name) (a : list item) (m : memory) : option (memory * list item) :=
    match l with
    | [] => Some (m, a)
    | x :: l => match a with IPtr p :: a => load_ptrs l a (mkMemory (set (cell m) x p) (flag m)) | _ => None end
    end.
  Definition load (a : list item) (m : memory) : option (memory * list item) :=
    match a with
    | IFlag b :: a =>
        match load_ptrs [IdKey; IdValue; TagsMap; NodesMap; EdgesMap; EmptyTags] a (mkMemory (cell m) b) with
        | Some (m1, a) => if flag m1 then Some (m1, a) else load_ptrs [KeyId; ValueId; IdsMap] a m1
        | None => None
        end
    | _ => None
    end.
End TagStore.
Arguments value : clear implicits.
Arguments store : clear implicits.
Arguments memory : clear implicits.
Arguments item : clear implicits.

(** ** The memory mapped index storage: one unique object for each of the two trees *)
Section IndexStore.
  Context {V : Type}.
  Variable used : list V -> nat.
  (** what [&p->points_index] is for a null pointer [p]: undefined in C++, with the usual compilers null as the tree is the first member *)
  Variable null_member : outcome (option nat).
  Record index := mkIndex { i_size : nat; points : option V; segments : option V; i_mapping : nat; points_ptr : option nat; segments_ptr : option nat }.
  (** 202-220, 389 *)
  Definition new_index (n m : nat) : index := mkIndex n None None m None None.
  (** 391-396 *)
  Definition find_member (m : nat) (o : option V) : outcome (option nat) := match o with Some _ => Ok (Some m) | None => null_member end.
  Definition index_open (s : index) : outcome index :=
    match find_member (i_mapping s) (points s), find_member (i_mapping s) (segments s) with
    | Ok p, Ok q => Ok (mkIndex (i_size s) (points s) (segments s) (i_mapping s) p q)
    | _, _ => UB
    end.
  Definition is_some {A} (o : option A) : bool := match o with Some _ => true | None => false end.
  (** 273-295 *)
  Definition index_grow (n : nat) (s : index) : outcome index :=
    let has_points := is_some (points_ptr s) in
    let has_segments := is_some (segments_ptr s) in
    let s1 := if i_size s <? n then mkIndex n (points s) (segments s) (S (i_mapping s)) (points_ptr s) (segments_ptr s) else s in
    bindO (index_open s1) (fun s => s) (fun s2 =>
    if has_points && negb (is_some (points_ptr s2)) then Throw s2
    else if has_segments && negb (is_some (segments_ptr s2)) then Throw s2
    else Ok s2).
  (** 301-309: nothing is created and the pointers are left as they are *)
  Definition index_drop_grow (n : nat) (s : index) : index :=
    if i_size s <? n then mkIndex n None None (S (i_mapping s)) (points_ptr s) (segments_ptr s) else s.
  Definition i_used (p q : option V) : nat := used ((match p with Some v => [v] | None => [] end) ++ (match q with Some v => [v] | None => [] end)).
  (** 316-329; the flag of the exception says whether it was bad_alloc *)
  Definition build_points (v : V) (s : index) : outcome (index * bool) :=
    match points s with
    | Some _ => Throw (s, false)
    | None => if i_used (Some v) (segments s) <=? i_size s
              then Ok (mkIndex (i_size s) (Some v) (segments s) (i_mapping s) (Some (i_mapping s)) (segments_ptr s), true) else Throw (s, true)
    end.
  Definition build_segments (v : V) (s : index) : outcome (index * bool) :=
    match segments s with
    | Some _ => Throw (s, false)
    | None => if i_used (points s) (Some v) <=? i_size s
              then Ok (mkIndex (i_size s) (points s) (Some v) (i_mapping s) (points_ptr s) (Some (i_mapping s)), true) else Throw (s, true)
    end.
  Definition build_both (v w : V) (s : index) : outcome (index * bool) :=
    bindO (build_points v s) (fun r => r) (fun r => build_segments w (fst r)).
  (** retry_alloc with [drop_handle_bad_alloc], index_helper.hpp 132-137 *)
  Fixpoint build_retry (retries : nat) (v w : V) (s : index) : outcome (index * bool) :=
    match build_both v w s with
    | Throw (s1, true) =>
        let s2 := index_drop_grow (2 * i_size s1) s1 in
        match retries with 0 => Throw (s2, true) | S r => build_retry r v w s2 end
    | x => x
    end.
  (** index_helper.hpp 122-137 *)
  Definition build_indices (n retries : nat) (v w : V) (s : index) : outcome (index * bool) :=
    bindO (index_grow n s) (fun s => (s, false)) (build_retry retries v w).
  (** 345-359 *)
  Definition index_access (m : nat) (p : option nat) (o : option V) : outcome V :=
    match p, o with Some k, Some v => if k =? m then Ok v else UB | _, _ => UB end.
  Definition points_index (s : index) : outcome V := index_access (i_mapping s) (points_ptr s) (points s).
  Definition segments_index (s : index) : outcome V := index_access (i_mapping s) (segments_ptr s) (segments s).
End IndexStore.
Arguments index : clear implicits.
