(** Model of the life cycle of memory mapped storages on Linux, /repo/src/library/include/io/memory_mapped/storage/base_storage.hpp 49-676,
    graph_storage.hpp 175-398 (the other storages have the same members except for what is stored), io/memory_mapped/utils.hpp 72-96.

    The file system is a directory of inodes; a mapping refers to an inode, so it outlives the removal of the file name (unlink).  What is
    stored in a file is a value [C], its place in bytes is [used]; constructing and changing it fails with bad_alloc if it has no place.  The
    pointers into a mapping (allocator, graph, vertex index map) are modelled by the number of the mapping: they are valid as long as this
    mapping lives.  Not modelled: Windows, shared memory (not used), open_or_create and open_copy_on_write (not used), failures of the
    operating system other than a missing file, what is in a file that is not a storage. *)
From Verif Require Import Base.

(** base_storage.hpp 35-48 *)
Inductive open_tag := OpenReadOnly | DestroyAndCreate.
Inductive mode := ReadOnly | ReadWrite.

Section Storage.
  Context {Path Build C : Type}.
  Variable peqb : Path -> Path -> bool.
  Variable beqb : Build -> Build -> bool.
  Variable this_build : Build.         (* util::get_compiler_info() and util::version() *)
  Variable moved_path : Path -> Path.  (* what is left in a moved std::filesystem::path *)
  Variable used : option C -> nat.     (* [None]: only the record of the build *)
  Variable empty : C.

  (** ** Files and mappings *)
  Record file := mkFile { f_size : nat; f_info : option Build; f_content : option C }.
  Record world := mkWorld { dir : Path -> option nat; file_at : nat -> file; inodes : nat; maps : list (nat * (nat * mode)); mappings : nat }.
  Definition set_dir (w : world) (p : Path) (x : option nat) : world :=
    mkWorld (fun q => if peqb q p then x else dir w q) (file_at w) (inodes w) (maps w) (mappings w).
  Definition set_file (w : world) (i : nat) (f : file) : world :=
    mkWorld (dir w) (fun j => if j =? i then f else file_at w j) (inodes w) (maps w) (mappings w).
  Definition add_map (w : world) (i : nat) (m : mode) : world :=
    mkWorld (dir w) (file_at w) (inodes w) ((mappings w, (i, m)) :: maps w) (S (mappings w)).
  Definition del_map (w : world) (id : nat) : world :=
    mkWorld (dir w) (file_at w) (inodes w) (filter (fun x => negb (fst x =? id)) (maps w)) (mappings w).
  Definition mapped (w : world) (id : nat) : option (nat * mode) := option_map snd (find (fun x => fst x =? id) (maps w)).

  (** ** mmap_container, 410-512: the path and [_storage] *)
  Record container := mkContainer { k_path : Path; k_map : option nat }.
  (** 268-276 *)
  Definition close (w : world) (k : container) : world * container :=
    match k_map k with
    | Some id => (del_map w id, mkContainer (k_path k) None)
    | None => (w, k)
    end.
  (** 278-283 *)
  Definition size (w : world) (k : container) : nat :=
    match k_map k with
    | Some id => match mapped w id with Some (i, _) => f_size (file_at w i) | None => 0 end
    | None => 0
    end.
  (** 119-129, 168-185, 436-438: the constructor of the mapping throws if the file exists; then the record of the build is written *)
  Definition create_only (w : world) (k : container) (n : nat) : outcome (world * container) :=
    match dir w (k_path k) with
    | Some _ => Throw (w, k)
    | None =>
        let i := inodes w in
        if n <? used None then Throw (w, k)
        else
          let w1 := mkWorld (dir w) (file_at w) (S (inodes w)) (maps w) (mappings w) in
          let w2 := set_file (set_dir w1 (k_path k) (Some i)) i (mkFile n (Some this_build) None) in
          Ok (add_map w2 i ReadWrite, mkContainer (k_path k) (Some (mappings w)))
    end.
  (** 143-151, 187-226, 444-450: the constructor throws if there is no file; then the record of the build is compared *)
  Definition same_build (f : file) : bool := match f_info f with Some b => beqb b this_build | None => false end.
  Definition open_with (m : mode) (w : world) (k : container) : outcome (world * container) :=
    match dir w (k_path k) with
    | None => Throw (w, k)
    | Some i =>
        let r := (add_map w i m, mkContainer (k_path k) (Some (mappings w))) in
        if same_build (file_at w i) then Ok r else Throw r
    end.
  (** 461-464 *)
  Definition destroy (w : world) (k : container) : world * container :=
    let '(w1, k1) := close w k in (set_dir w1 (k_path k1) None, k1).
  (** 456-459 *)
  Definition destroy_and_create (w : world) (k : container) (n : nat) : outcome (world * container) :=
    let '(w1, k1) := destroy w k in create_only w1 k1 n.
  (** 475-487; mmap_type::grow on a missing file does nothing *)
  Definition grow (w : world) (k : container) (n : nat) : outcome (world * container) :=
    let offset := size w k in
    if offset <? n then
      let '(w1, k1) := close w k in
      let w2 := match dir w1 (k_path k1) with
                | Some i => let f := file_at w1 i in set_file w1 i (mkFile (f_size f + (n - offset)) (f_info f) (f_content f))
                | None => w1
                end in
      open_with ReadWrite w2 k1
    else Ok (w, k).
  (** 493-499 *)
  Definition drop_grow (w : world) (k : container) (n : nat) : outcome (world * container) :=
    if size w k <? n then let '(w1, k1) := destroy w k in create_only w1 k1 n else Ok (w, k).
  (** 501-507 *)
  Definition shrink_to_fit (w : world) (k : container) (reopen : bool) : outcome (world * container) :=
    let '(w1, k1) := close w k in
    let w2 := match dir w1 (k_path k1) with
              | Some i => let f := file_at w1 i in set_file w1 i (mkFile (Nat.min (f_size f) (used (f_content f))) (f_info f) (f_content f))
              | None => w1
              end in
    if reopen then open_with ReadWrite w2 k1 else Ok (w2, k1).
  (** 466-469: integer division, then the conversion of a logarithm *)
  Definition max_retries (available : nat) (w : world) (k : container) : outcome nat :=
    match size w k with
    | 0 => UB
    | n => if available / n =? 0 then UB else Ok (Nat.log2 (available / n))
    end.

  (** 637-642, 665-670 [mmap_base]: a local container; if it throws, its destructor closes it *)
  Definition closed_on_throw (x : outcome (world * container)) : outcome (world * container) :=
    match x with Throw (w, k) => Throw (close w k) | _ => x end.
  Definition base_open_read_only (w : world) (p : Path) : outcome (world * container) :=
    closed_on_throw (open_with ReadOnly w (mkContainer p None)).
  Definition base_destroy_and_create (w : world) (p : Path) (n : nat) : outcome (world * container) :=
    closed_on_throw (destroy_and_create w (mkContainer p None) n).

  (** ** graph_storage: the container, the tags, the allocator and the pointer to what is stored *)
  Record storage := mkStorage { s_container : container; s_destroy : bool; s_shrink : bool; s_allocator : option nat; s_pointer : option nat }.
  (** 366-380 *)
  Definition prepare_allocator (k : container) (a : option nat) : option nat := match a with Some x => Some x | None => k_map k end.
  (** 382-389: boost throws if such an object exists, or if there is no place *)
  Definition construct (w : world) (id : nat) (c : C) : outcome world :=
    match mapped w id with
    | Some (i, ReadWrite) =>
        let f := file_at w i in
        match f_content f with
        | Some _ => Throw w
        | None => if used (Some c) <=? f_size f then Ok (set_file w i (mkFile (f_size f) (f_info f) (Some c))) else Throw w
        end
    | _ => UB
    end.
  (** 391-396: nothing found is a null pointer, whose member is taken *)
  Definition find_content (w : world) (id : nat) : outcome nat :=
    match mapped w id with
    | Some (i, _) => match f_content (file_at w i) with Some _ => Ok id | None => UB end
    | None => UB
    end.
  (** 204-222; if the body throws, the container is destroyed: closed, not removed *)
  Definition new_storage (w : world) (p : Path) (t : open_tag) (n : nat) (d s : bool) : outcome (world * option storage) :=
    match t with
    | DestroyAndCreate =>
        match base_destroy_and_create w p n with
        | Ok (w1, k) =>
            match k_map k with
            | Some id => match construct w1 id empty with
                         | Ok w2 => Ok (w2, Some (mkStorage k d s (prepare_allocator k None) (Some id)))
                         | Throw w2 => Throw (fst (close w2 k), None)
                         | UB => UB | Fuel => Fuel
                         end
            | None => UB
            end
        | Throw (w1, _) => Throw (w1, None) | UB => UB | Fuel => Fuel
        end
    | OpenReadOnly =>
        match base_open_read_only w p with
        | Ok (w1, k) =>
            match k_map k with
            | Some id => match find_content w1 id with
                         | Ok q => Ok (w1, Some (mkStorage k d s (prepare_allocator k None) (Some q)))
                         | _ => UB
                         end
            | None => UB
            end
        | Throw (w1, _) => Throw (w1, None) | UB => UB | Fuel => Fuel
        end
    end.
  (** 226-236: the new one and what is left of the old one *)
  Definition move_storage (s : storage) : storage * storage :=
    (s, mkStorage (mkContainer (moved_path (k_path (s_container s))) None) (s_destroy s) (s_shrink s) None None).
  (** 240-255: [_storage] of the container is overwritten, base_storage.hpp 107-113 *)
  Definition assign_storage (target s : storage) : storage * storage := move_storage s.
  (** 257-265, then the destructor of the container *)
  Definition delete_storage (w : world) (s : storage) : outcome world :=
    if s_shrink s && negb (s_destroy s) then
      bindO (shrink_to_fit w (s_container s) false) fst (fun r => Ok (fst (close (fst r) (snd r))))
    else if s_destroy s then let r := destroy w (s_container s) in Ok (fst (close (fst r) (snd r)))
    else let r := close w (s_container s) in Ok (fst (close (fst r) (snd r))).
  (** 277-291 *)
  Definition grow_storage (w : world) (s : storage) (n : nat) : outcome (world * storage) :=
    bindO (grow w (s_container s) n) (fun r => (fst r, mkStorage (snd r) (s_destroy s) (s_shrink s) None (s_pointer s))) (fun r =>
    let '(w1, k) := r in
    match k_map k with
    | Some id => match find_content w1 id with
                 | Ok q => Ok (w1, mkStorage k (s_destroy s) (s_shrink s) (prepare_allocator k None) (Some q))
                 | _ => UB
                 end
    | None => UB
    end).
  (** 297-312; the allocator is set before [_create] may throw *)
  Definition drop_grow_storage (w : world) (s : storage) (n : nat) : outcome (world * storage) :=
    bindO (drop_grow w (s_container s) n) (fun r => (fst r, mkStorage (snd r) (s_destroy s) (s_shrink s) None (s_pointer s))) (fun r =>
    let '(w1, k) := r in
    match k_map k with
    | Some id => match construct w1 id empty with
                 | Ok w2 => Ok (w2, mkStorage k (s_destroy s) (s_shrink s) (prepare_allocator k None) (Some id))
                 | Throw w2 => Throw (w2, mkStorage k (s_destroy s) (s_shrink s) (prepare_allocator k None) (s_pointer s))
                 | UB => UB | Fuel => Fuel
                 end
    | None => UB
    end).
  (** 314-316 *)
  Definition shrink_storage (w : world) (s : storage) (reopen : bool) : outcome (world * storage) :=
    bindO (shrink_to_fit w (s_container s) reopen) (fun r => (fst r, mkStorage (snd r) (s_destroy s) (s_shrink s) (s_allocator s) (s_pointer s)))
      (fun r => Ok (fst r, mkStorage (snd r) (s_destroy s) (s_shrink s) (s_allocator s) (s_pointer s))).
  (** 334-348: using what is stored *)
  Definition read (w : world) (s : storage) : outcome (option C) :=
    match s_pointer s with
    | Some id => match mapped w id with Some (i, _) => Ok (f_content (file_at w i)) | None => UB end
    | None => UB
    end.
  (** changing it: needs the allocator of the same mapping, a writable mapping, and place *)
  Definition write (w : world) (s : storage) (c : C) : outcome world :=
    match s_pointer s, s_allocator s with
    | Some id, Some a =>
        if id =? a then
          match mapped w id with
          | Some (i, ReadWrite) =>
              let f := file_at w i in
              if used (Some c) <=? f_size f then Ok (set_file w i (mkFile (f_size f) (f_info f) (Some c))) else Throw w
          | _ => UB
          end
        else UB
    | _, _ => UB
    end.
End Storage.

(** utils.hpp 72-87: [once] is left normally or by bad_alloc ([None]); [recover] is called after every bad_alloc, also after the last one.
    The result, or [None] if bad_alloc is passed on. *)
Fixpoint retry_alloc {S A} (once : S -> S * option A) (recover : S -> S) (retries : nat) (s : S) : S * option A :=
  match once s with
  | (s1, Some a) => (s1, Some a)
  | (s1, None) => match retries with 0 => (recover s1, None) | Datatypes.S r => retry_alloc once recover r (recover s1) end
  end.
