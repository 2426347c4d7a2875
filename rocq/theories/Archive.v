(** Model of saving a prepared network and loading it for matching: the [serialize] members of
    /repo/src/library/include/graph/compressed_sparse_row.hpp (116-120, 201-204, 492-495), geometry/network/node.hpp 160-163,
    geometry/network/edge.hpp 167-171, geometry/rich_type/rich_line_data.hpp 224-233, rich_line.hpp 552-555,
    {eager,lazy}_rich_line.hpp (358-362, 348-352), io/memory_mapped/storage/tag_storage.hpp 312-325, index_storage.hpp 135-138,
    graph_storage.hpp 127-129, the classes io/serialization/{serializer,deserializer}.hpp, and [save_network], [load_network] and the
    opening of files in /repo/src/app/include/app/network.hpp 46-300, 470-530.

    An archive is a sequence of atoms: numbers, floating point numbers [F], points [P] and strings [Str]; a reader that meets
    another atom or the end fails (an exception of the archive).  [ar & x] saves or loads depending on the archive; both readings of each
    [serialize] are written here one after the other.  Containers write their size first; pointers whether they are null.  The
    order in which a hash map is saved is the function [shuffle]; loading clears the map and emplaces one after the other.  R-trees are
    saved as their values.  Version numbers and class ids are left out. *)
From Verif Require Import Base Tags AdjList Csr SpatialIndex.

Section Archive.
  Context {F P Str : Type}.
  Inductive atom : Type := AN (n : nat) | AF (x : F) | AP (p : P) | AS (s : Str).
  Definition rd (A : Type) : Type := list atom -> option (A * list atom).
  Definition retR {A} (x : A) : rd A := fun l => Some (x, l).
  Definition bindR {A B} (r : rd A) (f : A -> rd B) : rd B := fun l => match r l with Some (x, l') => f x l' | None => None end.

  Definition ld_nat : rd nat := fun l => match l with AN n :: r => Some (n, r) | _ => None end.
  Definition ld_flo : rd F := fun l => match l with AF x :: r => Some (x, r) | _ => None end.
  Definition ld_point : rd P := fun l => match l with AP p :: r => Some (p, r) | _ => None end.
  Definition ld_str : rd Str := fun l => match l with AS s :: r => Some (s, r) | _ => None end.
  Definition sv_nat (n : nat) : list atom := [AN n].
  Definition sv_flo (x : F) : list atom := [AF x].
  Definition sv_point (p : P) : list atom := [AP p].
  Definition sv_str (s : Str) : list atom := [AS s].
  Definition sv_bool (b : bool) : list atom := [AN (if b then 1 else 0)].
  Definition ld_bool : rd bool := bindR ld_nat (fun n => retR (negb (n =? 0))).
  Definition sv_pair {A B} (sa : A -> list atom) (sb : B -> list atom) (x : A * B) : list atom := sa (fst x) ++ sb (snd x).
  Definition ld_pair {A B} (la : rd A) (lb : rd B) : rd (A * B) := bindR la (fun a => bindR lb (fun b => retR (a, b))).
  (** vectors *)
  Fixpoint ld_items {A} (r : rd A) (n : nat) : rd (list A) :=
    match n with
    | 0 => retR []
    | S m => bindR r (fun x => bindR (ld_items r m) (fun xs => retR (x :: xs)))
    end.
  Definition sv_list {A} (s : A -> list atom) (l : list A) : list atom := sv_nat (length l) ++ flat_map s l.
  Definition ld_list {A} (r : rd A) : rd (list A) := bindR ld_nat (ld_items r).
  (** pointers *)
  Definition sv_ptr {A} (s : A -> list atom) (p : option A) : list atom := match p with None => sv_bool false | Some x => sv_bool true ++ s x end.
  Definition ld_ptr {A} (r : rd A) : rd (option A) := bindR ld_bool (fun b => if b : bool then bindR r (fun x => retR (Some x)) else retR None).
  (** hash maps *)
  Definition sv_map {K D} (shuffle : list (K * D) -> list (K * D)) (sk : K -> list atom) (sd : D -> list atom) (m : list (K * D)) : list atom :=
    sv_list (sv_pair sk sd) (shuffle m).
  Definition ld_map {K D} (keqb : K -> K -> bool) (lk : rd K) (lv : rd D) : rd (list (K * D)) :=
    bindR (ld_list (ld_pair lk lv)) (fun l => retR (fold_left (fun m kd => emplace keqb (fst kd) (snd kd) m) l [])).

  (** *** tags *)
  Variable seqb : Str -> Str -> bool.
  Variable sh_str : list (nat * Str) -> list (nat * Str).
  Variable sh_rev : list (Str * nat) -> list (Str * nat).
  Variable sh_tags : list (nat * (nat * nat)) -> list (nat * (nat * nat)).
  Variable sh_ids : list ((nat * nat) * nat) -> list ((nat * nat) * nat).
  Variable sh_vec : list (nat * list nat) -> list (nat * list nat).
  Local Notation tstate := (tags_state Str).

  (** tag_storage.hpp 302-307: what is only needed for new tags is given up; nothing reads the null pointers, [id] throws before *)
  Definition finalize (s : tstate) : tstate := mkTags [] (id_key s) [] (id_value s) [] (tags s) (nodes s) (edges s) true (clock s) (mapping s).
  (** 312-325; [_empty_tags] is an empty vector *)
  Definition sv_tags (s : tstate) : list atom :=
    sv_bool (finalized s) ++ sv_map sh_str sv_nat sv_str (id_key s) ++ sv_map sh_str sv_nat sv_str (id_value s) ++
    sv_map sh_tags sv_nat (sv_pair sv_nat sv_nat) (tags s) ++ sv_map sh_vec sv_nat (sv_list sv_nat) (nodes s) ++
    sv_map sh_vec sv_nat (sv_list sv_nat) (edges s) ++ sv_list sv_nat [] ++
    (if finalized s then [] else
       sv_map sh_rev sv_str sv_nat (key_id s) ++ sv_map sh_rev sv_str sv_nat (value_id s) ++
       sv_map sh_ids (sv_pair sv_nat sv_nat) sv_nat (ids s)).
  Definition ld_tags : rd tstate :=
    bindR ld_bool (fun fin =>
    bindR (ld_map Nat.eqb ld_nat ld_str) (fun ik =>
    bindR (ld_map Nat.eqb ld_nat ld_str) (fun iv =>
    bindR (ld_map Nat.eqb ld_nat (ld_pair ld_nat ld_nat)) (fun tg =>
    bindR (ld_map Nat.eqb ld_nat (ld_list ld_nat)) (fun ns =>
    bindR (ld_map Nat.eqb ld_nat (ld_list ld_nat)) (fun es =>
    bindR (ld_list ld_nat) (fun _ =>
    if fin : bool then retR (mkTags [] ik [] iv [] tg ns es true 0 0)
    else bindR (ld_map seqb ld_str ld_nat) (fun ki => bindR (ld_map seqb ld_str ld_nat) (fun vi =>
         bindR (ld_map peqb (ld_pair ld_nat ld_nat) ld_nat) (fun is => retR (mkTags ki ik vi iv is tg ns es false 0 0)))))))))))
  .

  (** *** the graph *)
  Record rich : Type := mkRich { r_length : F; r_azimuth : F; r_directions : F; r_absolute : F; r_lengths : list F; r_azimuths : list F; r_line : list P }.
  (** first the data, then the line *)
  Definition sv_rich (r : rich) : list atom :=
    sv_flo (r_length r) ++ sv_flo (r_azimuth r) ++ sv_flo (r_directions r) ++ sv_flo (r_absolute r) ++
    sv_list sv_flo (r_lengths r) ++ sv_list sv_flo (r_azimuths r) ++ sv_list sv_point (r_line r).
  Definition ld_rich : rd rich :=
    bindR ld_flo (fun a => bindR ld_flo (fun b => bindR ld_flo (fun c => bindR ld_flo (fun d =>
    bindR (ld_list ld_flo) (fun e => bindR (ld_list ld_flo) (fun f => bindR (ld_list ld_point) (fun g => retR (mkRich a b c d e f g)))))))).
  Local Notation net_graph := (@csr (nat * P) (nat * rich)).
  Definition sv_graph (g : net_graph) : list atom :=
    sv_list (sv_pair sv_nat (sv_pair sv_nat sv_point)) (c_vs g) ++
    sv_list (sv_pair (sv_pair sv_nat sv_nat) (sv_pair sv_nat sv_rich)) (c_es g).
  Definition ld_graph : rd net_graph :=
    bindR (ld_list (ld_pair ld_nat (ld_pair ld_nat ld_point))) (fun vs =>
    bindR (ld_list (ld_pair (ld_pair ld_nat ld_nat) (ld_pair ld_nat ld_rich))) (fun es => retR (mkC vs es))).

  (** *** the spatial indices *)
  Definition index : Type := option (list (P * nat)) * option (list ((P * P) * (nat * nat))).
  Definition sv_index (x : index) : list atom :=
    sv_ptr (sv_list (sv_pair sv_point sv_nat)) (fst x) ++ sv_ptr (sv_list (sv_pair (sv_pair sv_point sv_point) (sv_pair sv_nat sv_nat))) (snd x).
  Definition ld_index : rd index :=
    bindR (ld_ptr (ld_list (ld_pair ld_point ld_nat))) (fun a =>
    bindR (ld_ptr (ld_list (ld_pair (ld_pair ld_point ld_point) (ld_pair ld_nat ld_nat)))) (fun b => retR (a, b))).

  (** *** files *)
  (** what a file of a directory is: an archive, or the image of a memory-mapped storage *)
  Inductive file (X : Type) : Type := Absent | Archived (l : list atom) | Image (x : X).
  Arguments Absent {X}. Arguments Archived {X}. Arguments Image {X}.
  Record disk : Type := mkDisk { f_tags : file tstate; f_index : file index; f_graph : file (option net_graph) }.
  Record network : Type := mkNet { n_tags : tstate; n_index : index; n_graph : net_graph }.

  (** serializer.hpp 31-40: if the file cannot be opened, nothing happens.  A memory-mapped storage is its file ([DESTROY_AND_CREATE]). *)
  Definition put {X} (mapped writable : bool) (sv : X -> list atom) (x : X) (f : file X) : file X :=
    if mapped then Image x else if writable then Archived (sv x) else f.
  (** prepare.hpp 168-175, network.hpp 470-497; [m]: which of tags, indices and graph are memory-mapped, [w]: which files can be written;
      graph_storage.hpp 137: the graph is behind a pointer *)
  Definition sv_graph_ptr : option net_graph -> list atom := sv_ptr sv_graph.
  Definition prepare (m w : bool * bool * bool) (n : network) (d : disk) : disk :=
    let '(mt, mi, mg) := m in let '(wt, wi, wg) := w in
    mkDisk (put mt wt sv_tags (n_tags n) (f_tags d)) (put mi wi sv_index (n_index n) (f_index d))
           (put mg wg sv_graph_ptr (Some (n_graph n)) (f_graph d)).
  (** deserializer.hpp 33-46: a file that does not exist throws, one that cannot be opened leaves the object as it was made.
      Opening a memory-mapped storage: throws if there is no file; the bytes of an archive are taken for a storage (undefined); an image is
      no archive (throws: the signature is wrong). *)
  Definition get {X} (mapped readable : bool) (ld : rd X) (made : X) (f : file X) : outcome X :=
    match f with
    | Absent => Throw made
    | Image x => if mapped then Ok x else if readable then Throw made else Ok made
    | Archived l => if mapped then UB
                    else if readable then match ld l with Some (x, _) => Ok x | None => Throw made end
                    else Ok made
    end.
  (** network.hpp 225-263 (opening), 499-527 (loading); [r]: which files can be read *)
  Definition open (m r : bool * bool * bool) (d : disk) : outcome (tstate * index * option net_graph) :=
    let '(mt, mi, mg) := m in let '(rt, ri, rg) := r in
    let made := (empty_tags, (None, None), Some (mkC [] [])) in
    bindO (get mt rt ld_tags empty_tags (f_tags d)) (fun _ => made) (fun t =>
    bindO (get mi ri ld_index (None, None) (f_index d)) (fun _ => made) (fun i =>
    bindO (get mg rg (ld_ptr ld_graph) (Some (mkC [] [])) (f_graph d)) (fun _ => made) (fun g => Ok (t, i, g)))).
End Archive.

Arguments atom F P Str : clear implicits.
Arguments network F P Str : clear implicits.
Arguments rich F P : clear implicits.
Arguments index P : clear implicits.
Arguments disk F P Str : clear implicits.
Arguments Absent {F P Str X}.
Arguments Archived {F P Str X}.
Arguments Image {F P Str X}.
