(** Model of the OpenStreetMap importer: node table with lazy sorting, way handler.
    /repo/src/library/include/io/helper/osm_handler_helper.hpp,
    /repo/src/library/include/io/network/osm_handler.hpp,
    /repo/src/library/include/io/memory_mapped/storage/osm_handler_storage.hpp.

    Node ids are natural numbers (the code casts the signed 64 bit ids to unsigned, which is injective).
    Points are abstract (after reprojection).  Tags of nodes and ways are handed on to Tags.v's storage and
    not modelled here; the tags of a way are modelled as far as the filters read them. *)
From Verif Require Import Base AdjList GraphHelper.

Section Osm.
  Context {P T : Type}.

  (** osm_handler_storage.hpp 31-80; compared by id only (53-63) *)
  Record osm_vertex := mkOV { ov_id : nat; ov_point : P; ov_index : nat; ov_added : bool }.

  (** osm_handler_helper.hpp 219-221: the vector of nodes and [_sort_vertices] *)
  Record osm := mkOsm { o_vs : list osm_vertex; o_sort : bool }.
  Definition empty_osm : osm := mkOsm [] false.

  (** [std::sort] over osm_vertex (138); its contract is stated where it is used *)
  Variable sort : list osm_vertex -> list osm_vertex.

  (** [std::lower_bound] as implemented by the standard libraries (halving the interval
      [first, first + len)); reading outside the vector is undefined. *)
  Fixpoint lower_bound (fuel : nat) (l : list osm_vertex) (id first len : nat) : outcome nat :=
    match fuel with
    | 0 => match len with 0 => Ok first | S _ => Fuel end
    | S f =>
      match len with
      | 0 => Ok first
      | S _ =>
        let half := Nat.div2 len in
        derefO (nth_error l (first + half)) (fun x =>
        if ov_id x <? id then lower_bound f l id (first + half + 1) (len - half - 1)
        else lower_bound f l id first half)
      end
    end.

  (** osm_handler_helper.hpp 136-141 *)
  Definition check_and_sort_nodes (s : osm) : osm := if o_sort s then mkOsm (sort (o_vs s)) false else s.

  (** osm_handler_helper.hpp 110-134; [ok1 ok2]: whether memory suffices in the first and second attempt.  A vector
      that cannot grow is left as it was; the flag keeps its new value. *)
  Definition add_node_once (id : nat) (p : P) (ok : bool) (s : osm) : outcome osm :=
    let flag := o_sort s || match rev (o_vs s) with [] => false | b :: _ => id <? ov_id b end in       (* 117-119 *)
    if ok then Ok (mkOsm (o_vs s ++ [mkOV id p 0 false]) flag)                                         (* 120-122 *)
    else Throw (mkOsm (o_vs s) flag).
  Definition add_node (mmap : bool) (id : nat) (p : P) (ok1 ok2 : bool) (s : osm) : outcome osm :=
    match add_node_once id p ok1 s with
    | Throw s1 => if mmap then add_node_once id p ok2 s1 else Throw s1
    | r => r
    end.

  (** osm_handler_helper.hpp 143-147 ([std::binary_search]: [lower_bound], then not greater) *)
  Definition contains_node (id : nat) (s : osm) : outcome (osm * bool) :=
    let s1 := check_and_sort_nodes s in
    match lower_bound (length (o_vs s1)) (o_vs s1) id 0 (length (o_vs s1)) with
    | Ok k => Ok (s1, match nth_error (o_vs s1) k with None => false | Some x => negb (id <? ov_id x) end)
    | Throw _ => UB
    | UB => UB
    | Fuel => Fuel
    end.

  (** osm_handler_helper.hpp 149-157; returns the position of the node; [Throw]: [out_of_range] *)
  Definition get_node (id : nat) (s : osm) : outcome (osm * option nat) :=
    let s1 := check_and_sort_nodes s in
    match lower_bound (length (o_vs s1)) (o_vs s1) id 0 (length (o_vs s1)) with
    | Ok k => match nth_error (o_vs s1) k with
              | None => Throw (s1, None)
              | Some x => if negb (ov_id x =? id) then Throw (s1, None) else Ok (s1, Some k)
              end
    | Throw _ => UB
    | UB => UB
    | Fuel => Fuel
    end.

  (** osm_handler.hpp 45-52 *)
  Definition node (mmap visible : bool) (id : nat) (p : P) (ok1 ok2 : bool) (s : osm) : outcome osm :=
    if visible then
      match contains_node id s with
      | Ok (s1, true) => Ok s1
      | Ok (s1, false) => add_node mmap id p ok1 ok2 s1
      | Throw (s1, _) => Throw s1
      | UB => UB
      | Fuel => Fuel
      end
    else Ok s.

  (** osm_handler.hpp 98: the four filters *)
  Variables query filter_ oneway oneway_reverse : T -> bool.

  (** osm_handler.hpp 100-113 *)
  Fixpoint all_pass (ts : list T) : bool :=
    match ts with [] => true | t :: r => if negb (filter_ t) then false else all_pass r end.
  Fixpoint keep_loop (all ts : list T) : bool :=
    match ts with [] => false | t :: r => if query t then all_pass all else keep_loop all r end.
  Definition keep (ts : list T) : bool := keep_loop ts ts.

  (** osm_handler.hpp 115-127 *)
  Definition detect_oneway (ts : list T) : bool * bool :=
    fold_left (fun a t => ((if oneway t then true else fst a), (if oneway_reverse t then true else snd a))) ts (false, false).

  (** vertices and edges handed to the graph: node id with point; way id with the two points of the line *)
  Definition vdata := (nat * P)%type.
  Definition edata := (nat * (P * P))%type.
  Variable dir : direction.
  Notation helper := (helper vdata edata).

  Definition no_va : vertex_answers := mkVA true Good Good.
  Definition no_ea : edge_answers := mkEA true Good Good Good.

  Definition set_nth (l : list osm_vertex) (k : nat) (x : osm_vertex) : list osm_vertex :=
    firstn k l ++ x :: skipn (S k) l.

  (** osm_handler_helper.hpp 159-165.  Allocation failures inside [way] are not modelled here ([way] is
      [noexcept]: one that is not cured by the retry of GraphHelper.v ends the program). *)
  Definition add_vertex (k : nat) (s : osm) (h : helper) : outcome (osm * helper) :=
    derefO (nth_error (o_vs s) k) (fun x =>
    if ov_added x then Ok (s, h)
    else match add_vertex_with_index_mapping true (ov_id x, ov_point x) no_va no_va h with
         | Ok (h1, Val i) => Ok (mkOsm (set_nth (o_vs s) k (mkOV (ov_id x) (ov_point x) i true)) (o_sort s), h1)
         | Throw (h1, _) => Throw (s, h1)
         | UB => UB
         | Fuel => Fuel
         | Ok (_, Exn _) => UB
         end).

  (** osm_handler_helper.hpp 167-214: one of the calls, from [x] to [y] *)
  Definition add_one (w : nat) (x y : osm_vertex) (h : helper) : outcome helper :=
    match add_edge_with_indices dir true (ov_index x) (ov_index y) (w, (ov_point x, ov_point y)) no_ea no_ea h with
    | Ok (h1, _) => Ok h1
    | Throw (h1, _) => Throw h1
    | UB => UB
    | Fuel => Fuel
    end.
  Definition add_edge (w : nat) (x y : osm_vertex) (ow rev : bool) (h : helper) : outcome helper :=
    if ow then if negb rev then add_one w x y h else add_one w y x h
    else bindO (add_one w x y h) (fun h => h) (fun h1 => add_one w y x h1).

  (** osm_handler.hpp 58-67: first loop; a node that is not known throws and is skipped *)
  Definition way_vertex (sh : osm * helper) (n : nat) : outcome (osm * helper) :=
    match get_node n (fst sh) with
    | Ok (s1, Some k) => add_vertex k s1 (snd sh)
    | Ok (s1, None) => UB
    | Throw (s1, _) => Ok (s1, snd sh)
    | UB => UB
    | Fuel => Fuel
    end.

  (** osm_handler.hpp 70-83: body of the second loop *)
  Definition way_edge (w : nat) (ts : list T) (sh : osm * helper) (ab : nat * nat) : outcome (osm * helper) :=
    match get_node (fst ab) (fst sh) with
    | Ok (s1, Some k1) =>
      match get_node (snd ab) s1 with
      | Ok (s2, Some k2) =>
        derefO (nth_error (o_vs s2) k1) (fun x =>
        derefO (nth_error (o_vs s2) k2) (fun y =>
        let (ow, rv) := detect_oneway ts in
        match add_edge w x y ow rv (snd sh) with
        | Ok h1 => Ok (s2, h1)
        | Throw h1 => Throw (s2, h1)
        | UB => UB
        | Fuel => Fuel
        end))
      | Ok (_, None) => UB
      | Throw (s2, _) => Ok (s2, snd sh)
      | UB => UB
      | Fuel => Fuel
      end
    | Ok (_, None) => UB
    | Throw (s1, _) => Ok (s1, snd sh)
    | UB => UB
    | Fuel => Fuel
    end.

  (** osm_handler.hpp 54-86.  The second loop runs to [size() - 1] in unsigned arithmetic: on a way without nodes it
      reads behind the end of the list. *)
  Definition way (visible : bool) (w : nat) (ns : list nat) (ts : list T) (sh : osm * helper) : outcome (osm * helper) :=
    if visible && keep ts then
      bindO (foldO way_vertex ns sh) (fun x => x) (fun sh1 =>
      match ns with
      | [] => UB
      | _ :: r => foldO (way_edge w ts) (combine ns r) sh1
      end)
    else Ok sh.

  (** osmium::apply over the files in order (osm_importer.hpp 37-54): one handler call per entity *)
  Inductive entity :=
  | Node (visible : bool) (id : nat) (p : P)
  | Way (visible : bool) (w : nat) (ns : list nat) (ts : list T).

  Definition handle (sh : osm * helper) (x : entity) : outcome (osm * helper) :=
    match x with
    | Node v id p => match node true v id p true true (fst sh) with
                     | Ok s => Ok (s, snd sh)
                     | Throw s => Throw (s, snd sh)
                     | UB => UB
                     | Fuel => Fuel
                     end
    | Way v w ns ts => way v w ns ts sh
    end.
  Definition import (xs : list entity) : outcome (osm * helper) := foldO handle xs (empty_osm, empty_helper).
End Osm.
Arguments osm_vertex P : clear implicits.
Arguments osm P : clear implicits.
Arguments entity P T : clear implicits.
