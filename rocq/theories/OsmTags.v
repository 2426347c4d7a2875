(** Model of how the tags of nodes and ways come into the network while an OpenStreetMap file is imported, on top of Osm.v:
    /repo/src/library/include/io/network/osm_handler.hpp 45-86, io/helper/osm_handler_helper.hpp 110-134, 159-215,
    io/helper/graph_helper.hpp 270-294, 394-422 and io/helper/tag_helper.hpp 163-165, 173-176, 182-184, 331-355, 376-394.

    There are two tag storages: the one of the handler, which knows the tags of all nodes, and the one of the network, which gets the tags of the nodes
    that become vertices and of the ways that become edges.  [oom1], [oom2]: the failing allocations of the first and the second; [mt1], [mt2]: they are
    memory mapped files; [m1], [m2]: so are the table of nodes and the graph, whose calls are tried again as a whole.  As in Osm.v the allocations of the
    table and of the graph do not fail here.
    [moved]: whether [map.emplace(id, std::move(tags))] has taken the list away when it fails (the releases of [boost::unordered_flat_map] differ).  The list
    lies in the mapped file: after growing, the one that was not taken away has its elements in a file that is no longer mapped there. *)
From Verif Require Import Base AdjList GraphHelper Osm Tags Compress.

Section OsmTags.
  Context {P Str : Type}.
  Variable sort : list (osm_vertex P) -> list (osm_vertex P).
  Variables query filter_ oneway oneway_reverse : Str * Str -> bool.
  Variable dir : direction.
  Variables oom1 oom2 : nat -> bool.
  Variable seqb : Str -> Str -> bool.
  Variable store : Str -> Str.
  Variables m1 mt1 m2 mt2 moved : bool.
  Notation helper := (helper (nat * P) (nat * (P * P))).
  Notation tags_state := (tags_state Str).

  (** tag_helper.hpp 350-354 and 331-348: the list is made, with its own retry, then entered, with another retry *)
  Definition set_tags (oom : nat -> bool) (mapped w : bool) (n : nat) (l : list (Str * Str)) (s : tags_state) : outcome (unit * tags_state) :=
    match l with
    | [] => Ok (tt, s)
    | _ :: _ =>
        match mk_tags oom seqb store mapped l s with
        | Ok (is, s1) =>
            if negb (oom (clock s1)) then Ok (tt, tick (set_map w (emplace Nat.eqb n is (get_map w s1)) s1))
            else if negb mapped then Throw (tt, tick s1)
            else if negb moved then UB
            else let s2 := grow (tick s1) in
                 if oom (clock s2) then Throw (tt, grow (tick s2))
                 else Ok (tt, tick (set_map w (emplace Nat.eqb n [] (get_map w s2)) s2))
        | Throw (_, s1) => Throw (tt, s1)
        | UB => UB
        | Fuel => Fuel
        end
    end.

  (** the retry of the surrounding call (osm_handler_helper.hpp 126-130, graph_helper.hpp 282-287, 400-410) *)
  Definition again (m : bool) (f : tags_state -> outcome (unit * tags_state)) (s : tags_state) : outcome (unit * tags_state) :=
    match f s with
    | Throw (_, s1) => if m then f s1 else Throw (tt, s1)
    | r => r
    end.

  (** the tables, and the tags of the handler and of the network *)
  Definition state : Type := ((osm P * helper) * (tags_state * tags_state))%type.

  (** osm_handler.hpp 45-52, osm_handler_helper.hpp 110-134 *)
  Definition t_node (v : bool) (id : nat) (p : P) (l : list (Str * Str)) (st : state) : outcome state :=
    let '((s, h), (t1, t2)) := st in
    if negb v then Ok st
    else match contains_node sort id s with
         | Ok (s1, true) => Ok ((s1, h), (t1, t2))
         | Ok (s1, false) =>
             match again m1 (set_tags oom1 mt1 true id l) t1 with
             | Ok (_, t1) =>
                 match add_node true id p true true s1 with
                 | Ok s2 => Ok ((s2, h), (t1, t2))
                 | Throw s2 => Throw ((s2, h), (t1, t2))
                 | UB => UB
                 | Fuel => Fuel
                 end
             | Throw (_, t1) => Throw ((s1, h), (t1, t2))
             | UB => UB
             | Fuel => Fuel
             end
         | Throw (s1, _) => Throw ((s1, h), (t1, t2))
         | UB => UB
         | Fuel => Fuel
         end.

  (** tag_helper.hpp 174-176, 314-316: the tags of a node of the other storage; [None]: one of them is not known *)
  Fixpoint pairs_of (s : tags_state) (is : list nat) : option (list (Str * Str)) :=
    match is with
    | [] => Some []
    | i :: r => match tag s i, pairs_of s r with Some t, Some ts => Some (t :: ts) | _, _ => None end
    end.
  (** osm_handler_helper.hpp 159-165, graph_helper.hpp 274-280: the tags first *)
  Definition t_add_vertex (k : nat) (st : state) : outcome state :=
    let '((s, h), (t1, t2)) := st in
    derefO (nth_error (o_vs s) k) (fun x =>
    if ov_added x then Ok st
    else match pairs_of t1 (node_tags t1 (ov_id x)) with
         | None => Throw st
         | Some l =>
             match again m2 (clone oom2 seqb store mt2 true (ov_id x) l) t2 with
             | Ok (_, t2) =>
                 match Osm.add_vertex k s h with
                 | Ok sh => Ok (sh, (t1, t2))
                 | Throw sh => Throw (sh, (t1, t2))
                 | UB => UB
                 | Fuel => Fuel
                 end
             | Throw (_, t2) => Throw ((s, h), (t1, t2))
             | UB => UB
             | Fuel => Fuel
             end
         end).

  (** graph_helper.hpp 394-422: the vertices are looked up, then the tags are entered, then the edge *)
  Definition t_add_one (w : nat) (ts : list (Str * Str)) (x y : osm_vertex P) (st : state) : outcome state :=
    let '((s, h), (t1, t2)) := st in
    match nth_error (h_map h) (ov_index x), nth_error (h_map h) (ov_index y) with
    | Some _, Some _ =>
        match again m2 (set_tags oom2 mt2 false w ts) t2 with
        | Ok (_, t2) =>
            match Osm.add_one dir w x y h with
            | Ok h1 => Ok ((s, h1), (t1, t2))
            | Throw h1 => Throw ((s, h1), (t1, t2))
            | UB => UB
            | Fuel => Fuel
            end
        | Throw (_, t2) => Throw ((s, h), (t1, t2))
        | UB => UB
        | Fuel => Fuel
        end
    | _, _ => Throw st
    end.
  (** osm_handler_helper.hpp 167-215 *)
  Definition t_add_edge (w : nat) (ts : list (Str * Str)) (x y : osm_vertex P) (ow rv : bool) (st : state) : outcome state :=
    if ow then if negb rv then t_add_one w ts x y st else t_add_one w ts y x st
    else bindO (t_add_one w ts x y st) (fun a => a) (t_add_one w ts y x).

  (** osm_handler.hpp 58-67 *)
  Definition t_way_vertex (st : state) (n : nat) : outcome state :=
    let '((s, h), ts) := st in
    match get_node sort n s with
    | Ok (s1, Some k) => t_add_vertex k ((s1, h), ts)
    | Ok (s1, None) => UB
    | Throw (s1, _) => Ok ((s1, h), ts)
    | UB => UB
    | Fuel => Fuel
    end.
  (** osm_handler.hpp 70-83 *)
  Definition t_way_edge (w : nat) (ts : list (Str * Str)) (st : state) (ab : nat * nat) : outcome state :=
    let '((s, h), tags) := st in
    match get_node sort (fst ab) s with
    | Ok (s1, Some k1) =>
      match get_node sort (snd ab) s1 with
      | Ok (s2, Some k2) =>
        derefO (nth_error (o_vs s2) k1) (fun x =>
        derefO (nth_error (o_vs s2) k2) (fun y =>
        let (ow, rv) := detect_oneway oneway oneway_reverse ts in t_add_edge w ts x y ow rv ((s2, h), tags)))
      | Ok (_, None) => UB
      | Throw (s2, _) => Ok ((s2, h), tags)
      | UB => UB
      | Fuel => Fuel
      end
    | Ok (_, None) => UB
    | Throw (s1, _) => Ok ((s1, h), tags)
    | UB => UB
    | Fuel => Fuel
    end.
  (** osm_handler.hpp 54-86 *)
  Definition t_way (v : bool) (w : nat) (ns : list nat) (ts : list (Str * Str)) (st : state) : outcome state :=
    if v && keep query filter_ ts then
      bindO (foldO t_way_vertex ns st) (fun a => a) (fun st =>
      match ns with
      | [] => UB
      | _ :: r => foldO (t_way_edge w ts) (combine ns r) st
      end)
    else Ok st.

  (** the entities of a file with their tags *)
  Inductive tagged :=
  | TNode (visible : bool) (id : nat) (p : P) (ts : list (Str * Str))
  | TWay (visible : bool) (w : nat) (ns : list nat) (ts : list (Str * Str)).
  (** osm_importer.hpp 37-54 *)
  Definition t_handle (st : state) (x : tagged) : outcome state :=
    match x with
    | TNode v id p l => t_node v id p l st
    | TWay v w ns ts => t_way v w ns ts st
    end.
  Definition t_import (xs : list tagged) : outcome state := foldO t_handle xs ((empty_osm, empty_helper), (empty_tags, empty_tags)).
End OsmTags.
Arguments tagged P Str : clear implicits.
