(** Model of the OpenStreetMap exporter, /repo/src/library/include/io/network/osm_exporter.hpp.

    The result is the sequence of entities in the written buffer, in the form Osm.v imports them.  Node tags are left
    out (Osm.v does not read them); the tags of an edge are given with the edge (the tag storage is Tags.v).  [P]: points
    of the network, [K]: reprojected coordinate pairs (the key of the point map), [L]: [osmium::Location], which keeps a
    fixed number of digits of the coordinates ([loc]).  Edges are numbered by their position (edge_index), vertices too. *)
From Coq Require Import Ascii String.
From Verif Require Import Base AdjList GraphHelper Osm OsmFilter Convert.
Local Open Scope nat_scope.
Local Open Scope list_scope.

Section OsmExport.
  Context {P K L : Type}.
  Variable eqp : P -> P -> bool.            (* equals_points *)
  Variable reproject : P -> K.              (* geometry::reproject_point *)
  Variable keqb : K -> K -> bool.           (* equality of coordinate pairs *)
  Variable loc : K -> L.                    (* osmium::Location{x, y} *)

  Local Notation tag := (str * str)%type.
  (** an edge; its source is not read by the exporter *)
  Record road := mkRoad { r_source : nat; r_target : nat; r_line : list P; r_tags : list tag }.
  (** the graph as the exporter reads it: points of the vertices, edges, indices of the out-edges of a vertex *)
  Record net := mkNet { n_points : list P; n_roads : list road; n_out : nat -> list nat }.

  (** [_point_map], unordered_flat_map *)
  Local Notation pmap := (list (K * nat)).
  Fixpoint find_point (m : pmap) (k : K) : option nat :=
    match m with
    | [] => None
    | (k1, i) :: r => if keqb k1 k then Some i else find_point r k
    end.
  (** [_point_map[key]]: a missing key is inserted with the value 0 *)
  Definition at_key (m : pmap) (k : K) : pmap * nat :=
    match find_point m k with
    | Some i => (m, i)
    | None => (m ++ [(k, 0)], 0)
    end.

  (** osm_exporter.hpp 52-67: [contains] and [emplace] with [index++] *)
  Definition index_point (st : pmap * nat) (p : P) : pmap * nat :=
    let k := reproject p in
    match find_point (fst st) k with
    | Some _ => st
    | None => (fst st ++ [(k, snd st)], snd st + 1)
    end.
  Definition index_points (rs : list road) : pmap * nat :=
    fold_left (fun st r => fold_left index_point (r_line r) st) rs ([], 0).

  (** osm_exporter.hpp 72-76 and 125-150 (without tags): state is the map, [points_added] and the buffer *)
  Definition add_node (st : pmap * list K * list (entity L tag)) (p : P) : pmap * list K * list (entity L tag) :=
    let '(m, added, out) := st in
    let k := reproject p in
    let (m1, i) := at_key m k in
    (m1, added ++ [k], out ++ [Node true i (loc k)]).

  (** osm_exporter.hpp 78-84 and 152-159: all points of the map that were not added, in the order of the unordered map *)
  Variable order : pmap -> pmap.
  Definition add_rest (m : pmap) (added : list K) : list (entity L tag) :=
    map (fun ki => Node true (snd ki) (loc (fst ki)))
      (filter (fun ki => negb (existsb (keqb (fst ki)) added)) (order m)).

  (** osm_exporter.hpp 167-181: the node references *)
  Fixpoint refs (m : pmap) (line : list P) : pmap * list nat :=
    match line with
    | [] => (m, [])
    | p :: r => let (m1, i) := at_key m (reproject p) in
                let (m2, is) := refs m1 r in (m2, i :: is)
    end.

  Definition oneway_key : str := of_string "oneway".
  Definition yes : str := of_string "yes".
  Definition minus_one : str := of_string "-1".
  Definition reverse_ : str := of_string "reverse".
  (** osm_exporter.hpp 184-205 *)
  Fixpoint way_tags_loop (ts : list tag) (has_oneway : bool) : list tag * bool :=
    match ts with
    | [] => ([], has_oneway)
    | (k, v) :: r =>
      if str_eqb k oneway_key then
        if str_eqb v yes then let (l, b) := way_tags_loop r true in ((k, v) :: l, b)
        else if str_eqb v minus_one || str_eqb v reverse_ then way_tags_loop r has_oneway
        else let (l, b) := way_tags_loop r has_oneway in ((k, v) :: l, b)
      else let (l, b) := way_tags_loop r has_oneway in ((k, v) :: l, b)
    end.
  Definition way_tags (ts : list tag) (is_oneway : bool) : list tag :=
    let (l, has_oneway) := way_tags_loop ts false in
    if negb has_oneway && is_oneway then l ++ [(oneway_key, yes)] else l.

  (** osm_exporter.hpp 93-100: the loop over the out-edges of the target; an index without edge is undefined behaviour *)
  Fixpoint find_reversed (rs : list road) (line : list P) (outs : list nat) (reversed : list nat) (is_oneway : bool)
    : outcome (list nat * bool) :=
    match outs with
    | [] => Ok (reversed, is_oneway)
    | j :: t =>
      match nth_error rs j with
      | None => UB
      | Some o => match lines_are_reversed eqp line (r_line o) with
                  | Ok true => find_reversed rs line t (j :: reversed) false
                  | Ok false => find_reversed rs line t reversed is_oneway
                  | _ => UB
                  end
      end
    end.

  (** osm_exporter.hpp 86-105: the loop over the edges; [todo] are the edges from index [e] on *)
  Fixpoint add_ways (n : net) (todo : list road) (e : nat) (m : pmap) (reversed : list nat) (index : nat)
    : outcome (list (entity L tag)) :=
    match todo with
    | [] => Ok []
    | r :: t =>
      if existsb (Nat.eqb e) reversed then add_ways n t (S e) m reversed index
      else
        match find_reversed (n_roads n) (r_line r) (n_out n (r_target r)) reversed true with
        | Ok (reversed1, is_oneway) =>
          let (m1, ns) := refs m (r_line r) in
          match add_ways n t (S e) m1 reversed1 (index + 1) with
          | Ok ws => Ok (Way true index ns (way_tags (r_tags r) is_oneway) :: ws)
          | x => x
          end
        | _ => UB
        end
    end.

  (** osm_exporter.hpp 49-113 *)
  Definition export (n : net) : outcome (list (entity L tag)) :=
    let (m, index) := index_points (n_roads n) in
    let '(m1, added, nodes) := fold_left add_node (n_points n) (m, [], []) in
    let rest := add_rest m1 added in
    match add_ways n (n_roads n) 0 m1 [] index with
    | Ok ways => Ok (nodes ++ rest ++ ways)
    | x => x
    end.
End OsmExport.
Arguments road P : clear implicits.
Arguments net P : clear implicits.
