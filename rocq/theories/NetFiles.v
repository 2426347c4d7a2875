(** Model of the importers for the road networks of single data sets:
    /repo/src/library/include/io/network/arc_node_importer.hpp 61-108, melbourne_importer.hpp 58-128,
    giscup_importer.hpp 58-139 and seattle_importer.hpp 56-124, on top of GraphHelper.v.

    The files are given parsed: a data set is the list of rows of its files ([std::stol], [std::stod] and WKT are not
    modelled; a row they do not accept leaves the importer by an exception).  A rest of file names too short for a data
    set is not read.  Memory suffices (see C46 for the other case).  [P]: points, [reproject]: what the constructor of a
    node does to its point.  Vertices carry (id, point), edges (id, line). *)
From Verif Require Import Base AdjList GraphHelper.

Section NetFiles.
  Context {P : Type}.
  Variable reproject : P -> P.
  Variable dir : direction.

  Local Notation helper := (helper (nat * P) (nat * list P)).

  Definition enough_v : vertex_answers := mkVA true Good Good.
  Definition enough_e : edge_answers := mkEA true Good Good Good.

  (** [_graph_helper.add_vertex_with_index_mapping(vertex_data_type{id, point, reprojector})] *)
  Definition addV (h : helper) (id : nat) (p : P) : outcome (helper * nat) :=
    match add_vertex_with_index_mapping true (id, reproject p) enough_v enough_v h with
    | Ok (h1, Val i) => Ok (h1, i)
    | Throw (h1, _) => Throw (h1, 0)
    | Ok (_, Exn _) => UB
    | UB => UB
    | Fuel => Fuel
    end.
  (** [_graph_helper.add_edge(from, to, edge_data_type{id, rich_line_type{line}})] *)
  Definition addE (h : helper) (i j id : nat) (line : list P) : outcome helper :=
    match add_edge_by_value dir (fun _ => (0, [])) true i j (id, line) enough_e enough_e h with
    | Ok (h1, _) => Ok h1
    | Throw (h1, _) => Throw h1
    | UB => UB
    | Fuel => Fuel
    end.
  (** [_graph_helper.graph().get_vertex_data(_graph_helper.get_vertex_descriptor_for_index(i)).point]; [at] throws *)
  Definition point_of (h : helper) (i : nat) : outcome (option P) :=
    match nth_error (h_map h) i with
    | None => Throw None
    | Some v => derefO (get_vertex (h_graph h) v) (fun x => Ok (Some (snd (v_data x))))
    end.
  (** the edge with the line from point to point: arc_node_importer.hpp 97-103, melbourne_importer.hpp 107-115 *)
  Definition straight (h : helper) (i j id : nat) : outcome helper :=
    match point_of h i, point_of h j with
    | Ok (Some p), Ok (Some q) => addE h i j id [p; q]
    | Throw _, _ => Throw h
    | _, Throw _ => Throw h
    | _, _ => UB
    end.

  (** *** arc_node_importer.hpp *)
  (** 74-81: rows of the node file are points; state: helper, [_node_map], [id] *)
  Definition arc_node_row (s : helper * list nat * nat) (p : P) : outcome (helper * list nat * nat) :=
    let '(h, nm, id) := s in
    match addV h id p with
    | Ok (h1, i) => Ok (h1, nm ++ [i], id + 1)
    | Throw (h1, _) => Throw (h1, nm, id + 1)
    | UB => UB
    | Fuel => Fuel
    end.
  (** 90-104: rows of the arc file are pairs of line numbers *)
  Definition arc_row (s : helper * list nat * nat) (ab : nat * nat) : outcome (helper * list nat * nat) :=
    let '(h, nm, id) := s in
    match nth_error nm (fst ab), nth_error nm (snd ab) with
    | Some i, Some j => match straight h i j id with
                        | Ok h1 => Ok (h1, nm, id + 1)
                        | Throw h1 => Throw (h1, nm, id)
                        | UB => UB
                        | Fuel => Fuel
                        end
    | _, _ => Throw s
    end.
  (** 63-107: one data set; the ids start again at 0 for arcs and for every data set, the node map is cleared at the end *)
  Definition arc_set (h : helper) (ds : list P * list (nat * nat)) : outcome helper :=
    bindO (foldO arc_node_row (fst ds) (h, [], 0)) (fun s => fst (fst s)) (fun s1 =>
    bindO (foldO arc_row (snd ds) (fst s1, 0)) (fun s => fst (fst s)) (fun s2 => Ok (fst (fst s2)))).
  Definition arc_node_read (dss : list (list P * list (nat * nat))) : outcome helper := foldO arc_set dss empty_helper.

  (** *** maps from ids, [boost::unordered_flat_map]; [emplace] keeps the first entry of a key *)
  Fixpoint find_id {A} (m : list (nat * A)) (id : nat) : option A :=
    match m with
    | [] => None
    | (k, a) :: r => if k =? id then Some a else find_id r id
    end.
  Definition emplace_id {A} (m : list (nat * A)) (id : nat) (a : A) : list (nat * A) :=
    match find_id m id with Some _ => m | None => m ++ [(id, a)] end.

  (** *** melbourne_importer.hpp; also giscup_importer.hpp 72-83 for the nodes *)
  (** 74-85: rows (id, point); state: helper, [_vertex_map] *)
  Definition node_row (s : helper * list (nat * nat)) (r : nat * P) : outcome (helper * list (nat * nat)) :=
    let '(h, vm) := s in
    match addV h (fst r) (snd r) with
    | Ok (h1, i) => Ok (h1, emplace_id vm (fst r) i)
    | Throw (h1, _) => Throw (h1, vm)
    | UB => UB
    | Fuel => Fuel
    end.
  (** 98-116: rows (id, from, to) *)
  Definition edge_row (s : helper * list (nat * nat)) (r : nat * (nat * nat)) : outcome (helper * list (nat * nat)) :=
    let '(h, vm) := s in
    match find_id vm (fst (snd r)), find_id vm (snd (snd r)) with
    | Some i, Some j => match straight h i j (fst r) with
                        | Ok h1 => Ok (h1, vm)
                        | Throw h1 => Throw (h1, vm)
                        | UB => UB
                        | Fuel => Fuel
                        end
    | _, _ => Throw s
    end.
  (** 60-127: one data set; the map is kept for the next one *)
  Definition melbourne_set (s : helper * list (nat * nat)) (ds : list (nat * P) * list (nat * (nat * nat)))
    : outcome (helper * list (nat * nat)) :=
    bindO (foldO node_row (fst ds) s) (fun x => x) (fun s1 => foldO edge_row (snd ds) s1).
  Definition melbourne_read (dss : list (list (nat * P) * list (nat * (nat * nat)))) : outcome (helper * list (nat * nat)) :=
    foldO melbourne_set dss (empty_helper, []).

  (** *** giscup_importer.hpp *)
  (** state: helper, [_vertex_map], [_edge_map] *)
  Local Notation gis := (helper * list (nat * nat) * list (nat * (nat * nat)))%type.
  (** 111-137: rows (edge id, line); the line is taken as it is in the file *)
  Definition geometry_row (s : gis) (r : nat * list P) : outcome gis :=
    let '(h, vm, em) := s in
    match find_id em (fst r) with
    | None => Throw s
    | Some (f, t) =>
      match find_id vm f, find_id vm t with
      | Some i, Some j => match point_of h i, point_of h j with         (* 128-131, only read *)
                          | Ok _, Ok _ => match addE h i j (fst r) (snd r) with
                                          | Ok h1 => Ok (h1, vm, em)
                                          | Throw h1 => Throw (h1, vm, em)
                                          | UB => UB
                                          | Fuel => Fuel
                                          end
                          | Throw _, _ => Throw s
                          | _, Throw _ => Throw s
                          | _, _ => UB
                          end
      | _, _ => Throw s
      end
    end.
  Record gis_set := mkGis { gs_nodes : list (nat * P); gs_edges : list (nat * (nat * nat)); gs_lines : list (nat * list P) }.
  (** 60-138 *)
  Definition giscup_set (s : gis) (ds : gis_set) : outcome gis :=
    let '(h, vm, em) := s in
    bindO (foldO node_row (gs_nodes ds) (h, vm)) (fun x => (x, em)) (fun s1 =>
    let em1 := fold_left (fun em r => emplace_id em (fst r) (snd r)) (gs_edges ds) em in                (* 93-101 *)
    foldO geometry_row (gs_lines ds) (s1, em1)).
  Definition giscup_read (dss : list gis_set) : outcome gis := foldO giscup_set dss (empty_helper, [], []).

  (** *** seattle_importer.hpp *)
  Record sea_row := mkSea { sr_id : nat; sr_from : nat; sr_to : nat; sr_two_way : bool; sr_line : list P }.
  (** 86-96 and 98-108: the vertex of a node, made from the point [p] of the line if it is new; reading [front] or [back]
      of an empty line is undefined *)
  Definition sea_vertex (s : helper * list (nat * nat)) (id : nat) (p : option P) : outcome (helper * list (nat * nat) * nat) :=
    let '(h, vm) := s in
    match find_id vm id with
    | Some i => Ok (h, vm, i)
    | None => derefO p (fun p =>
              match addV h id p with
              | Ok (h1, i) => Ok (h1, emplace_id vm id i, i)
              | Throw (h1, _) => Throw (h1, vm, 0)
              | UB => UB
              | Fuel => Fuel
              end)
    end.
  Definition last_point (l : list P) : option P := nth_error l (length l - 1).
  (** 72-122 *)
  Definition sea_step (s : helper * list (nat * nat)) (r : sea_row) : outcome (helper * list (nat * nat)) :=
    bindO (sea_vertex s (sr_from r) (hd_error (sr_line r))) fst (fun s1 =>
    bindO (sea_vertex (fst s1) (sr_to r) (last_point (sr_line r))) fst (fun s2 =>
    let '(h, vm) := fst s2 in
    let keep := fun h => (h, vm) in
    bindO (addE h (snd s1) (snd s2) (sr_id r) (sr_line r)) keep (fun h1 =>
    if sr_two_way r then bindO (addE h1 (snd s2) (snd s1) (sr_id r) (rev (sr_line r))) keep (fun h2 => Ok (h2, vm))
    else Ok (h1, vm)))).
  (** 56-124 over the rows of all files (header lines left out) *)
  Definition seattle_read (rows : list sea_row) : outcome (helper * list (nat * nat)) := foldO sea_step rows (empty_helper, []).
End NetFiles.
