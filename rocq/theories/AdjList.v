(** Model of the list based graph container
    /repo/src/library/include/graph/adjacency_list.hpp.

    Instances with [std::list] containers are modelled (the ones used for networks, see
    types/graph/adjacency_list.hpp 51-60); descriptors are list iterators, i.e. identities of nodes.
    The kinds [directional], [bidirectional] and [undirected] of graph/common.hpp 20-24 are modelled
    ([bidirectional] derives from [directional]); a user-defined mixture of undirected and
    bidirectional is not. *)
From Verif Require Import Base.

Section AdjList.
  Context {VD ED : Type}.

  (** graph/common.hpp 20-24 *)
  Inductive direction := Directed | Bidirectional | Undirected.

  (** adjacency_list.hpp 268-603 ([base_vertex], [base_index_vertex], [bi_vertex]).
      [v_id] stands for the address of the list node (identity); identities are never reused in the
      model, real addresses may be reused after erasure. *)
  Record vertex := mkV { v_id : nat; v_index : nat; v_data : VD; v_out : list nat; v_in : list nat }.

  (** adjacency_list.hpp 106-213 ([base_edge], [base_index_edge], [edge]). *)
  Record edge := mkE { e_id : nat; e_index : nat; e_src : nat; e_tgt : nat; e_data : ED }.

  (** adjacency_list.hpp 1218-1219 (members [vertices], [edges]); [g_next] is the next unused
      identity (model only). *)
  Record graph := mkG { g_vs : list vertex; g_es : list edge; g_next : nat }.

  (** adjacency_list.hpp 605-609 *)
  Definition empty_graph : graph := mkG [] [] 0.

  (** adjacency_list.hpp 825-866 ([get_vertex], [get_edge]): dereferencing an iterator.  [None] means
      the descriptor does not denote a live node, dereferencing it is undefined behaviour. *)
  Definition get_vertex (g : graph) (v : nat) : option vertex :=
    find (fun x => v_id x =? v) (g_vs g).
  Definition get_edge (g : graph) (e : nat) : option edge :=
    find (fun x => e_id x =? e) (g_es g).

  (** assignment through a [vertex_type &] obtained from [get_vertex] *)
  Definition upd_vertex (g : graph) (v : nat) (f : vertex -> vertex) : graph :=
    mkG (map (fun x => if v_id x =? v then f x else x) (g_vs g)) (g_es g) (g_next g).

  Definition set_out (l : list nat) (x : vertex) : vertex :=
    mkV (v_id x) (v_index x) (v_data x) l (v_in x).
  Definition set_in (l : list nat) (x : vertex) : vertex :=
    mkV (v_id x) (v_index x) (v_data x) (v_out x) l.
  Definition set_es (g : graph) (es : list edge) : graph := mkG (g_vs g) es (g_next g).
  Definition bump (g : graph) : graph := mkG (g_vs g) (g_es g) (S (g_next g)).

  (** Behaviour of the allocator during one [emplace_back]: success, or an exception after which the
      container is left with [junk] additional elements (0 for [std::list], which gives the strong
      guarantee; [try_add] of the code copes with any number). *)
  Inductive alloc := Good | Bad (junk : nat).

  (** adjacency_list.hpp 941-965 ([try_add]) without the [additional_tidy] callback, which the callers
      below apply to the resulting state.  The boolean is [false] if the exception is rethrown. *)
  Definition try_add {A : Type} (c : list A) (x : A) (a : alloc) : list A * bool :=
    match a with
    | Good => (c ++ [x], true)
    | Bad k => let c' := c ++ repeat x k in (pop_back_until (length c') (length c) c', false)
    end.

  (** adjacency_list.hpp 703-729 ([add_vertex], [_add_vertex]); returns the new descriptor. *)
  Definition add_vertex (g : graph) (d : VD) (a : alloc) : outcome (graph * option nat) :=
    let x := mkV (g_next g) (length (g_vs g)) d [] [] in
    match try_add (g_vs g) x a with
    | (vs, true) => Ok (mkG vs (g_es g) (S (g_next g)), Some (g_next g))
    | (vs, false) => Throw (mkG vs (g_es g) (g_next g), None)
    end.

  (** adjacency_list.hpp 764-769 ([edges_tidy]): drop the last edge if it is the one just added. *)
  Definition edges_tidy (eid : nat) (g : graph) : graph :=
    match rev (g_es g) with
    | e :: _ => if e_id e =? eid then set_es g (removelast (g_es g)) else g
    | [] => g
    end.

  (** adjacency_list.hpp 775-781 ([source_out_edges_tidy]); [target_out_edges_tidy] (792-800) is the same
      function for bidirectional graphs that are not undirected. *)
  Definition source_out_edges_tidy (eid s : nat) (g : graph) : graph :=
    let g1 :=
      match get_vertex g s with
      | Some x => match rev (v_out x) with
                  | e :: _ => if e =? eid then upd_vertex g s (set_out (removelast (v_out x))) else g
                  | [] => g
                  end
      | None => g
      end in
    edges_tidy eid g1.

  (** adjacency_list.hpp 731-807 ([add_edge], [_add_edge]).  [a1 a2 a3] are the allocator's answers for
      the edge list, the source's out-list and the target's out-list (undirected) / in-list
      (bidirectional). *)
  Definition add_edge (dir : direction) (g : graph) (s t : nat) (d : ED) (a1 a2 a3 : alloc)
    : outcome (graph * option nat) :=
    derefO (get_vertex g s) (fun _ =>                                   (* 757 *)
    let eid := g_next g in
    match try_add (g_es g) (mkE eid (length (g_es g)) s t d) a1 with    (* 761 *)
    | (es, false) => Throw (set_es g es, None)
    | (es, true) =>
      let g1 := set_es g es in
      derefO (get_vertex g1 s) (fun sv =>                               (* 771 *)
      match try_add (v_out sv) eid a2 with                              (* 772 *)
      | (o, false) => Throw (edges_tidy eid (upd_vertex g1 s (set_out o)), None)
      | (o, true) =>
        let g2 := upd_vertex g1 s (set_out o) in
        match dir with
        | Directed => Ok (bump g2, Some eid)
        | Undirected =>
          derefO (get_vertex g2 t) (fun tv =>                           (* 783 *)
          if s =? t then Ok (bump g2, Some eid)                         (* 786 *)
          else match try_add (v_out tv) eid a3 with                     (* 787 *)
               | (o', true) => Ok (bump (upd_vertex g2 t (set_out o')), Some eid)
               | (o', false) => Throw (source_out_edges_tidy eid s (upd_vertex g2 t (set_out o')), None)
               end)
        | Bidirectional =>
          derefO (get_vertex g2 t) (fun tv =>
          match try_add (v_in tv) eid a3 with                           (* 802 *)
          | (i', true) => Ok (bump (upd_vertex g2 t (set_in i')), Some eid)
          | (i', false) => Throw (source_out_edges_tidy eid s (upd_vertex g2 t (set_in i')), None)
          end)
        end
      end)
    end).

  (** adjacency_list.hpp 906-921 *)
  Definition out_degree (g : graph) (v : nat) : option nat := option_map (fun x => length (v_out x)) (get_vertex g v).
  Definition in_degree (g : graph) (v : nat) : option nat := option_map (fun x => length (v_in x)) (get_vertex g v).
  Definition degree (g : graph) (v : nat) : option nat :=
    option_map (fun x => length (v_out x) + length (v_in x)) (get_vertex g v).

  (** adjacency_list.hpp 1168-1180 / 1189-1201: the erase loop over an incidence list; the predicate may
      itself be undefined ([None]) when it dereferences a dangling descriptor. *)
  Fixpoint remove_if (p : nat -> option bool) (l : list nat) : option (list nat) :=
    match l with
    | [] => Some []
    | x :: r =>
      match p x with
      | None => None
      | Some b => match remove_if p r with
                  | None => None
                  | Some r' => Some (if b then r' else x :: r')
                  end
      end
    end.

  (** The same loop when the predicate captured a reference to the list node holding [e] itself: after
      that node is erased every further evaluation of the predicate reads freed memory. *)
  Fixpoint remove_if_aliased (p : nat -> option bool) (e : nat) (l : list nat) : option (list nat) :=
    match l with
    | [] => Some []
    | x :: r =>
      match p x with
      | None => None
      | Some true =>
        if x =? e then match r with [] => Some [] | _ :: _ => None end
        else remove_if_aliased p e r
      | Some false => match remove_if_aliased p e r with
                      | None => None
                      | Some r' => Some (x :: r')
                      end
      end
    end.

  (** adjacency_list.hpp 1168-1180 *)
  Definition out_remove_if (g : graph) (v : nat) (p : nat -> option bool) : outcome graph :=
    derefO (get_vertex g v) (fun x =>
    derefO (remove_if p (v_out x)) (fun l => Ok (upd_vertex g v (set_out l)))).

  (** adjacency_list.hpp 1189-1201 *)
  Definition in_remove_if (g : graph) (v : nat) (p : nat -> option bool) : outcome graph :=
    derefO (get_vertex g v) (fun x =>
    derefO (remove_if p (v_in x)) (fun l => Ok (upd_vertex g v (set_in l)))).

  (** adjacency_list.hpp 986-996: identity tests; both sides are dereferenced. *)
  Definition is_same_edge (g : graph) (a b : nat) : option bool :=
    match get_edge g a, get_edge g b with
    | Some x, Some y => Some (e_id x =? e_id y)
    | _, _ => None
    end.
  Definition is_same_vertex (g : graph) (a b : nat) : option bool :=
    match get_vertex g a, get_vertex g b with
    | Some x, Some y => Some (v_id x =? v_id y)
    | _, _ => None
    end.
  Definition andO (a : option bool) (b : option bool) : option bool :=
    match a with
    | None => None
    | Some false => Some false
    | Some true => b
    end.

  (** [edges.erase(e)]: erasing a node that is not in the list is undefined *)
  Definition erase_edge (g : graph) (e : nat) : outcome graph :=
    derefO (get_edge g e) (fun _ => Ok (set_es g (filter (fun x => negb (e_id x =? e)) (g_es g)))).

  Fixpoint erase_edges (g : graph) (l : list nat) : outcome graph :=
    match l with
    | [] => Ok g
    | e :: r => bindO (erase_edge g e) (fun x => x) (fun g' => erase_edges g' r)
    end.

  (** adjacency_list.hpp 1011-1018 ([remove_vertex]); only out-edges are checked. *)
  Definition remove_vertex (g : graph) (v : nat) : outcome graph :=
    derefO (get_vertex g v) (fun x =>
    match v_out x with
    | _ :: _ => Throw g
    | [] => Ok (mkG (filter (fun y => negb (v_id y =? v)) (g_vs g)) (g_es g) (g_next g))
    end).

  (** adjacency_list.hpp 1030-1056: loop body of [clear_vertex] for one out-edge [e] of [v]. *)
  Definition clear_one (dir : direction) (g : graph) (v e : nat) : outcome graph :=
    derefO (get_edge g e) (fun ed =>
    derefO (is_same_vertex g (e_src ed) (e_tgt ed)) (fun self_loop =>           (* 1032 *)
    if self_loop then Ok g
    else
      bindO (match dir with
             | Undirected =>                                                    (* 1033-1040 *)
               derefO (is_same_vertex g (e_tgt ed) v) (fun reverse =>
               if reverse
               then out_remove_if g (e_src ed)
                      (fun x => match get_edge g x with
                                | None => None
                                | Some xe => andO (is_same_vertex g (e_tgt xe) v) (is_same_edge g x e)
                                end)
               else Ok g)
             | _ => Ok g
             end) (fun x => x) (fun g1 =>
      bindO (match dir with
             | Bidirectional =>                                                 (* 1042-1047 *)
               in_remove_if g1 (e_tgt ed)
                 (fun x => match get_edge g1 x with
                           | None => None
                           | Some xe => andO (is_same_vertex g1 (e_src xe) v) (is_same_edge g1 x e)
                           end)
             | _ => Ok g1
             end) (fun x => x) (fun g2 =>
      out_remove_if g2 (e_tgt ed)                                               (* 1049-1052 *)
        (fun x => match get_edge g2 x with
                  | None => None
                  | Some xe => andO (is_same_vertex g2 (e_src xe) v) (is_same_edge g2 x e)
                  end))))).

  (** adjacency_list.hpp 1030-1056: the loop.  The code iterates over the live list of [v]; none of the
      removals inside the loop touches that list (the removed entry would have to be a non-loop edge that
      has [v] both as source and as target), so iterating over the list read at the start is the same. *)
  Fixpoint clear_loop (dir : direction) (g : graph) (v : nat) (l : list nat) : outcome graph :=
    match l with
    | [] => Ok g
    | e :: r => bindO (clear_one dir g v e) (fun x => x) (fun g' => clear_loop dir g' v r)
    end.

  (** adjacency_list.hpp 1064-1076: remove every out-edge ending in [v] from all vertices, collecting
      the removed edges. *)
  Fixpoint clear_incoming (g : graph) (v : nat) (todo : list nat) (acc : list nat) : outcome (graph * list nat) :=
    match todo with
    | [] => Ok (g, acc)
    | w :: r =>
      derefO (get_vertex g w) (fun x =>
      let p y := match get_edge g y with
                 | None => None
                 | Some ye => is_same_vertex g (e_tgt ye) v
                 end in
      derefO (remove_if p (v_out x)) (fun l =>
      let removed := filter (fun y => match p y with Some true => true | _ => false end) (v_out x) in
      clear_incoming (upd_vertex g w (set_out l)) v r (acc ++ removed)))
    end.

  (** adjacency_list.hpp 1020-1081 ([clear_vertex]) *)
  Definition clear_vertex (dir : direction) (g : graph) (v : nat) : outcome graph :=
    derefO (get_vertex g v) (fun x =>
    bindO (clear_loop dir g v (v_out x)) (fun y => y) (fun g1 =>
    let delete1 := v_out x in
    let g2 := match dir with Bidirectional => upd_vertex g1 v (set_in []) | _ => g1 end in   (* 1058-1060 *)
    let g3 := upd_vertex g2 v (set_out []) in                                               (* 1062 *)
    match dir with
    | Undirected => erase_edges g3 delete1
    | _ => match clear_incoming g3 v (map v_id (g_vs g3)) [] with                            (* 1064-1076 *)
           | Ok (g4, delete2) => erase_edges g4 (delete1 ++ delete2)                         (* 1078-1080 *)
           | Throw _ => UB
           | UB => UB
           | Fuel => Fuel
           end
    end)).

  (** adjacency_list.hpp 1083-1126 ([remove_edge(source, target)]), the loop over the source's list [l];
      [keep] are the entries kept so far. *)
  Fixpoint remove_edge_st_loop (dir : direction) (g : graph) (s t : nat) (l keep del : list nat)
    : outcome (graph * (list nat * list nat)) :=
    match l with
    | [] => Ok (g, (keep, del))
    | e :: r =>
      derefO (get_edge g e) (fun ed =>
      derefO (andO (is_same_vertex g (e_src ed) s) (is_same_vertex g (e_tgt ed) t)) (fun hit =>
      if hit then
        bindO (match dir with
               | Bidirectional => in_remove_if g (e_tgt ed) (fun x => is_same_edge g x e)    (* 1101-1105 *)
               | _ => Ok g
               end) (fun y => (y, (keep, del))) (fun g1 =>
        bindO (match dir with
               | Undirected => if s =? t then Ok g1                                          (* 1107-1113 *)
                               else out_remove_if g1 (e_tgt ed) (fun x => is_same_edge g1 x e)
               | _ => Ok g1
               end) (fun y => (y, (keep, del))) (fun g2 =>
        remove_edge_st_loop dir g2 s t r keep (del ++ [e])))
      else remove_edge_st_loop dir g s t r (keep ++ [e]) del))
    end.

  Definition remove_edge_st (dir : direction) (g : graph) (s t : nat) : outcome graph :=
    derefO (get_vertex g s) (fun x =>
    match remove_edge_st_loop dir g s t (v_out x) [] [] with
    | Ok (g1, (keep, del)) => erase_edges (upd_vertex g1 s (set_out keep)) del
    | Throw (g1, _) => Throw g1
    | UB => UB
    | Fuel => Fuel
    end).

  (** adjacency_list.hpp 1136-1165: search of the entry of [e] in the source's list. *)
  Fixpoint find_entry (g : graph) (e : nat) (l : list nat) : option bool :=
    match l with
    | [] => Some false
    | x :: r => match is_same_edge g x e with
                | None => None
                | Some true => Some true
                | Some false => find_entry g e r
                end
    end.

  Fixpoint erase_first (e : nat) (l : list nat) : list nat :=
    match l with
    | [] => []
    | x :: r => if x =? e then r else x :: erase_first e r
    end.

  (** adjacency_list.hpp 1128-1166 ([remove_edge(edge)]).  [aliased] tells whether the reference
      parameter [edge_desc] refers to the entry stored in the target's own in-list (bidirectional) or
      out-list (undirected), as it does when a caller passes an element of such a list by reference. *)
  Definition remove_edge (dir : direction) (aliased : bool) (g : graph) (e : nat) : outcome graph :=
    derefO (get_edge g e) (fun ed =>
    derefO (get_vertex g (e_src ed)) (fun sv =>
    derefO (find_entry g e (v_out sv)) (fun found =>
    if found then
      let rem := if aliased then fun p => remove_if_aliased p e else remove_if in
      bindO (match dir with
             | Bidirectional =>                                                       (* 1142-1146 *)
               derefO (get_vertex g (e_tgt ed)) (fun tv =>
               derefO (rem (fun x => is_same_edge g x e) (v_in tv)) (fun l =>
               Ok (upd_vertex g (e_tgt ed) (set_in l))))
             | _ => Ok g
             end) (fun y => y) (fun g1 =>
      bindO (match dir with
             | Undirected =>                                                          (* 1148-1155 *)
               derefO (is_same_vertex g1 (e_src ed) (e_tgt ed)) (fun same =>
               if same then Ok g1
               else derefO (get_vertex g1 (e_tgt ed)) (fun tv =>
                    derefO (rem (fun x => match get_edge g1 x with
                                          | None => None
                                          | Some xe => andO (is_same_vertex g1 (e_tgt ed) (e_tgt xe))
                                                            (is_same_edge g1 x e)
                                          end) (v_out tv)) (fun l =>
                    Ok (upd_vertex g1 (e_tgt ed) (set_out l)))))
             | _ => Ok g1
             end) (fun y => y) (fun g2 =>
      bindO (erase_edge g2 e) (fun y => y) (fun g3 =>                                 (* 1157 *)
      derefO (get_vertex g3 (e_src ed)) (fun sv' =>
      Ok (upd_vertex g3 (e_src ed) (set_out (erase_first e (v_out sv'))))))))         (* 1159 *)
    else Ok g))).

  (** adjacency_list.hpp 967-984 ([reindex]) *)
  Fixpoint reindex_vs (i : nat) (l : list vertex) : list vertex :=
    match l with
    | [] => []
    | x :: r => mkV (v_id x) i (v_data x) (v_out x) (v_in x) :: reindex_vs (S i) r
    end.
  Fixpoint reindex_es (i : nat) (l : list edge) : list edge :=
    match l with
    | [] => []
    | x :: r => mkE (e_id x) i (e_src x) (e_tgt x) (e_data x) :: reindex_es (S i) r
    end.
  Definition reindex (g : graph) : graph :=
    mkG (reindex_vs 0 (g_vs g)) (reindex_es 0 (g_es g)) (g_next g).

  (** adjacency_list.hpp 642-701 ([copy_from]) into an empty graph, allocation succeeding; assertions are
      compiled out.  [vmap] is the vertex map (initially default descriptors, modelled as [None]). *)
  Fixpoint copy_vertices (g : graph) (vs : list vertex) (vmap : list (option nat))
    : outcome (graph * list (option nat)) :=
    match vs with
    | [] => Ok (g, vmap)
    | x :: r =>
      match add_vertex g (v_data x) Good with
      | Ok (g', Some v) =>
        match get_vertex g' v with
        | Some xv =>
          if v_index xv <? length vmap                                          (* 665 *)
          then copy_vertices g' r (firstn (v_index xv) vmap ++ Some v :: skipn (S (v_index xv)) vmap)
          else UB
        | None => UB
        end
      | _ => UB
      end
    end.

  Fixpoint copy_edges (dir : direction) (other g : graph) (es : list edge) (vmap : list (option nat)) : outcome graph :=
    match es with
    | [] => Ok g
    | x :: r =>
      derefO (get_vertex other (e_src x)) (fun sv =>
      derefO (get_vertex other (e_tgt x)) (fun tv =>
      match nth_error vmap (v_index sv), nth_error vmap (v_index tv) with       (* 680-682 *)
      | Some (Some s), Some (Some t) =>
        match add_edge dir g s t (e_data x) Good Good Good with
        | Ok (g', _) => copy_edges dir other g' r vmap
        | _ => UB
        end
      | _, _ => UB
      end))
    end.

  Definition copy_from (dir : direction) (other : graph) : outcome graph :=
    bindO (copy_vertices empty_graph (g_vs other) (repeat None (length (g_vs other)))) fst (fun '(g, vmap) =>
    copy_edges dir other g (g_es other) vmap).

  (** A history of public calls on one graph. *)
  Inductive op :=
  | AddVertex (d : VD) (a : alloc)
  | AddEdge (s t : nat) (d : ED) (a1 a2 a3 : alloc)
  | RemoveEdge (e : nat)
  | RemoveEdgeST (s t : nat)
  | ClearVertex (v : nat)
  | RemoveVertex (v : nat)
  | Reindex.

  Definition step (dir : direction) (g : graph) (o : op) : outcome graph :=
    match o with
    | AddVertex d a => match add_vertex g d a with
                       | Ok (g', _) => Ok g' | Throw (g', _) => Throw g' | UB => UB | Fuel => Fuel end
    | AddEdge s t d a1 a2 a3 => match add_edge dir g s t d a1 a2 a3 with
                                | Ok (g', _) => Ok g' | Throw (g', _) => Throw g' | UB => UB | Fuel => Fuel end
    | RemoveEdge e => remove_edge dir false g e
    | RemoveEdgeST s t => remove_edge_st dir g s t
    | ClearVertex v => clear_vertex dir g v
    | RemoveVertex v => remove_vertex g v
    | Reindex => Ok (reindex g)
    end.

  (** Run a history; exceptions are caught by the caller, who goes on with the state left behind.
      [None]: undefined behaviour. *)
  Fixpoint run (dir : direction) (g : graph) (os : list op) : option graph :=
    match os with
    | [] => Some g
    | o :: r => match step dir g o with
                | Ok g' | Throw g' => run dir g' r
                | _ => None
                end
    end.
End AdjList.
Arguments vertex : clear implicits.
Arguments edge : clear implicits.
Arguments graph : clear implicits.
Arguments op : clear implicits.
