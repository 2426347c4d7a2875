(** Model of the network clean-up passes
    /repo/src/library/include/geometry/network/network_import.hpp (with geometry/network/edge.hpp 72-79,
    geometry/algorithm/reverse.hpp 23-54, io/helper/graph_helper.hpp 162-184 and app/prepare.hpp 109-146).

    The graph is the bidirectional list graph of AdjList.v with nodes and roads as data (types/graph/
    adjacency_list.hpp 41-52); the import lines are plain [rich_line]s without cached attributes, so a
    road is an id and a list of points.  Points are compared by [eqp] (geometry/algorithm/equals.hpp 31-45,
    exact comparison of the coordinates). *)
From Coq Require Import String.
From Verif Require Import Base AdjList Traverse Tags RichLine.

(** geometry/network/node.hpp 36-37, geometry/network/edge.hpp 34-35 *)
Record node (P : Type) := mkNode { n_id : nat; n_point : P }.
Record road (P : Type) := mkRoad { r_id : nat; r_line : list P }.
Arguments mkNode {P}. Arguments n_id {P}. Arguments n_point {P}.
Arguments mkRoad {P}. Arguments r_id {P}. Arguments r_line {P}.

Section NetImport.
  Context {P Str : Type}.
  Variable eqp : P -> P -> bool.
  Notation graph := (graph (node P) (road P)).
  Notation edge := (@edge (road P)).

  (** Memory during one merge: all allocations succeed, the reservation of the joined line fails, or the
      insertion of the joined edge fails. *)
  Inductive answer := Fine | NoLine | NoEdge.

  (** network_import.hpp 268-270 and the network's graph and tags; [i_mem] are the allocator's answers for
      the merges to come ([[]]: no failures any more). *)
  Record import := mkImp {
    i_graph : graph; i_tags : tags_state Str;
    i_running : bool; i_set : bool; i_vertex : nat;
    i_mem : list answer }.

  Definition set_graph (g : graph) (s : import) : import :=
    mkImp g (i_tags s) (i_running s) (i_set s) (i_vertex s) (i_mem s).
  Definition set_tags (t : tags_state Str) (s : import) : import :=
    mkImp (i_graph s) t (i_running s) (i_set s) (i_vertex s) (i_mem s).
  Definition set_mem (m : list answer) (s : import) : import :=
    mkImp (i_graph s) (i_tags s) (i_running s) (i_set s) (i_vertex s) m.
  Definition mark (r b : bool) (v : nat) (s : import) : import :=
    mkImp (i_graph s) (i_tags s) r b v (i_mem s).

  (** reverse.hpp 44-49: the loop; [k] iterations are left, [i] runs up, [j] down.  (The last decrement of
      [j] wraps around in the code; the value is not used.) *)
  Fixpoint reversed_loop (a b : list P) (k i j : nat) : outcome bool :=
    match k with
    | O => Ok true
    | S k' =>
      derefO (nth_error a i) (fun p =>
      derefO (nth_error b j) (fun q =>
      if eqp p q then reversed_loop a b k' (S i) (j - 1) else Ok false))
    end.
  (** reverse.hpp 23-54 *)
  Definition lines_are_reversed (a b : list P) : outcome bool :=
    match a, b with
    | [], _ | _, [] => Ok false
    | pa :: _, pb :: _ =>
      if negb (length a =? length b) then Ok false
      else if negb (eqp pa (last b pb) && eqp (last a pa) pb) then Ok false
      else reversed_loop a b (length a - 1) 1 (length b - 2)
    end.

  (** network_import.hpp 327-364: the loop over the out-edges for the in-edge [i] *)
  Fixpoint match_outs (g : graph) (i : nat) (outs : list nat) (adj : list (nat * nat)) : outcome (list (nat * nat)) :=
    match outs with
    | [] => Ok adj
    | o :: r =>
      if o =? i then match_outs g i r adj                                             (* 331-334 *)
      else
        derefO (get_edge g i) (fun ei =>
        derefO (get_edge g o) (fun eo =>
        if (e_tgt ei =? e_src eo) && (e_src ei =? e_tgt eo) then                       (* 341 *)
          if existsb (fun p => snd p =? o) adj then match_outs g i r adj               (* 346-350 *)
          else bindO (lines_are_reversed (r_line (e_data ei)) (r_line (e_data eo))) (fun _ => adj) (fun b =>
               match_outs g i r (if b then adj ++ [(i, o)] else adj))                  (* 352-356 *)
        else match_outs g i r adj))
    end.
  (** network_import.hpp 323-372: the loop over the in-edges; [None]: left by [return false] *)
  Fixpoint match_ins (g : graph) (ins outs : list nat) (adj : list (nat * nat)) : outcome (option (list (nat * nat))) :=
    match ins with
    | [] => Ok (Some adj)
    | i :: r =>
      bindO (match_outs g i outs adj) (fun a => Some a) (fun adj' =>
      if existsb (fun p => fst p =? i) adj' then match_ins g r outs adj' else Ok None) (* 366-374 *)
    end.

  (** network_import.hpp 299-388: [_is_mergeable] *)
  Definition is_mergeable (g : graph) (v : nat) : outcome bool :=
    derefO (get_vertex g v) (fun x =>
    let outd := length (v_out x) in
    let ind := length (v_in x) in
    if (ind =? 1) && (outd =? 1) then Ok true                                          (* 309-312 *)
    else if negb (((outd + ind =? 2) || (outd + ind =? 4)) && (ind =? outd)) then Ok false   (* 314-318 *)
    else
      bindO (match_ins g (v_in x) (v_out x) []) (fun _ => false) (fun m =>
      match m with
      | None => Ok false
      | Some adj =>
        if forallb (fun o => existsb (fun p => snd p =? o) adj) (v_out x)              (* 377-389 *)
        then Ok (2 * length adj =? outd + ind)
        else Ok false
      end)).

  (** network_import.hpp 402-440: the inner loop of [_populate_merges]; the pairs already chosen are
      [acc]. *)
  Fixpoint merges_outs (g : graph) (t : tags_state Str) (complete : bool) (i : nat) (outs : list nat) (acc : list (nat * nat))
    : outcome (list (nat * nat)) :=
    match outs with
    | [] => Ok acc
    | o :: r =>
      if o =? i then merges_outs g t complete i r acc
      else
        derefO (get_edge g i) (fun ei =>
        derefO (get_edge g o) (fun eo =>
        if (e_tgt ei =? e_src eo) && negb (e_src ei =? e_tgt eo) then
          let ia := r_id (e_data ei) in
          let io := r_id (e_data eo) in
          if complete || ((ia =? io) && (if list_eq_dec Nat.eq_dec (edge_tags t ia) (edge_tags t io) then true else false)) then
            if existsb (fun p => (fst p =? i) || (snd p =? o)) acc then merges_outs g t complete i r acc
            else merges_outs g t complete i r (acc ++ [(i, o)])
          else merges_outs g t complete i r acc
        else merges_outs g t complete i r acc))
    end.
  Fixpoint merges_ins (g : graph) (t : tags_state Str) (complete : bool) (ins outs : list nat) (acc : list (nat * nat))
    : outcome (list (nat * nat)) :=
    match ins with
    | [] => Ok acc
    | i :: r => bindO (merges_outs g t complete i outs acc) (fun a => a) (merges_ins g t complete r outs)
    end.
  (** network_import.hpp 390-441: [_populate_merges], called with an empty list *)
  Definition populate_merges (g : graph) (t : tags_state Str) (complete : bool) (v : nat) : outcome (list (nat * nat)) :=
    derefO (get_vertex g v) (fun x => merges_ins g t complete (v_in x) (v_out x) []).

  (** edge.hpp 72-79: [edge::merge].  [Throw]: the lines do not meet (nothing has been changed then). *)
  Definition merge_road (a b : road P) : outcome (road P) :=
    match r_line b, r_line a with
    | [], _ => Ok a
    | _ :: _, [] => Ok b
    | _, _ => bindO (plain_merge eqp (r_line a) [r_line b]) (mkRoad (r_id a)) (fun l => Ok (mkRoad (r_id a) l))
    end.

  Definition next_answer (s : import) : answer * import :=
    match i_mem s with [] => (Fine, s) | a :: r => (a, set_mem r s) end.

  (** network_import.hpp 272-297: [_merge].  The pair comes from a vector of descriptors, it does not
      alias an incidence list. *)
  Definition merge (s : import) (i o : nat) : outcome import :=
    derefO (get_edge (i_graph s) i) (fun ei =>
    derefO (get_edge (i_graph s) o) (fun eo =>
    let s1 := set_tags (merge_edge_tags (r_id (e_data ei)) (r_id (e_data eo)) (i_tags s)) s in
    let (a, s2) := next_answer s1 in
    match a with
    | NoLine => Throw s2
    | _ =>
      bindO (merge_road (e_data ei) (e_data eo)) (fun _ => s2) (fun new =>
      bindO (remove_edge Bidirectional false (i_graph s2) i) (fun g => set_graph g s2) (fun g1 =>
      bindO (remove_edge Bidirectional false g1 o) (fun g => set_graph g s2) (fun g2 =>
      bindO (add_edge Bidirectional g2 (e_src ei) (e_tgt eo) new (match a with NoEdge => Bad 0 | _ => Good end) Good Good)
            (fun p => set_graph (fst p) s2) (fun p =>
      let g3 := fst p in
      derefO (degree g3 (e_tgt ei)) (fun d =>
      if d =? 0 then bindO (remove_vertex g3 (e_tgt ei)) (fun g => set_graph g s2) (fun g4 => Ok (set_graph g4 s2))
      else Ok (set_graph g3 s2))))))
    end)).

  Fixpoint merge_all (s : import) (l : list (nat * nat)) : outcome import :=
    match l with
    | [] => Ok s
    | (i, o) :: r => bindO (merge s i o) (fun x => x) (fun s' => merge_all s' r)
    end.

  (** network_import.hpp 80-109: the loop over the vertices.  Merging at a vertex removes at most this
      vertex, whose successor has been read before, so the loop runs over the vertices present at the
      start.  [was] is the local [was_running]. *)
  Fixpoint simplify_loop (complete was : bool) (vs : list nat) (s : import) : outcome import :=
    match vs with
    | [] => Ok s
    | v :: r =>
      derefO (get_vertex (i_graph s) v) (fun x =>
      if was && i_set s && negb (v_index x =? i_vertex s) then simplify_loop complete was r s          (* 84-89 *)
      else
        let was' := if was && i_set s then false else was in                                            (* 90-93 *)
        bindO (is_mergeable (i_graph s) v) (fun _ => s) (fun b =>
        if b then
          bindO (populate_merges (i_graph s) (i_tags s) complete v) (fun _ => s) (fun ms =>
          match ms with
          | [] => simplify_loop complete was' r s
          | _ :: _ => bindO (merge_all (mark (i_running s) true (v_index x) s) ms) (fun y => y)         (* 100-107 *)
                            (simplify_loop complete was' r)
          end)
        else simplify_loop complete was' r s))
    end.
  (** network_import.hpp 68-115: [simplify] *)
  Definition simplify (complete : bool) (s : import) : outcome import :=
    bindO (simplify_loop complete (i_running s) (map v_id (g_vs (i_graph s))) (mark true (i_set s) (i_vertex s) s))
          (fun x => x) (fun s' =>
    Ok (mark false false (i_vertex s') (set_graph (reindex (i_graph s')) s'))).

  (** graph_helper.hpp 162-184: memory mapped networks run the pass once more after a failed allocation
      (the file is enlarged in between, which is not modelled). *)
  Definition helper_simplify (mmap complete : bool) (s : import) : outcome import :=
    match simplify complete s with
    | Throw s' => if mmap then simplify complete s' else Throw s'
    | x => x
    end.

  (** network_import.hpp 117-133: the pieces found by searches from all vertices not visited before.
      Vertices are marked visited by index; the model marks identities, which is the same while indices
      are distinct. *)
  Fixpoint pieces_loop (g : graph) (vs visited : list nat) (acc : list (list nat)) : outcome (list (list nat)) :=
    match vs with
    | [] => Ok acc
    | v :: r =>
      if mem v visited then pieces_loop g r visited acc
      else bindO (bfs (adj_targets g) (fun _ _ => false) (S (length (g_vs g))) visited v) (fun _ => acc) (fun t =>
           pieces_loop g r (visited ++ t_disc t) (acc ++ [t_disc t]))
    end.
  (** [std::max_element] with [operator<] on the sizes: the first of the largest *)
  Fixpoint largest (i best size : nat) (l : list (list nat)) : nat :=
    match l with
    | [] => best
    | c :: r => if size <? length c then largest (S i) i (length c) r else largest (S i) best size r
    end.
  Fixpoint drop_vertices (g : graph) (vs : list nat) : outcome graph :=
    match vs with
    | [] => Ok g
    | v :: r => bindO (clear_vertex Bidirectional g v) (fun x => x) (fun g1 =>
                bindO (remove_vertex g1 v) (fun x => x) (fun g2 => drop_vertices g2 r))
    end.
  (** network_import.hpp 143-151: all pieces but the one at position [k] *)
  Fixpoint drop_pieces (g : graph) (k i : nat) (l : list (list nat)) : outcome graph :=
    match l with
    | [] => Ok g
    | c :: r => if i =? k then drop_pieces g k (S i) r
                else bindO (drop_vertices g c) (fun x => x) (fun g' => drop_pieces g' k (S i) r)
    end.
  (** network_import.hpp 117-154 *)
  Definition remove_unconnected (g : graph) : outcome graph :=
    bindO (pieces_loop g (map v_id (g_vs g)) [] []) (fun _ => g) (fun ps =>
    match ps with
    | [] => UB                                                                          (* 140: *end() *)
    | c :: r => bindO (drop_pieces g (largest 1 0 (length c) r) 0 ps) (fun x => x) (fun g' => Ok (reindex g'))
    end).

  (** network_import.hpp 181-194: the in-edges of the duplicate [v] are moved to [u].  The descriptor
      passed to [remove_edge] refers to the entry of the in-list of [v] itself; [freed] says whether
      reading that entry after it was released is undefined behaviour (the C++ standard: yes) or still
      yields the old value. *)
  Fixpoint move_ins (freed : bool) (g : graph) (u : nat) (ins : list nat) : outcome graph :=
    match ins with
    | [] => Ok g
    | i :: r =>
      derefO (get_edge g i) (fun e =>
      bindO (add_edge Bidirectional g (e_src e) u (e_data e) Good Good Good) fst (fun p =>
      bindO (remove_edge Bidirectional freed (fst p) i) (fun x => x) (fun g' => move_ins freed g' u r)))
    end.
  (** network_import.hpp 196-210: the out-edges *)
  Fixpoint move_outs (g : graph) (u : nat) (outs : list nat) : outcome graph :=
    match outs with
    | [] => Ok g
    | o :: r =>
      derefO (get_edge g o) (fun e =>
      bindO (add_edge Bidirectional g u (e_tgt e) (e_data e) Good Good Good) fst (fun p =>
      bindO (remove_edge Bidirectional false (fst p) o) (fun x => x) (fun g' => move_outs g' u r)))
    end.
  (** the in-list of [v] only shrinks while it is walked (the new edges end in [u <> v]); the out-list is
      read after the in-edges have been moved *)
  Definition move_edges (freed : bool) (g : graph) (v u : nat) : outcome graph :=
    derefO (get_vertex g v) (fun x =>
    bindO (move_ins freed g u (v_in x)) (fun y => y) (fun g1 =>
    derefO (get_vertex g1 v) (fun x1 => move_outs g1 u (v_out x1)))).

  (** [node_map] (network_import.hpp 160): position to node *)
  Definition lookup (m : list (P * nat)) (p : P) : option nat := option_map snd (find (fun x => eqp (fst x) p) m).
  Definition forget (m : list (P * nat)) (p : P) : list (P * nat) := filter (fun x => negb (eqp (fst x) p)) m.

  (** network_import.hpp 168-235: the loop over the vertices; as in [simplify_loop] it runs over the
      vertices present at the start (removed are the current vertex and vertices before it). *)
  Fixpoint dup_nodes_loop (freed simp complete : bool) (vs : list nat) (m : list (P * nat)) (s : import) : outcome import :=
    match vs with
    | [] => Ok s
    | v :: r =>
      derefO (get_vertex (i_graph s) v) (fun x =>
      let p := n_point (v_data x) in
      match lookup m p with
      | None => dup_nodes_loop freed simp complete r ((p, v) :: m) s                      (* 233 *)
      | Some u =>
        bindO (move_edges freed (i_graph s) v u) (fun g => set_graph g s) (fun g1 =>
        bindO (remove_vertex g1 v) (fun g => set_graph g s) (fun g2 =>                    (* 213 *)
        let s2 := set_graph g2 s in
        if simp then
          bindO (is_mergeable g2 u) (fun _ => s2) (fun b =>
          if b then
            bindO (populate_merges g2 (i_tags s2) complete u) (fun _ => s2) (fun ms =>
            bindO (merge_all s2 ms) (fun y => y) (dup_nodes_loop freed simp complete r (forget m p)))   (* 219-229 *)
          else dup_nodes_loop freed simp complete r m s2)
        else dup_nodes_loop freed simp complete r m s2))
      end)
    end.
  (** network_import.hpp 156-238 *)
  Definition remove_duplicate_nodes (freed simp complete : bool) (s : import) : outcome import :=
    bindO (dup_nodes_loop freed simp complete (map v_id (g_vs (i_graph s))) [] s) (fun x => x) (fun s' =>
    Ok (set_graph (reindex (i_graph s')) s')).

  (** edge.hpp 148-151 and rich_line.hpp 516-530: equality of edge data *)
  Fixpoint eq_lines (a b : list P) : bool :=
    match a, b with
    | [], [] => true
    | x :: a', y :: b' => eqp x y && eq_lines a' b'
    | _, _ => false
    end.
  Definition eq_road (a b : road P) : bool := (r_id a =? r_id b) && eq_lines (r_line a) (r_line b).

  (** network_import.hpp 250-261: the loop over the edges.  [seen] are the roads referred to by
      [edge_set].  For a repeated road the reference read by [edge_set.emplace] (260) refers to the edge
      just removed. *)
  Fixpoint dup_edges_loop (freed : bool) (g : graph) (es : list nat) (seen : list (road P)) (re : bool) : outcome (graph * bool) :=
    match es with
    | [] => Ok (g, re)
    | e :: r =>
      derefO (get_edge g e) (fun x =>
      if existsb (fun d => eq_road d (e_data x)) seen then
        bindO (remove_edge Bidirectional false g e) (fun y => (y, re)) (fun g1 =>
        if freed then UB else dup_edges_loop freed g1 r seen true)
      else dup_edges_loop freed g r (e_data x :: seen) re)
    end.
  (** network_import.hpp 240-266 *)
  Definition remove_duplicate_edges (freed : bool) (g : graph) : outcome graph :=
    bindO (dup_edges_loop freed g (map e_id (g_es g)) [] false) fst (fun p =>
    Ok (if snd p then reindex (fst p) else fst p)).

  (** app/prepare.hpp 219-225: the passes in their order, as far as selected *)
  Record passes := mkPasses { p_simplify : option bool; p_unconnected : bool; p_nodes : bool; p_edges : bool }.
  Definition clean_up (freed mmap : bool) (o : passes) (s : import) : outcome import :=
    bindO (match p_simplify o with Some c => helper_simplify mmap c s | None => Ok s end) (fun x => x) (fun s1 =>
    bindO (if p_unconnected o then remove_unconnected (i_graph s1) else Ok (i_graph s1)) (fun g => set_graph g s1) (fun g2 =>
    let s2 := set_graph g2 s1 in
    bindO (if p_nodes o
           then remove_duplicate_nodes freed (match p_simplify o with Some _ => true | None => false end)
                  (match p_simplify o with Some c => c | None => false end) s2
           else Ok s2) (fun x => x) (fun s3 =>
    if p_edges o then bindO (remove_duplicate_edges freed (i_graph s3)) (fun g => set_graph g s3) (fun g4 => Ok (set_graph g4 s3))
    else Ok s3))).
End NetImport.
Arguments import : clear implicits.
