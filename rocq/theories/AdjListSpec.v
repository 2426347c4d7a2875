(** Specification vocabulary for the graph container: what the incidence lists of a graph with a given
    edge list must be.  Independent of how the operations work. *)
From Verif Require Import Base AdjList.

Section Spec.
  Context {VD ED : Type}.
  Notation graph := (graph VD ED).
  Notation vertex := (@vertex VD).
  Notation edge := (@edge ED).

  (** the out-edges of [v]: edges leaving [v]; in an undirected graph all edges touching [v] *)
  Definition leaves (dir : direction) (v : nat) (e : edge) : bool :=
    (e_src e =? v) || (match dir with Undirected => e_tgt e =? v | _ => false end).

  Definition out_spec (dir : direction) (es : list edge) (v : nat) : list nat :=
    map e_id (filter (leaves dir v) es).

  (** the in-edges of [v], recorded by bidirectional graphs only *)
  Definition in_spec (dir : direction) (es : list edge) (v : nat) : list nat :=
    match dir with
    | Bidirectional => map e_id (filter (fun e => e_tgt e =? v) es)
    | _ => []
    end.

  Definition vertex_ids (g : graph) : list nat := map v_id (g_vs g).
  Definition edge_ids (g : graph) : list nat := map e_id (g_es g).

  (** [exact dir g]: identities are unique and already issued, every edge's endpoints exist, and every
      vertex lists exactly its out-edges (and in-edges), in the order of the edge list. *)
  Record exact (dir : direction) (g : graph) : Prop := {
    ex_vid : NoDup (vertex_ids g);
    ex_eid : NoDup (edge_ids g);
    ex_vlt : forall x, In x (g_vs g) -> v_id x < g_next g;
    ex_elt : forall e, In e (g_es g) -> e_id e < g_next g;
    ex_end : forall e, In e (g_es g) -> In (e_src e) (vertex_ids g) /\ In (e_tgt e) (vertex_ids g);
    ex_out : forall x, In x (g_vs g) -> v_out x = out_spec dir (g_es g) (v_id x);
    ex_in : forall x, In x (g_vs g) -> v_in x = in_spec dir (g_es g) (v_id x)
  }.

  (** what a caller sees of a graph besides the incidence lists: vertices with data, edges with
      endpoints and data, in order *)
  Definition seen_vertices (g : graph) : list (nat * VD) := map (fun x => (v_id x, v_data x)) (g_vs g).
  Definition seen_edges (g : graph) : list (nat * (nat * nat) * ED) :=
    map (fun e => (e_id e, (e_src e, e_tgt e), e_data e)) (g_es g).

  (** an isolated vertex: no edge starts or ends in it *)
  Definition isolated (g : graph) (v : nat) : Prop :=
    forall e, In e (g_es g) -> e_src e <> v /\ e_tgt e <> v.

  (** Legal use of the interface: descriptors passed in denote live objects; [remove_vertex] must not be
      used, in a directed or bidirectional graph, on a vertex that has incoming but no outgoing edges
      (everywhere else it either throws or finds an isolated vertex). *)
  Definition legal (dir : direction) (g : graph) (o : op VD ED) : Prop :=
    match o with
    | AddVertex _ _ | Reindex => True
    | AddEdge s t _ _ _ _ => In s (vertex_ids g) /\ In t (vertex_ids g)
    | RemoveEdge e => In e (edge_ids g)
    | RemoveEdgeST s t => In s (vertex_ids g) /\ In t (vertex_ids g)
    | ClearVertex v => In v (vertex_ids g)
    | RemoveVertex v => In v (vertex_ids g) /\
                        (dir = Undirected \/ (exists e, In e (g_es g) /\ e_src e = v) \/ isolated g v)
    end.

  (** a history in which every call is legal in the state it is made in *)
  Fixpoint legal_history (dir : direction) (g : graph) (os : list (op VD ED)) : Prop :=
    match os with
    | [] => True
    | o :: r => legal dir g o /\
                match step dir g o with
                | Ok g' | Throw g' => legal_history dir g' r
                | _ => True
                end
    end.

  (** Abstract graph: vertices and edges only.  The effect of each operation on it. *)
  Definition is_edge_id (e : nat) (x : nat * (nat * nat) * ED) : bool := fst (fst x) =? e.
  Definition touches (v : nat) (x : nat * (nat * nat) * ED) : bool :=
    (fst (snd (fst x)) =? v) || (snd (snd (fst x)) =? v).
  Definition connects (s t : nat) (x : nat * (nat * nat) * ED) : bool :=
    (fst (snd (fst x)) =? s) && (snd (snd (fst x)) =? t).

  (** whether all allocations made by the call succeed (an undirected self loop and a directed edge need
      only two) *)
  Definition good (a : alloc) : bool := match a with Good => true | Bad _ => false end.
  Definition add_edge_succeeds (dir : direction) (s t : nat) (a1 a2 a3 : alloc) : bool :=
    good a1 && good a2 &&
    match dir with
    | Directed => true
    | Undirected => (s =? t) || good a3
    | Bidirectional => good a3
    end.

  (** position of a vertex in the vertex list *)
  Fixpoint position_in (vs : list vertex) (v : nat) : option nat :=
    match vs with
    | [] => None
    | x :: r => if v_id x =? v then Some 0 else option_map S (position_in r v)
    end.
  Definition position (g : graph) (v : nat) : option nat := position_in (g_vs g) v.

  (** two graphs of the same shape: vertex data agree position by position, edges agree one by one in
      data and in the positions of their endpoints *)
  Definition same_shape (g h : graph) : Prop :=
    map v_data (g_vs g) = map v_data (g_vs h) /\
    Forall2 (fun e f => e_data e = e_data f /\
                        (exists i, position g (e_src e) = Some i /\ position h (e_src f) = Some i) /\
                        (exists i, position g (e_tgt e) = Some i /\ position h (e_tgt f) = Some i))
            (g_es g) (g_es h).

  (** stored vertex indices agree with positions, as after [reindex] *)
  Definition indexed (g : graph) : Prop := map v_index (g_vs g) = seq 0 (length (g_vs g)).

  Definition abs := (list (nat * VD) * list (nat * (nat * nat) * ED) * nat)%type.
  Definition abs_of (g : graph) : abs := (seen_vertices g, seen_edges g, g_next g).
  Definition abs_step (dir : direction) (a : abs) (o : op VD ED) : abs :=
    let '(vs, es, n) := a in
    match o with
    | AddVertex d al => if good al then (vs ++ [(n, d)], es, S n) else a
    | AddEdge s t d a1 a2 a3 =>
      if add_edge_succeeds dir s t a1 a2 a3 then (vs, es ++ [(n, (s, t), d)], S n) else a
    | RemoveEdge e => (vs, filter (fun x => negb (is_edge_id e x)) es, n)
    | RemoveEdgeST s t => (vs, filter (fun x => negb (connects s t x)) es, n)
    | ClearVertex v => (vs, filter (fun x => negb (touches v x)) es, n)
    | RemoveVertex v => if existsb (touches v) es then a else (filter (fun x => negb (fst x =? v)) vs, es, n)
    | Reindex => a
    end.
End Spec.
