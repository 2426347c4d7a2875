(** Properties C01, C02, C03, C04, C06 of the graph container. *)
From Verif Require Import Base ListAux AdjList AdjListSpec AdjListProofs AdjListProofs2 AdjListProofs3.

Section Props.
  Context {VD ED : Type}.
  Notation graph := (graph VD ED).
  Implicit Types (g : graph) (dir : direction).

  (** C01: after any history of legal calls (each allocation in it may fail), starting from an empty
      graph, no undefined behaviour occurred, the incidence lists are exactly the ones prescribed by the
      edge list, and vertices and edges are those of the abstract specification. *)
  Theorem C01_incidence_exact dir (os : list (op VD ED)) :
    legal_history dir empty_graph os ->
    exists g, run dir empty_graph os = Some g /\ exact dir g /\
              abs_of g = fold_left (abs_step dir) os ([], [], 0).
  Proof. intros L. exact (run_refines dir os empty_graph (exact_empty dir) L). Qed.

  (** the same from any graph whose lists are exact *)
  Theorem C01_incidence_exact_from dir g (os : list (op VD ED)) :
    exact dir g -> legal_history dir g os ->
    exists g', run dir g os = Some g' /\ exact dir g' /\ abs_of g' = fold_left (abs_step dir) os (abs_of g).
  Proof. intros H L. exact (run_refines dir os g H L). Qed.

  (** C02: if any allocation an edge insertion makes fails, the exception leaves the graph exactly as it
      was; otherwise the edge is there and the lists are exact. *)
  Theorem C02_add_edge_failure_unchanged dir g s t (d : ED) a1 a2 a3 :
    exact dir g -> In s (vertex_ids g) -> In t (vertex_ids g) ->
    add_edge_succeeds dir s t a1 a2 a3 = false ->
    add_edge dir g s t d a1 a2 a3 = Throw (g, None).
  Proof. intros H Hs Ht E. rewrite (add_edge_effect dir g s t d a1 a2 a3 H Hs Ht), E. reflexivity. Qed.

  Theorem C02_add_edge_success dir g s t (d : ED) a1 a2 a3 :
    exact dir g -> In s (vertex_ids g) -> In t (vertex_ids g) ->
    add_edge_succeeds dir s t a1 a2 a3 = true ->
    exists g' e, add_edge dir g s t d a1 a2 a3 = Ok (g', Some e) /\ exact dir g' /\
      ~ In e (edge_ids g) /\ seen_edges g' = seen_edges g ++ [(e, (s, t), d)] /\ seen_vertices g' = seen_vertices g.
  Proof.
    intros H Hs Ht E. pose proof (add_edge_exact dir g s t d H Hs Ht) as X.
    rewrite (add_edge_effect dir g s t d a1 a2 a3 H Hs Ht), E.
    eexists; exists (g_next g). split; [reflexivity|]. split; [exact X|].
    split; [|split; [rewrite seen_edges_canon, map_app; reflexivity|apply seen_vertices_canon]].
    intros Hin. apply in_map_iff in Hin as (e & Ee & He). pose proof (ex_elt _ _ H e He). lia.
  Qed.

  Theorem C02_add_vertex_failure_unchanged g (d : VD) k : add_vertex g d (Bad k) = Throw (g, None).
  Proof. exact (add_vertex_bad g d k). Qed.

  (** C03: removing an edge removes that edge and nothing else, in every list. *)
  Theorem C03_remove_edge_exact dir g e :
    exact dir g -> In e (edge_ids g) ->
    exists g', remove_edge dir false g e = Ok g' /\ exact dir g' /\
      seen_vertices g' = seen_vertices g /\
      seen_edges g' = filter (fun x => negb (is_edge_id e x)) (seen_edges g) /\
      (forall v x, get_vertex g v = Some x ->
         exists x', get_vertex g' v = Some x' /\
           v_out x' = filter (fun y => negb (y =? e)) (v_out x) /\ v_in x' = filter (fun y => negb (y =? e)) (v_in x)).
  Proof.
    intros H He. rewrite (remove_edge_effect dir g e H He). eexists; split; [reflexivity|].
    split; [apply exact_filter; exact H|].
    set (es := filter (fun x => negb (e_id x =? e)) (g_es g)).
    split; [apply seen_vertices_canon|]. split; [rewrite seen_edges_canon; apply map_filter_seen; reflexivity|].
    intros v x Hx. exists (canon1 dir es x).
    assert (Hsk : skel (VD:=VD) (canon1 dir es)) by (intros y; cbn; auto).
    split.
    - pose proof (get_vertex_mapv g (canon1 dir es) v Hsk) as M. rewrite Hx in M. exact M.
    - apply get_vertex_in in Hx as [Hx _]. cbn.
      rewrite (ex_out _ _ H x Hx), (ex_in _ _ H x Hx). split; symmetry.
      + apply out_spec_filter. reflexivity.
      + apply in_spec_filter. reflexivity.
  Qed.

  (** removal by endpoints removes exactly the parallel edges from [s] to [t] *)
  Theorem C03_remove_edges_between_exact dir g s t :
    exact dir g -> In s (vertex_ids g) -> In t (vertex_ids g) ->
    exists g', remove_edge_st dir g s t = Ok g' /\ exact dir g' /\
      seen_vertices g' = seen_vertices g /\
      seen_edges g' = filter (fun x => negb (connects s t x)) (seen_edges g).
  Proof.
    intros H Hs Ht. rewrite (remove_edge_st_effect dir g s t H Hs Ht). eexists; split; [reflexivity|].
    split; [apply exact_filter; exact H|].
    split; [apply seen_vertices_canon|]. rewrite seen_edges_canon; apply map_filter_seen; reflexivity.
  Qed.

  (** C04: clearing a vertex removes exactly the edges touching it; removing it afterwards succeeds and
      leaves a graph whose edges all have both endpoints. *)
  Theorem C04_clear_then_remove_vertex dir g v :
    exact dir g -> In v (vertex_ids g) ->
    exists g1 g2, clear_vertex dir g v = Ok g1 /\ exact dir g1 /\
      seen_vertices g1 = seen_vertices g /\
      seen_edges g1 = filter (fun x => negb (touches v x)) (seen_edges g) /\
      remove_vertex g1 v = Ok g2 /\ exact dir g2 /\
      seen_vertices g2 = filter (fun x => negb (fst x =? v)) (seen_vertices g) /\ seen_edges g2 = seen_edges g1.
  Proof.
    intros H Hv. rewrite (clear_vertex_effect dir g v H Hv).
    set (es := filter (survives v) (g_es g)). set (g1 := canon dir g es (g_next g)).
    assert (H1 : exact dir g1) by (apply exact_filter; exact H).
    assert (A1 : seen_vertices g1 = seen_vertices g) by apply seen_vertices_canon.
    assert (Hv1 : In v (vertex_ids g1)) by (unfold g1; rewrite canon_ids; exact Hv).
    assert (Hi : isolated g1 v).
    { intros e He. cbn in He. unfold es in He. apply filter_In in He as [_ He]. unfold survives in He.
      apply andb_true_iff in He as [E1 E2]. apply negb_true_iff in E1, E2. split; apply Nat.eqb_neq; assumption. }
    exists g1, (without_vertex g1 v). split; [reflexivity|]. split; [exact H1|]. split; [exact A1|].
    split. { unfold g1. rewrite seen_edges_canon. apply map_filter_seen. intros e He. unfold survives, touches; cbn. rewrite negb_orb. reflexivity. }
    split. { rewrite (remove_vertex_effect dir g1 v H1 Hv1), (isolated_leaves dir g1 v Hi). reflexivity. }
    split; [apply without_vertex_exact; assumption|].
    split; [|reflexivity]. rewrite seen_vertices_without, A1. reflexivity.
  Qed.

  (** removing a vertex from an undirected graph never leaves a dangling edge: it throws instead *)
  Theorem C04_undirected_remove_vertex g v :
    exact Undirected g -> In v (vertex_ids g) ->
    (remove_vertex g v = Throw g /\ ~ isolated g v) \/
    (exists g', remove_vertex g v = Ok g' /\ exact Undirected g' /\ isolated g v).
  Proof.
    intros H Hv. rewrite (remove_vertex_effect Undirected g v H Hv).
    destruct (existsb (leaves Undirected v) (g_es g)) eqn:E.
    - left. split; [reflexivity|]. intros Hi. rewrite (isolated_leaves Undirected g v Hi) in E. discriminate.
    - right. eexists; split; [reflexivity|]. pose proof (undirected_isolated g v E) as Hi.
      split; [apply without_vertex_exact; assumption|exact Hi].
  Qed.

  (** C06: a copy of a graph whose indices are up to date (e.g. freshly reindexed) has exact lists and the
      same shape. *)
  Theorem C06_copy_same_shape dir g :
    exact dir g -> indexed g -> exists h, copy_from dir g = Ok h /\ exact dir h /\ same_shape g h.
  Proof. exact (copy_from_same_shape dir g). Qed.

  Theorem C06_reindex_enables_copy dir g :
    exact dir g ->
    exists h, copy_from dir (reindex g) = Ok h /\ exact dir h /\ same_shape (reindex g) h /\
              seen_vertices (reindex g) = seen_vertices g /\ seen_edges (reindex g) = seen_edges g.
  Proof.
    intros H. destruct (copy_from_same_shape dir (reindex g) (reindex_exact dir g H) (reindex_indexed g)) as (h & E & X & S).
    exists h. split; [exact E|]. split; [exact X|]. split; [exact S|]. split.
    - apply reindex_vs_map; reflexivity.
    - apply reindex_es_map; reflexivity.
  Qed.

  (** [reindex] numbers vertices and edges from 0 without gaps and changes nothing else *)
  Theorem C06_reindex_numbers (g : graph) :
    map v_index (g_vs (reindex g)) = seq 0 (length (g_vs g)) /\ map e_index (g_es (reindex g)) = seq 0 (length (g_es g)) /\
    map (fun x => (v_id x, v_data x, v_out x, v_in x)) (g_vs (reindex g)) = map (fun x => (v_id x, v_data x, v_out x, v_in x)) (g_vs g) /\
    map (fun x => (e_id x, e_src x, e_tgt x, e_data x)) (g_es (reindex g)) = map (fun x => (e_id x, e_src x, e_tgt x, e_data x)) (g_es g) /\ g_next (reindex g) = g_next g.
  Proof.
    unfold reindex; cbn.
    assert (M : forall (l : list (@vertex VD)) i, map v_index (reindex_vs i l) = seq i (length l)).
    { induction l as [|a l IH]; intros i; cbn; [reflexivity|]. rewrite IH. reflexivity. }
    assert (N : forall (l : list (@edge ED)) i, map e_index (reindex_es i l) = seq i (length l)).
    { induction l as [|a l IH]; intros i; cbn; [reflexivity|]. rewrite IH. reflexivity. }
    repeat split; auto; [apply reindex_vs_map|apply reindex_es_map]; reflexivity.
  Qed.
End Props.

(** *** Concrete cases *)
Definition demo_ops : list (op nat nat) :=
  [AddVertex 10 Good; AddVertex 11 Good; AddVertex 12 Good; AddEdge 0 1 7 Good Good Good;
   AddEdge 1 0 8 Good Good Good; AddEdge 0 0 9 Good Good Good; AddEdge 2 0 5 Good Good Good;
   AddEdge 0 2 6 Good (Bad 0) Good; AddEdge 0 1 4 Good Good (Bad 2); RemoveEdge 3; Reindex; AddVertex 13 (Bad 1)].
Example C01_case dir : legal_history dir empty_graph demo_ops.
Proof. destruct dir; vm_compute; repeat split; auto 10. Qed.
Definition demo dir : graph nat nat :=
  match run dir empty_graph demo_ops with Some g => g | None => empty_graph end.
Example C01_case_edges : seen_edges (demo Bidirectional) = [(4, (1, 0), 8); (5, (0, 0), 9); (6, (2, 0), 5)].
Proof. vm_compute. reflexivity. Qed.
Example demo_exact dir : exact dir (demo dir).
Proof.
  destruct (C01_incidence_exact dir demo_ops (C01_case dir)) as (g & E & X & _). unfold demo. rewrite E. exact X.
Qed.
(* hypotheses of C02/C03/C04/C06 met by the demo graph *)
Example C02_case dir : In 0 (vertex_ids (demo dir)) /\ In 2 (vertex_ids (demo dir)) /\
  add_edge_succeeds dir 0 2 Good (Bad 1) Good = false /\ add_edge_succeeds dir 0 2 Good Good Good = true.
Proof. destruct dir; vm_compute; auto 10. Qed.
Example C03_case dir : In 5 (edge_ids (demo dir)).
Proof. destruct dir; vm_compute; auto 10. Qed.
Example C04_case dir : In 0 (vertex_ids (demo dir)) /\ ~ isolated (demo dir) 0.
Proof.
  split; [destruct dir; vm_compute; auto|]. intros H. destruct (H (mkE 5 1 0 0 9)) as [K _]; [|apply K; reflexivity].
  destruct dir; vm_compute; auto.
Qed.
Example C06_case dir : exact dir (reindex (demo dir)) /\ indexed (reindex (demo dir)).
Proof. split; [apply reindex_exact, demo_exact|apply reindex_indexed]. Qed.

(** *** What does not hold *)
(** C04: in directed and bidirectional graphs [remove_vertex] succeeds on a vertex with incoming edges
    and leaves an edge whose target no longer exists. *)
Theorem C04_remove_vertex_dangling_refuted :
  exists (g : graph nat nat) v g', exact Bidirectional g /\ In v (vertex_ids g) /\
    remove_vertex g v = Ok g' /\ exists e, In e (g_es g') /\ ~ In (e_tgt e) (vertex_ids g').
Proof.
  set (os := [AddVertex 0 Good; AddVertex 1 Good; AddEdge 0 1 5 Good Good Good] : list (op nat nat)).
  destruct (C01_incidence_exact Bidirectional os) as (g & E & X & _).
  { cbn. repeat split; auto. }
  vm_compute in E. injection E as <-.
  eexists; exists 1; eexists. split; [exact X|]. split; [cbn; auto|].
  split; [vm_compute; reflexivity|]. eexists; split; [left; reflexivity|]. cbn. intros [K|[]]; discriminate K.
Qed.

(** C03: in an undirected graph removal by endpoints ignores edges stored in the other orientation. *)
Theorem C03_undirected_reverse_removal_refuted :
  exists (g : graph nat nat) s t e, exact Undirected g /\ In e (g_es g) /\ e_src e = t /\ e_tgt e = s /\
    remove_edge_st Undirected g s t = Ok g.
Proof.
  set (os := [AddVertex 0 Good; AddVertex 1 Good; AddEdge 0 1 5 Good Good Good] : list (op nat nat)).
  destruct (C01_incidence_exact Undirected os) as (g & E & X & _).
  { cbn. repeat split; auto. }
  vm_compute in E. injection E as <-.
  eexists; exists 1, 0; eexists. split; [exact X|]. split; [left; reflexivity|].
  repeat split; vm_compute; reflexivity.
Qed.

(** C03: when the caller passes a reference to the entry inside the target's own in-list (as the loop of
    network_import.hpp 182-195 does), the predicate reads that entry after it was erased. *)
Theorem C03_aliased_removal_refuted :
  exists (g : graph nat nat) e, exact Bidirectional g /\ In e (edge_ids g) /\
    remove_edge Bidirectional true g e = UB.
Proof.
  set (os := [AddVertex 0 Good; AddVertex 1 Good; AddEdge 0 1 5 Good Good Good; AddEdge 0 1 6 Good Good Good]
             : list (op nat nat)).
  destruct (C01_incidence_exact Bidirectional os) as (g & E & X & _).
  { cbn. repeat split; auto. }
  vm_compute in E. injection E as <-.
  eexists; exists 2. split; [exact X|]. split; [cbn; auto|]. vm_compute. reflexivity.
Qed.

(** C06: without an up-to-date index the copy can connect different vertices. *)
Theorem C06_copy_without_reindex_refuted :
  exists (g h : graph nat nat), exact Directed g /\ copy_from Directed g = Ok h /\ ~ same_shape g h.
Proof.
  set (os := [AddVertex 0 Good; AddVertex 1 Good; AddVertex 2 Good; AddEdge 1 1 5 Good Good Good; RemoveVertex 0]
             : list (op nat nat)).
  destruct (C01_incidence_exact Directed os) as (g & E & X & _).
  { cbn. repeat split; auto. right; right. intros e [<-|[]]; cbn; auto. }
  vm_compute in E. injection E as <-.
  eexists; eexists. split; [exact X|]. split; [vm_compute; reflexivity|].
  intros [_ F]. inversion F as [|? ? ? ? (_ & (i & P & Q) & _) _]; subst. vm_compute in P, Q. congruence.
Qed.

Print Assumptions C01_incidence_exact.
Print Assumptions C01_incidence_exact_from.
Print Assumptions C02_add_edge_failure_unchanged.
Print Assumptions C02_add_edge_success.
Print Assumptions C02_add_vertex_failure_unchanged.
Print Assumptions C03_remove_edge_exact.
Print Assumptions C03_remove_edges_between_exact.
Print Assumptions C04_clear_then_remove_vertex.
Print Assumptions C04_undirected_remove_vertex.
Print Assumptions C06_copy_same_shape.
Print Assumptions C06_reindex_enables_copy.
Print Assumptions C06_reindex_numbers.
Print Assumptions C04_remove_vertex_dangling_refuted.
Print Assumptions C03_undirected_reverse_removal_refuted.
Print Assumptions C03_aliased_removal_refuted.
Print Assumptions C06_copy_without_reindex_refuted.
