(** Proofs about moving roads between nodes at one position (network_import.hpp 156-238). *)
From Coq Require Import String.
From Verif Require Import Base ListAux AdjList AdjListSpec AdjListProofs AdjListProofs2 AdjListProofs3 Tags TagsProps RichLine NetImport NetImportSpec
  NetImportProofs NetImportProofs2 NetImportProofs3 NetImportProofs4 NetImportProofs5 NetImportProofs8 NetDupSpec.

Section Dup.
  Context {P Str : Type}.
  Variable eqp : P -> P -> bool.
  Hypothesis eqp_refl : forall p, eqp p p = true.
  Notation graph := (graph (node P) (road P)).
  Notation edge := (@edge (road P)).
  Notation import := (import P Str).

  (** *** positions *)
  Lemma position_seen (g : graph) v : position g v = option_map (fun x => n_point (snd x)) (find (fun x => fst x =? v) (seen_vertices g)).
  Proof.
    unfold position, get_vertex, seen_vertices. induction (g_vs g) as [|x l IH]; [reflexivity|]. cbn [map find fst]. destruct (v_id x =? v); [reflexivity|exact IH].
  Qed.
  Lemma position_some (g : graph) v : In v (vertex_ids g) -> exists p, position g v = Some p.
  Proof. intros Hv. destruct (get_vertex_some g v Hv) as [x E]. unfold position. rewrite E. cbn. eauto. Qed.
  Lemma position_in (g : graph) v p : position g v = Some p -> In v (vertex_ids g).
  Proof.
    unfold position. destruct (get_vertex g v) as [x|] eqn:E; [|discriminate]. intros _. apply get_vertex_in in E as [E <-]. apply in_map. exact E.
  Qed.
  Lemma position_kept (g0 g : graph) v : seen_vertices g = filter (fun x => existsb (Nat.eqb (fst x)) (vertex_ids g)) (seen_vertices g0) ->
    In v (vertex_ids g) -> position g v = position g0 v.
  Proof.
    intros E Hv. rewrite !position_seen, E. f_equal. clear E. induction (seen_vertices g0) as [|x l IH]; [reflexivity|]. cbn [filter find].
    destruct (existsb (Nat.eqb (fst x)) (vertex_ids g)) eqn:Q; cbn [find].
    - destruct (fst x =? v); [reflexivity|exact IH].
    - destruct (fst x =? v) eqn:Z; [|exact IH]. apply Nat.eqb_eq in Z. rewrite Z in Q. apply existsb_eqb_In in Hv. congruence.
  Qed.

  (** *** one moved road *)
  Definition moved (g : graph) (e : edge) (s t : nat) : graph :=
    canon Bidirectional g (filter (fun x => negb (e_id x =? e_id e)) (g_es g) ++ [new_edge g s t (e_data e)]) (S (g_next g)).

  Lemma next_fresh (g : graph) e : exact Bidirectional g -> In e (g_es g) -> e_id e <> g_next g.
  Proof. intros H He Q. pose proof (ex_elt _ _ H e He). lia. Qed.

  Lemma filter_new (g : graph) e s t d : exact Bidirectional g -> In e (g_es g) ->
    filter (fun x => negb (e_id x =? e_id e)) (g_es g ++ [new_edge g s t d]) = filter (fun x => negb (e_id x =? e_id e)) (g_es g) ++ [new_edge g s t d].
  Proof.
    intros H He. rewrite filter_app. f_equal. cbn [filter new_edge e_id].
    replace (g_next g =? e_id e) with false by (symmetry; apply Nat.eqb_neq; intros Q; apply (next_fresh g e H He); auto). reflexivity.
  Qed.
  Lemma moved_effect (g : graph) e s t : exact Bidirectional g -> In e (g_es g) -> In s (vertex_ids g) -> In t (vertex_ids g) ->
    bindO (add_edge Bidirectional g s t (e_data e) Good Good Good) fst (fun p => remove_edge Bidirectional false (fst p) (e_id e)) = Ok (moved g e s t) /\
    exact Bidirectional (moved g e s t).
  Proof.
    intros H He Hs Ht. rewrite (add_edge_effect Bidirectional g s t _ Good Good Good H Hs Ht). cbn [add_edge_succeeds good andb bindO fst].
    pose proof (add_edge_exact Bidirectional g s t (e_data e) H Hs Ht) as X.
    set (g1 := canon Bidirectional g (g_es g ++ [new_edge g s t (e_data e)]) (S (g_next g))) in *.
    assert (E1 : canon Bidirectional g1 (filter (fun x => negb (e_id x =? e_id e)) (g_es g1)) (g_next g1) = moved g e s t).
    { unfold g1 at 1. rewrite canon_canon. unfold moved. rewrite <- (filter_new g e s t (e_data e) H He). reflexivity. }
    split.
    - rewrite remove_edge_effect; [|exact X|]. { rewrite E1. reflexivity. }
      unfold edge_ids, g1. cbn [canon g_es]. rewrite map_app. apply in_app_iff. left. apply in_map. exact He.
    - rewrite <- E1. apply exact_filter. exact X.
  Qed.

  (** removing a road through the entry of an in-list *)
  Lemma aliased_one (g : graph) e : exact Bidirectional g -> In e (g_es g) -> ins_of (g_es g) (e_tgt e) = [e] ->
    remove_edge Bidirectional true g (e_id e) = remove_edge Bidirectional false g (e_id e).
  Proof.
    intros H He E. unfold remove_edge. rewrite (get_edge_of _ _ _ H He). cbn [derefO]. destruct (ex_end _ _ H e He) as [Vs Vt].
    destruct (get_vertex_some g _ Vs) as [sv Es]. destruct (get_vertex_some g _ Vt) as [tv Et]. rewrite Es. cbn [derefO].
    destruct (find_entry g (e_id e) (v_out sv)) as [[]|]; [|reflexivity|reflexivity]. cbn [derefO]. rewrite Et. cbn [derefO].
    rewrite (ins_ids g _ tv H Et), E. cbn [map remove_if remove_if_aliased].
    assert (Hid : In (e_id e) (edge_ids g)) by (apply in_map; exact He).
    rewrite (is_same_edge_eq g (e_id e) (e_id e) Hid Hid), Nat.eqb_refl. reflexivity.
  Qed.
  Lemma aliased_more (g : graph) e f l : exact Bidirectional g -> In e (g_es g) -> ins_of (g_es g) (e_tgt e) = e :: f :: l ->
    remove_edge Bidirectional true g (e_id e) = UB.
  Proof.
    intros H He E. unfold remove_edge. rewrite (get_edge_of _ _ _ H He). cbn [derefO]. destruct (ex_end _ _ H e He) as [Vs Vt].
    destruct (get_vertex_some g _ Vs) as [sv Es]. destruct (get_vertex_some g _ Vt) as [tv Et]. rewrite Es. cbn [derefO].
    destruct (get_vertex_in _ _ _ Es) as [Is Qs].
    rewrite find_entry_in; [|apply in_map; exact He|intros x Hx; eapply out_ids_live; eauto].
    assert (Hid : In (e_id e) (edge_ids g)) by (apply in_map; exact He).
    assert (Hf : existsb (Nat.eqb (e_id e)) (v_out sv) = true).
    { apply existsb_eqb_In. rewrite (outs_ids g _ sv H Es). apply in_map. apply outs_of_in. auto. }
    rewrite Hf. cbn [derefO]. rewrite Et. cbn [derefO]. rewrite (ins_ids g _ tv H Et), E. cbn [map remove_if_aliased].
    rewrite (is_same_edge_eq g (e_id e) (e_id e) Hid Hid), Nat.eqb_refl. reflexivity.
  Qed.

  (** *** the invariant: [g] came from [g0] by moving roads between nodes at the same position and joining
      roads at the positions [K] *)
  Record gathers (complete : bool) (g0 : graph) (t0 : tags_state Str) (g : graph) (t : tags_state Str) (K : list P) (c : nat -> list edge) : Prop := {
    gt_exact : exact Bidirectional g;
    gt_drawn : drawn g;
    gt_along : forall e, In e (g_es g) -> along (position g0) K (c (e_id e)) e;
    gt_all : Permutation (flat_map (fun e => c (e_id e)) (g_es g)) (g_es g0);
    gt_vs : seen_vertices g = filter (fun x => existsb (Nat.eqb (fst x)) (vertex_ids g)) (seen_vertices g0);
    gt_aware : complete = false -> t = t0 /\ forall e f, In e (g_es g) -> In f (c (e_id e)) -> id_of f = id_of e;
    gt_tags : forall e f, In e (g_es g) -> In f (c (e_id e)) -> incl (edge_tags t0 (id_of f)) (edge_tags t (id_of e));
    gt_nodes : forall n, node_tags t n = node_tags t0 n
  }.

  Lemma gathers_start complete (g0 : graph) (t0 : tags_state Str) : exact Bidirectional g0 -> drawn g0 -> gathers complete g0 t0 g0 t0 [] (start g0).
  Proof.
    intros H D. destruct (refines_start complete g0 t0 H D) as [_ _ _ A B _ C E F _]. constructor; auto.
    intros e He. unfold start. rewrite (get_edge_of _ _ _ H He). exists e, []. cbn [linked_at last map join flat_map]. rewrite app_nil_r. repeat split; auto.
  Qed.

  Lemma gathers_position complete (g0 : graph) (t0 : tags_state Str) (g : graph) (t : tags_state Str) K c v : gathers complete g0 t0 g t K c -> In v (vertex_ids g) ->
    position g v = position g0 v.
  Proof. intros G. apply position_kept, (gt_vs _ _ _ _ _ _ _ G). Qed.

  Lemma moved_in (g : graph) e s t x : In x (g_es (moved g e s t)) <-> (In x (g_es g) /\ e_id x <> e_id e) \/ x = new_edge g s t (e_data e).
  Proof.
    unfold moved. cbn [canon g_es]. rewrite in_app_iff, filter_In, negb_true_iff, Nat.eqb_neq. cbn. split.
    - intros [[A B]|[A|[]]]; auto.
    - intros [[A B]|A]; auto.
  Qed.

  Lemma gathers_move complete (g0 : graph) (t0 : tags_state Str) (g : graph) (t : tags_state Str) K c e a b : gathers complete g0 t0 g t K c ->
    In e (g_es g) -> In a (vertex_ids g) -> In b (vertex_ids g) -> position g a = position g (e_src e) -> position g b = position g (e_tgt e) ->
    exists c', gathers complete g0 t0 (moved g e a b) t K c'.
  Proof.
    intros G He Ha Hb Pa Pb. pose proof (gt_exact _ _ _ _ _ _ _ G) as H. destruct (ex_end _ _ H e He) as [Vs Vt].
    set (c' := fun k => if k =? g_next g then c (e_id e) else c k).
    assert (Cold : forall x, In x (g_es g) -> c' (e_id x) = c (e_id x)).
    { intros x Hx. unfold c'. destruct (e_id x =? g_next g) eqn:Q; [|reflexivity]. apply Nat.eqb_eq in Q. destruct (next_fresh g x H Hx Q). }
    assert (Cnew : c' (g_next g) = c (e_id e)) by (unfold c'; rewrite Nat.eqb_refl; reflexivity).
    assert (Vm : vertex_ids (moved g e a b) = vertex_ids g) by apply canon_ids.
    assert (Sm : seen_vertices (moved g e a b) = seen_vertices g) by (unfold seen_vertices, moved, canon; cbn; rewrite map_map; reflexivity).
    exists c'. constructor.
    - apply moved_effect; auto.
    - intros x Hx. apply moved_in in Hx. unfold moved. rewrite !position_canon. destruct Hx as [[Hx _]| ->]; [apply (gt_drawn _ _ _ _ _ _ _ G); exact Hx|].
      cbn [new_edge e_src e_tgt]. rewrite Pa, Pb. apply (gt_drawn _ _ _ _ _ _ _ G e He).
    - intros x Hx. apply moved_in in Hx as [[Hx _]| ->]; [rewrite Cold by exact Hx; apply (gt_along _ _ _ _ _ _ _ G); exact Hx|].
      cbn [new_edge e_id]. rewrite Cnew. destruct (gt_along _ _ _ _ _ _ _ G e He) as (f & r & E & L & A & B & I & Ln).
      exists f, r. cbn [new_edge e_src e_tgt]. split; [exact E|]. split; [exact L|].
      rewrite <- (gathers_position _ _ _ _ _ _ _ a G Ha), <- (gathers_position _ _ _ _ _ _ _ b G Hb), Pa, Pb.
      rewrite (gathers_position _ _ _ _ _ _ _ _ G Vs), (gathers_position _ _ _ _ _ _ _ _ G Vt). auto.
    - unfold moved. cbn [canon g_es]. rewrite flat_map_app. cbn [flat_map new_edge e_id]. rewrite Cnew, app_nil_r.
      rewrite (flat_map_ext_in' _ (fun x => c (e_id x))) by (intros x Hx; apply filter_In in Hx as [Hx _]; apply Cold; exact Hx).
      rewrite <- (gt_all _ _ _ _ _ _ _ G). rewrite (Permutation_flat_map (fun x => c (e_id x)) (Permutation_remove e_id (g_es g) e (ex_eid _ _ H) He)).
      cbn [flat_map]. apply Permutation_app_comm.
    - rewrite Sm, Vm. apply (gt_vs _ _ _ _ _ _ _ G).
    - intros Hc. destruct (gt_aware _ _ _ _ _ _ _ G Hc) as [A B]. split; [exact A|]. intros x f Hx Hf. apply moved_in in Hx as [[Hx _]| ->].
      + rewrite Cold in Hf by exact Hx. apply B; auto.
      + cbn [new_edge e_id] in Hf. rewrite Cnew in Hf. apply (B e f He Hf).
    - intros x f Hx Hf. apply moved_in in Hx as [[Hx _]| ->].
      + rewrite Cold in Hf by exact Hx. apply (gt_tags _ _ _ _ _ _ _ G); auto.
      + cbn [new_edge e_id] in Hf. rewrite Cnew in Hf. apply (gt_tags _ _ _ _ _ _ _ G e f He Hf).
    - apply (gt_nodes _ _ _ _ _ _ _ G).
  Qed.

  (** the node left without roads *)
  Lemma gathers_without complete (g0 : graph) (t0 : tags_state Str) (g : graph) (t : tags_state Str) K c v : gathers complete g0 t0 g t K c ->
    isolated g v -> gathers complete g0 t0 (without_vertex g v) t K c.
  Proof.
    intros G I. destruct G. constructor; auto.
    - apply without_vertex_exact; auto.
    - intros e He. destruct (I e He) as [A B]. rewrite !position_without by auto. apply gt_drawn0. exact He.
    - rewrite seen_vertices_without. rewrite gt_vs0 at 1. rewrite filter_filter. apply filter_ext_in'. intros x Hx.
      apply Bool.eq_iff_eq_true. rewrite andb_true_iff, !existsb_eqb_In, negb_true_iff, Nat.eqb_neq.
      unfold vertex_ids, without_vertex. cbn [g_vs]. rewrite !in_map_iff. split.
      + intros [(y & E & Hy) N]. exists y. split; [exact E|]. apply filter_In. split; [exact Hy|]. apply negb_true_iff, Nat.eqb_neq. congruence.
      + intros (y & E & Hy). apply filter_In in Hy as [Hy N]. apply negb_true_iff, Nat.eqb_neq in N. split; [eauto|congruence].
  Qed.

  (** *** all roads of a node *)
  Lemma ins_filter (es : list edge) v e l : NoDup (map e_id es) -> ins_of es v = e :: l -> ins_of (filter (fun x => negb (e_id x =? e_id e)) es) v = l.
  Proof.
    intros N E. unfold ins_of in *. rewrite filter_filter. rewrite (filter_ext _ (fun x => (e_tgt x =? v) && negb (e_id x =? e_id e))) by (intros x; apply andb_comm).
    rewrite <- filter_filter, E. assert (Ni : NoDup (map e_id (e :: l))) by (rewrite <- E; apply NoDup_map_filter; exact N).
    cbn [filter map] in *. rewrite Nat.eqb_refl. cbn [negb]. apply filter_true. intros x Hx. apply negb_true_iff, Nat.eqb_neq. intros Q.
    inversion Ni as [|? ? N1 N2]; subst. apply N1. rewrite <- Q. apply in_map. exact Hx.
  Qed.
  Lemma outs_filter (es : list edge) v e l : NoDup (map e_id es) -> outs_of es v = e :: l -> outs_of (filter (fun x => negb (e_id x =? e_id e)) es) v = l.
  Proof.
    intros N E. unfold outs_of in *. rewrite filter_filter. rewrite (filter_ext _ (fun x => (e_src x =? v) && negb (e_id x =? e_id e))) by (intros x; apply andb_comm).
    rewrite <- filter_filter, E. assert (Ni : NoDup (map e_id (e :: l))) by (rewrite <- E; apply NoDup_map_filter; exact N).
    cbn [filter map] in *. rewrite Nat.eqb_refl. cbn [negb]. apply filter_true. intros x Hx. apply negb_true_iff, Nat.eqb_neq. intros Q.
    inversion Ni as [|? ? N1 N2]; subst. apply N1. rewrite <- Q. apply in_map. exact Hx.
  Qed.
  Lemma ins_count (es : list edge) w e x : NoDup (map e_id es) -> In e es -> (e_tgt x = w <-> e_tgt e = w) ->
    length (ins_of (filter (fun x => negb (e_id x =? e_id e)) es ++ [x]) w) = length (ins_of es w).
  Proof.
    intros N He T. unfold ins_of. rewrite (Permutation_length (Permutation_filter (fun e => e_tgt e =? w) _ _ (Permutation_remove e_id es e N He))).
    rewrite filter_app, app_length. cbn [filter].
    destruct (e_tgt x =? w) eqn:A, (e_tgt e =? w) eqn:B; cbn [length]; rewrite ?Nat.add_0_r, ?Nat.add_1_r; try reflexivity; exfalso;
      rewrite ?Nat.eqb_eq, ?Nat.eqb_neq in *; tauto.
  Qed.

  Definition same_nodes (g g' : graph) : Prop := seen_vertices g' = seen_vertices g.
  Lemma same_ids (g g' : graph) : same_nodes g g' -> vertex_ids g' = vertex_ids g.
  Proof. intros E. rewrite <- !seen_ids, E. reflexivity. Qed.
  Lemma same_position (g g' : graph) v : same_nodes g g' -> position g' v = position g v.
  Proof. intros E. rewrite !position_seen, E. reflexivity. Qed.
  Lemma moved_nodes (g : graph) e s t : same_nodes g (moved g e s t).
  Proof. unfold same_nodes, seen_vertices, moved, canon. cbn. rewrite map_map. reflexivity. Qed.

  Section Move.
    Variable complete : bool.
    Variable g0 : graph.
    Variable t0 t : tags_state Str.
    Variable K : list P.
    Variables u v : nat.
    Hypothesis Nuv : u <> v.

    Lemma move_ins_ok freed : forall l (g : graph) c, gathers complete g0 t0 g t K c -> In u (vertex_ids g) -> position g u = position g v ->
      ins_of (g_es g) v = l -> (freed = true -> length l <= 1) ->
      exists g' c', move_ins freed g u (map e_id l) = Ok g' /\ gathers complete g0 t0 g' t K c' /\ same_nodes g g' /\ ins_of (g_es g') v = [] /\
        forall w, w <> u -> w <> v -> length (ins_of (g_es g') w) = length (ins_of (g_es g) w).
    Proof.
      induction l as [|e l IH]; intros g c G Hu Pu El Hf.
      - exists g, c. cbn. split; [reflexivity|]. split; [exact G|]. split; [reflexivity|]. auto.
      - pose proof (gt_exact _ _ _ _ _ _ _ G) as H. assert (He : In e (ins_of (g_es g) v)) by (rewrite El; left; reflexivity).
        apply ins_of_in in He as [He Te]. destruct (ex_end _ _ H e He) as [Vs Vt].
        cbn [map move_ins]. rewrite (get_edge_of _ _ _ H He). cbn [derefO].
        destruct (moved_effect g e (e_src e) u H He Vs Hu) as [Eff X].
        rewrite (add_edge_effect Bidirectional g (e_src e) u _ Good Good Good H Vs Hu) in Eff |- *. cbn [add_edge_succeeds good andb bindO fst] in Eff |- *.
        assert (Er : forall g1, g1 = canon Bidirectional g (g_es g ++ [new_edge g (e_src e) u (e_data e)]) (S (g_next g)) ->
                  remove_edge Bidirectional freed g1 (e_id e) = Ok (moved g e (e_src e) u)).
        { intros g1 E1. rewrite <- E1 in Eff. destruct freed; [|exact Eff]. rewrite <- Eff. specialize (Hf eq_refl). destruct l; [|cbn in Hf; lia].
          apply aliased_one.
          - rewrite E1. apply add_edge_exact; auto.
          - rewrite E1. cbn [canon g_es]. apply in_app_iff. left. exact He.
          - rewrite E1, Te. cbn [canon g_es]. unfold ins_of in *. rewrite filter_app, El. cbn [filter new_edge e_tgt].
            replace (u =? v) with false by (symmetry; apply Nat.eqb_neq; exact Nuv). reflexivity. }
        rewrite (Er _ eq_refl). cbn [bindO].
        destruct (gathers_move complete g0 t0 g t K c e (e_src e) u G He Vs Hu eq_refl) as (c1 & G1); [rewrite Te; exact Pu|].
        pose proof (moved_nodes g e (e_src e) u) as Sn.
        destruct (IH (moved g e (e_src e) u) c1 G1) as (g' & c' & A & B & C & D & F).
        + rewrite (same_ids _ _ Sn). exact Hu.
        + rewrite !(same_position _ _ _ Sn). exact Pu.
        + unfold moved. cbn [canon g_es]. unfold ins_of. rewrite filter_app. fold (@ins_of P (filter (fun x => negb (e_id x =? e_id e)) (g_es g)) v).
          rewrite (ins_filter _ _ _ _ (ex_eid _ _ H) El). cbn [filter new_edge e_tgt].
          replace (u =? v) with false by (symmetry; apply Nat.eqb_neq; exact Nuv). apply app_nil_r.
        + intros Q. specialize (Hf Q). cbn in Hf. lia.
        + exists g', c'. split; [exact A|]. split; [exact B|]. split; [unfold same_nodes in *; congruence|]. split; [exact D|].
          intros w W1 W2. rewrite (F w W1 W2). unfold moved. cbn [canon g_es]. apply ins_count; [apply (ex_eid _ _ H)|exact He|]. cbn [new_edge e_tgt]. split; congruence.
    Qed.

    Lemma move_ins_freed e f l : forall (g : graph) c, gathers complete g0 t0 g t K c -> In u (vertex_ids g) ->
      ins_of (g_es g) v = e :: f :: l -> move_ins true g u (map e_id (e :: f :: l)) = UB.
    Proof.
      intros g c G Hu El. pose proof (gt_exact _ _ _ _ _ _ _ G) as H. assert (He : In e (ins_of (g_es g) v)) by (rewrite El; left; reflexivity).
      apply ins_of_in in He as [He Te]. destruct (ex_end _ _ H e He) as [Vs Vt]. cbn [map move_ins]. rewrite (get_edge_of _ _ _ H He). cbn [derefO].
      rewrite (add_edge_effect Bidirectional g (e_src e) u _ Good Good Good H Vs Hu). cbn [add_edge_succeeds good andb bindO fst].
      rewrite (aliased_more _ e f l); [reflexivity|apply add_edge_exact; auto|cbn [canon g_es]; apply in_app_iff; left; exact He|].
      rewrite Te. cbn [canon g_es]. unfold ins_of in *. rewrite filter_app, El. cbn [filter new_edge e_tgt].
      replace (u =? v) with false by (symmetry; apply Nat.eqb_neq; exact Nuv). apply app_nil_r.
    Qed.

    Lemma move_outs_ok : forall l (g : graph) c, gathers complete g0 t0 g t K c -> In u (vertex_ids g) -> position g u = position g v ->
      outs_of (g_es g) v = l -> ins_of (g_es g) v = [] ->
      exists g' c', move_outs g u (map e_id l) = Ok g' /\ gathers complete g0 t0 g' t K c' /\ same_nodes g g' /\ isolated g' v /\
        forall w, length (ins_of (g_es g') w) = length (ins_of (g_es g) w).
    Proof.
      induction l as [|e l IH]; intros g c G Hu Pu El Ei.
      - exists g, c. cbn. split; [reflexivity|]. split; [exact G|]. split; [reflexivity|]. split; [|auto].
        intros e He. split; intros Q.
        + assert (Z : In e (outs_of (g_es g) v)) by (apply outs_of_in; auto). rewrite El in Z. destruct Z.
        + assert (Z : In e (ins_of (g_es g) v)) by (apply ins_of_in; auto). rewrite Ei in Z. destruct Z.
      - pose proof (gt_exact _ _ _ _ _ _ _ G) as H. assert (He : In e (outs_of (g_es g) v)) by (rewrite El; left; reflexivity).
        apply outs_of_in in He as [He Se]. destruct (ex_end _ _ H e He) as [Vs Vt].
        cbn [map move_outs]. rewrite (get_edge_of _ _ _ H He). cbn [derefO].
        destruct (moved_effect g e u (e_tgt e) H He Hu Vt) as [Eff X].
        rewrite (add_edge_effect Bidirectional g u (e_tgt e) _ Good Good Good H Hu Vt) in Eff |- *. cbn [add_edge_succeeds good andb bindO fst] in Eff |- *.
        rewrite Eff. cbn [bindO].
        destruct (gathers_move complete g0 t0 g t K c e u (e_tgt e) G He Hu Vt) as (c1 & G1); [rewrite Se; exact Pu|reflexivity|].
        pose proof (moved_nodes g e u (e_tgt e)) as Sn.
        assert (Nt : e_tgt e <> v). { intros Q. assert (Z : In e (ins_of (g_es g) v)) by (apply ins_of_in; auto). rewrite Ei in Z. destruct Z. }
        assert (Cn : forall w, length (ins_of (g_es (moved g e u (e_tgt e))) w) = length (ins_of (g_es g) w)).
        { intros w. unfold moved. cbn [canon g_es]. apply ins_count; [apply (ex_eid _ _ H)|exact He|]. cbn [new_edge e_tgt]. reflexivity. }
        destruct (IH (moved g e u (e_tgt e)) c1 G1) as (g' & c' & A & B & C & D & F).
        + rewrite (same_ids _ _ Sn). exact Hu.
        + rewrite !(same_position _ _ _ Sn). exact Pu.
        + unfold moved. cbn [canon g_es]. unfold outs_of. rewrite filter_app. fold (@outs_of P (filter (fun x => negb (e_id x =? e_id e)) (g_es g)) v).
          rewrite (outs_filter _ _ _ _ (ex_eid _ _ H) El). cbn [filter new_edge e_src].
          replace (u =? v) with false by (symmetry; apply Nat.eqb_neq; exact Nuv). apply app_nil_r.
        + specialize (Cn v). rewrite Ei in Cn. cbn in Cn. apply length_zero_iff_nil. exact Cn.
        + exists g', c'. split; [exact A|]. split; [exact B|]. split; [unfold same_nodes in *; congruence|]. split; [exact D|].
          intros w. rewrite (F w). apply Cn.
    Qed.

    Lemma move_edges_ok freed (g : graph) c : gathers complete g0 t0 g t K c -> In u (vertex_ids g) -> In v (vertex_ids g) -> position g u = position g v ->
      (freed = true -> length (ins_of (g_es g) v) <= 1) ->
      exists g1 g2 c', move_edges freed g v u = Ok g1 /\ remove_vertex g1 v = Ok g2 /\ gathers complete g0 t0 g2 t K c' /\
        (forall w, In w (vertex_ids g2) <-> In w (vertex_ids g) /\ w <> v) /\
        (forall w, w <> u -> w <> v -> length (ins_of (g_es g2) w) = length (ins_of (g_es g) w)).
    Proof.
      intros G Hu Hv Pu Hf. pose proof (gt_exact _ _ _ _ _ _ _ G) as H. unfold move_edges. destruct (get_vertex_some g v Hv) as [x E]. rewrite E. cbn [derefO].
      rewrite (ins_ids g v x H E). destruct (move_ins_ok freed _ g c G Hu Pu eq_refl Hf) as (g1 & c1 & A1 & B1 & C1 & D1 & F1). rewrite A1. cbn [bindO].
      assert (Hv1 : In v (vertex_ids g1)) by (rewrite (same_ids _ _ C1); exact Hv). destruct (get_vertex_some g1 v Hv1) as [x1 E1]. rewrite E1. cbn [derefO].
      pose proof (gt_exact _ _ _ _ _ _ _ B1) as H1. rewrite (outs_ids g1 v x1 H1 E1).
      destruct (move_outs_ok (outs_of (g_es g1) v) g1 c1 B1) as (g2 & c2 & A2 & B2 & C2 & D2 & F2); auto.
      { rewrite (same_ids _ _ C1). exact Hu. }
      { rewrite !(same_position _ _ _ C1). exact Pu. }
      exists g2, (without_vertex g2 v), c2. split; [exact A2|]. pose proof (gt_exact _ _ _ _ _ _ _ B2) as H2.
      assert (Hv2 : In v (vertex_ids g2)) by (rewrite (same_ids _ _ C2); exact Hv1). split.
      { rewrite (remove_vertex_effect Bidirectional g2 v H2 Hv2), (isolated_leaves Bidirectional g2 v D2). reflexivity. }
      split; [apply gathers_without; auto|]. split.
      - intros w. unfold vertex_ids at 1, without_vertex. cbn [g_vs]. rewrite <- (same_ids _ _ C1), <- (same_ids _ _ C2). unfold vertex_ids. rewrite !in_map_iff. split.
        + intros (y & <- & Hy). apply filter_In in Hy as [Hy N]. apply negb_true_iff, Nat.eqb_neq in N. eauto.
        + intros [(y & <- & Hy) N]. exists y. split; [reflexivity|]. apply filter_In. split; [exact Hy|]. apply negb_true_iff, Nat.eqb_neq. exact N.
      - intros w W1 W2. cbn [without_vertex g_es]. rewrite (F2 w). apply F1; auto.
    Qed.
    Lemma move_edges_freed (g : graph) c : gathers complete g0 t0 g t K c -> In u (vertex_ids g) -> In v (vertex_ids g) ->
      2 <= length (ins_of (g_es g) v) -> move_edges true g v u = UB.
    Proof.
      intros G Hu Hv L. pose proof (gt_exact _ _ _ _ _ _ _ G) as H. unfold move_edges. destruct (get_vertex_some g v Hv) as [x E]. rewrite E. cbn [derefO].
      rewrite (ins_ids g v x H E). destruct (ins_of (g_es g) v) as [|e [|f l]] eqn:El; [cbn in L; lia|cbn in L; lia|].
      rewrite (move_ins_freed e f l g c G Hu El). reflexivity.
    Qed.
  End Move.
End Dup.
