(** Proofs about merging roads at one vertex (network_import.hpp 272-297). *)
From Coq Require Import String.
From Verif Require Import Base ListAux AdjList AdjListSpec AdjListProofs AdjListProofs2 AdjListProofs3 Tags TagsProps RichLine NetImport NetImportSpec
  NetImportProofs NetImportProofs2.

Section Merge.
  Context {P Str : Type}.
  Variable eqp : P -> P -> bool.
  Hypothesis eqp_refl : forall p, eqp p p = true.
  Notation graph := (graph (node P) (road P)).
  Notation edge := (@edge (road P)).
  Notation import := (import P Str).

  Definition touching (es : list edge) (v : nat) : list edge := filter (fun e => (e_src e =? v) || (e_tgt e =? v)) es.

  Lemma touching_in es v e : In e (touching es v) <-> In e es /\ (e_src e = v \/ e_tgt e = v).
  Proof. unfold touching. rewrite filter_In, orb_true_iff, !Nat.eqb_eq. tauto. Qed.

  (** the edge list after a merge *)
  Definition rest (g : graph) (i o : edge) : list edge :=
    filter (fun x => negb (e_id x =? e_id o)) (filter (fun x => negb (e_id x =? e_id i)) (g_es g)).
  Definition merged_edge (g : graph) (i o : edge) (new : road P) : edge :=
    mkE (g_next g) (length (rest g i o)) (e_src i) (e_tgt o) new.
  Definition merged_es (g : graph) (i o : edge) (new : road P) : list edge := rest g i o ++ [merged_edge g i o new].
  Definition merged (g : graph) (i o : edge) (new : road P) : graph :=
    let g1 := canon Bidirectional g (merged_es g i o new) (S (g_next g)) in
    match touching (merged_es g i o new) (e_tgt i) with
    | [] => without_vertex g1 (e_tgt i)
    | _ :: _ => g1
    end.

  Lemma rest_in g i o e : In e (rest g i o) <-> In e (g_es g) /\ e_id e <> e_id i /\ e_id e <> e_id o.
  Proof. unfold rest. rewrite !filter_In, !negb_true_iff, !Nat.eqb_neq. tauto. Qed.

  Lemma canon_canon dir (g : graph) es n es' n' : canon dir (canon dir g es n) es' n' = canon dir g es' n'.
  Proof. unfold canon. cbn. rewrite map_map. f_equal. Qed.

  Lemma merged_canon_exact g i o new : exact Bidirectional g -> In i (g_es g) -> In o (g_es g) ->
    exact Bidirectional (canon Bidirectional g (merged_es g i o new) (S (g_next g))).
  Proof.
    intros H Hi Ho. apply exact_canon; auto.
    - unfold merged_es. rewrite map_app. cbn. apply NoDup_app'.
      + unfold rest. apply NoDup_map_filter, NoDup_map_filter, (ex_eid _ _ H).
      + constructor; [intros []|constructor].
      + intros z Hz [<-|[]]. apply in_map_iff in Hz as (e & E & He). apply rest_in in He as [He _].
        pose proof (ex_elt _ _ H e He). lia.
    - intros e He. apply in_app_iff in He as [He|[<-|[]]]; [|cbn; lia]. apply rest_in in He as [He _].
      pose proof (ex_elt _ _ H e He). lia.
    - intros e He. apply in_app_iff in He as [He|[<-|[]]].
      + apply rest_in in He as [He _]. apply (ex_end _ _ H); exact He.
      + cbn. split; [apply (ex_end _ _ H); exact Hi|apply (ex_end _ _ H); exact Ho].
  Qed.

  Lemma touching_nil_isolated (g : graph) v : touching (g_es g) v = [] -> isolated g v.
  Proof.
    intros E e He. split; intros Q; assert (X : In e (touching (g_es g) v)) by (apply touching_in; auto); rewrite E in X; destruct X.
  Qed.

  Lemma merged_exact g i o new : exact Bidirectional g -> In i (g_es g) -> In o (g_es g) -> exact Bidirectional (merged g i o new).
  Proof.
    intros H Hi Ho. unfold merged. pose proof (merged_canon_exact g i o new H Hi Ho) as X.
    destruct (touching (merged_es g i o new) (e_tgt i)) eqn:E; [|exact X].
    apply without_vertex_exact; [exact X|]. apply touching_nil_isolated. exact E.
  Qed.
  Lemma merged_edges g i o new : g_es (merged g i o new) = merged_es g i o new.
  Proof. unfold merged. destruct (touching (merged_es g i o new) (e_tgt i)); reflexivity. Qed.

  Lemma degree_zero (g : graph) v : exact Bidirectional g -> In v (vertex_ids g) ->
    exists d, degree g v = Some d /\ (d = 0 <-> touching (g_es g) v = []).
  Proof.
    intros H Hv. unfold degree. destruct (get_vertex_some g v Hv) as [x E]. rewrite E. eexists. split; [reflexivity|].
    rewrite (outs_ids g v x H E), (ins_ids g v x H E), !map_length. split.
    - intros Z. destruct (touching (g_es g) v) as [|e r] eqn:T; [reflexivity|].
      assert (X : In e (touching (g_es g) v)) by (rewrite T; left; reflexivity). apply touching_in in X as [X [Y|Y]].
      + assert (W : In e (outs_of (g_es g) v)) by (apply outs_of_in; auto). destruct (outs_of (g_es g) v); [destruct W|cbn in Z; lia].
      + assert (W : In e (ins_of (g_es g) v)) by (apply ins_of_in; auto). destruct (ins_of (g_es g) v); [destruct W|cbn in Z; lia].
    - intros T. pose proof (touching_nil_isolated g v T) as I.
      assert (A : outs_of (g_es g) v = []) by (apply filter_false; intros z Hz; apply Nat.eqb_neq; apply (I z Hz)).
      assert (B : ins_of (g_es g) v = []) by (apply filter_false; intros z Hz; apply Nat.eqb_neq; apply (I z Hz)).
      rewrite A, B. reflexivity.
  Qed.

  (** the effect of [_merge] when memory suffices *)
  Lemma merge_effect (s : import) i o new :
    let g := i_graph s in
    exact Bidirectional g -> In i (g_es g) -> In o (g_es g) -> e_id i <> e_id o -> i_mem s = [] ->
    merge_road eqp (e_data i) (e_data o) = Ok new ->
    merge eqp s (e_id i) (e_id o) =
      Ok (set_graph (merged g i o new) (set_tags (merge_edge_tags (id_of i) (id_of o) (i_tags s)) s)).
  Proof.
    intros g H Hi Ho N Em En. unfold merge. fold g. rewrite (get_edge_of _ _ _ H Hi). cbn [derefO].
    rewrite (get_edge_of _ _ _ H Ho). cbn [derefO]. unfold next_answer. cbn [i_mem set_tags]. rewrite Em.
    rewrite En. cbn [bindO i_graph set_tags]. fold g.
    rewrite remove_edge_effect by (auto; apply in_map; exact Hi). cbn [bindO].
    set (g1 := canon Bidirectional g (filter (fun x => negb (e_id x =? e_id i)) (g_es g)) (g_next g)).
    assert (X1 : exact Bidirectional g1) by (apply exact_filter; exact H).
    rewrite remove_edge_effect; [|exact X1|].
    2:{ unfold g1, edge_ids. cbn. apply in_map. apply filter_In. split; [exact Ho|]. apply negb_true_iff, Nat.eqb_neq. auto. }
    cbn [bindO]. unfold g1. rewrite canon_canon. cbn [g_es canon g_next]. fold (rest g i o).
    set (g2 := canon Bidirectional g (rest g i o) (g_next g)).
    assert (X2 : exact Bidirectional g2).
    { unfold g2. pose proof (exact_filter Bidirectional g1 (fun x => negb (e_id x =? e_id o)) X1) as Y.
      unfold g1 in Y. rewrite canon_canon in Y. exact Y. }
    assert (V2 : vertex_ids g2 = vertex_ids g) by apply canon_ids.
    rewrite add_edge_effect; [|exact X2|rewrite V2; apply (ex_end _ _ H); exact Hi|rewrite V2; apply (ex_end _ _ H); exact Ho].
    cbn [add_edge_succeeds good andb bindO fst].
    pose proof (merged_canon_exact g i o new H Hi Ho) as X3.
    assert (E3 : canon Bidirectional g2 (g_es g2 ++ [new_edge g2 (e_src i) (e_tgt o) new]) (S (g_next g2)) =
                 canon Bidirectional g (merged_es g i o new) (S (g_next g))) by (unfold g2 at 1; rewrite canon_canon; reflexivity).
    rewrite !E3. set (g3 := canon Bidirectional g (merged_es g i o new) (S (g_next g))) in *.
    assert (Hv : In (e_tgt i) (vertex_ids g3)) by (unfold g3; rewrite canon_ids; apply (ex_end _ _ H); exact Hi).
    destruct (degree_zero g3 (e_tgt i) X3 Hv) as (d & Ed & Z). rewrite Ed. cbn [derefO].
    assert (Em' : merged g i o new = match touching (g_es g3) (e_tgt i) with [] => without_vertex g3 (e_tgt i) | _ :: _ => g3 end) by reflexivity.
    rewrite Em'. destruct (touching (g_es g3) (e_tgt i)) eqn:T.
    - rewrite (proj2 Z eq_refl). cbn [Nat.eqb]. rewrite (remove_vertex_effect Bidirectional g3 _ X3 Hv).
      rewrite (isolated_leaves Bidirectional g3 _ (touching_nil_isolated g3 _ T)). reflexivity.
    - destruct d; [discriminate (proj1 Z eq_refl)|]. reflexivity.
  Qed.

  Lemma position_canon dir (g : graph) es n v : position (canon dir g es n) v = position g v.
  Proof.
    unfold position, get_vertex, canon. cbn. induction (g_vs g) as [|x r IH]; [reflexivity|]. cbn. destruct (v_id x =? v); [reflexivity|exact IH].
  Qed.
  Lemma position_without (g : graph) v w : w <> v -> position (without_vertex g v) w = position g w.
  Proof.
    intros N. unfold position, get_vertex, without_vertex. cbn. induction (g_vs g) as [|x r IH]; [reflexivity|]. cbn.
    destruct (v_id x =? v) eqn:E; cbn.
    - apply Nat.eqb_eq in E. destruct (v_id x =? w) eqn:F; [apply Nat.eqb_eq in F; congruence|exact IH].
    - destruct (v_id x =? w); [reflexivity|exact IH].
  Qed.

  Definition joined_road (i o : edge) : road P := mkRoad (id_of i) (line_of i ++ tl (line_of o)).

  Lemma drawn_merge (g : graph) i o : drawn g -> In i (g_es g) -> In o (g_es g) -> e_tgt i = e_src o ->
    merge_road eqp (e_data i) (e_data o) = Ok (joined_road i o).
  Proof.
    intros D Hi Ho E. destruct (D i Hi) as (L1 & _ & T). destruct (D o Ho) as (L2 & S & _).
    unfold merge_road, joined_road, line_of, id_of in *.
    destruct (r_line (e_data o)) as [|q no]; [cbn in L2; lia|]. destruct (r_line (e_data i)) as [|p ni] eqn:Ei; [cbn in L1; lia|].
    unfold plain_merge. cbn [foldO merge_single].
    rewrite (hd_rev_last _ q) in T by discriminate. cbn [hd_error] in S. rewrite E, <- S in T. injection T as T.
    cbn [last] in *. rewrite T, eqp_refl. cbn [bindO tl]. reflexivity.
  Qed.

  Lemma merged_position (g : graph) i o new v : In v (vertex_ids (merged g i o new)) -> position (merged g i o new) v = position g v.
  Proof.
    unfold merged. destruct (touching (merged_es g i o new) (e_tgt i)); [|intros _; apply position_canon].
    intros Hv. rewrite position_without; [apply position_canon|]. unfold vertex_ids, without_vertex in Hv. cbn in Hv.
    apply in_map_iff in Hv as (x & <- & Hx). apply filter_In in Hx as [_ Hx]. apply negb_true_iff, Nat.eqb_neq in Hx. exact Hx.
  Qed.

  Lemma drawn_merged (g : graph) i o : exact Bidirectional g -> drawn g -> In i (g_es g) -> In o (g_es g) ->
    drawn (merged g i o (joined_road i o)).
  Proof.
    intros H D Hi Ho e He. pose proof (merged_exact g i o (joined_road i o) H Hi Ho) as X.
    destruct (ex_end _ _ X e He) as [Vs Vt]. rewrite !merged_position by assumption. rewrite merged_edges in He.
    apply in_app_iff in He as [He|[<-|[]]]; [apply rest_in in He as [He _]; apply D; exact He|].
    destruct (D i Hi) as (L1 & S1 & T1). destruct (D o Ho) as (L2 & S2 & T2).
    change (line_of (merged_edge g i o (joined_road i o))) with (line_of i ++ tl (line_of o)). cbn [merged_edge e_src e_tgt].
    split; [rewrite app_length; lia|]. destruct (line_of i) as [|p [|p' l]]; [cbn in L1; lia|cbn in L1; lia|].
    destruct (line_of o) as [|q [|q' m]]; [cbn in L2; lia|cbn in L2; lia|]. cbn [tl]. split; [exact S1|].
    rewrite <- T2. rewrite !(hd_rev_last _ q) by discriminate. rewrite last_app_ne by discriminate. reflexivity.
  Qed.

  Lemma merged_vertices (g : graph) i o new :
    let g' := merged g i o new in
    (seen_vertices g' = seen_vertices g \/ seen_vertices g' = filter (fun x => negb (fst x =? e_tgt i)) (seen_vertices g)) /\
    (forall v, In v (vertex_ids g') -> In v (vertex_ids g)) /\
    (forall v, In v (vertex_ids g) -> v <> e_tgt i -> In v (vertex_ids g')) /\
    (In (e_tgt i) (vertex_ids g') -> touching (merged_es g i o new) (e_tgt i) <> []).
  Proof.
    cbn zeta. unfold merged. set (g1 := canon Bidirectional g (merged_es g i o new) (S (g_next g))).
    assert (V : vertex_ids g1 = vertex_ids g) by apply canon_ids.
    assert (Sv : seen_vertices g1 = seen_vertices g) by (unfold seen_vertices, g1, canon; cbn; rewrite map_map; reflexivity).
    destruct (touching (merged_es g i o new) (e_tgt i)) eqn:T.
    - rewrite seen_vertices_without, Sv. split; [right; reflexivity|].
      assert (W : forall v, In v (vertex_ids (without_vertex g1 (e_tgt i))) <-> In v (vertex_ids g1) /\ v <> e_tgt i).
      { intros v. unfold vertex_ids, without_vertex. cbn. rewrite !in_map_iff. split.
        - intros (x & <- & Hx). apply filter_In in Hx as [Hx Hn]. apply negb_true_iff, Nat.eqb_neq in Hn. split; [exists x; auto|exact Hn].
        - intros [(x & <- & Hx) N]. exists x. split; [reflexivity|]. apply filter_In. split; [exact Hx|]. apply negb_true_iff, Nat.eqb_neq. exact N. }
      rewrite <- V. split; [intros v Hv; apply W in Hv; tauto|]. split; [intros v Hv N; apply W; auto|].
      intros Hv. apply W in Hv. tauto.
    - rewrite V, Sv. split; [left; reflexivity|]. split; [auto|]. split; [auto|]. intros _. discriminate.
  Qed.

  Lemma seen_ids (g : graph) : map fst (seen_vertices g) = vertex_ids g.
  Proof. unfold seen_vertices, vertex_ids. rewrite map_map. reflexivity. Qed.

  (** *** the invariant: [g] came from [g0] by joining roads at the vertices [J] *)
  Record refines (complete : bool) (g0 : graph) (t0 : tags_state Str) (g : graph) (t : tags_state Str) (J : list nat) (c : nat -> list edge) : Prop := {
    rf_exact : exact Bidirectional g;
    rf_drawn : drawn g;
    rf_course : forall e, In e (g_es g) -> course J (c (e_id e)) e;
    rf_all : Permutation (flat_map (fun e => c (e_id e)) (g_es g)) (g_es g0);
    rf_vs : seen_vertices g = filter (fun x => existsb (Nat.eqb (fst x)) (vertex_ids g)) (seen_vertices g0);
    rf_keep : forall v, In v (vertex_ids g0) -> ~ In v J -> In v (vertex_ids g);
    rf_aware : complete = false -> t = t0 /\ forall e f, In e (g_es g) -> In f (c (e_id e)) -> id_of f = id_of e;
    rf_tags : forall e f, In e (g_es g) -> In f (c (e_id e)) -> incl (edge_tags t0 (id_of f)) (edge_tags t (id_of e));
    rf_nodes : forall n, node_tags t n = node_tags t0 n;
    rf_from : forall n k, In k (edge_tags t n) -> exists m, leads g0 J n m /\ In k (edge_tags t0 m)
  }.

  Lemma leads_mono (g : graph) J J' n m : incl J J' -> leads g J n m -> leads g J' n m.
  Proof. intros I. induction 1; [constructor|]. eapply leads_on; eauto. Qed.
  Lemma leads_trans (g : graph) J n m k : leads g J n m -> leads g J m k -> leads g J n k.
  Proof. induction 1; intros Q; [exact Q|]. eapply leads_on; eauto. Qed.
  Lemma linked_leads (g : graph) J (r : list edge) : forall f, linked J (f :: r) -> incl (f :: r) (g_es g) -> leads g J (id_of f) (id_of (last (f :: r) f)).
  Proof.
    induction r as [|h r IH]; intros f L I; [constructor|]. destruct L as [[E Hj] L].
    apply (leads_on _ _ f h); [apply I; left; reflexivity|apply I; right; left; reflexivity|exact E|exact Hj|].
    specialize (IH h L (fun z Hz => I z (or_intror Hz))). rewrite (last_map_default (f :: h :: r) f h) by discriminate. exact IH.
  Qed.
  Lemma courses_lead (g : graph) J (a b : list edge) i o : course J a i -> course J b o -> incl a (g_es g) -> incl b (g_es g) ->
    e_tgt i = e_src o -> In (e_tgt i) J -> leads g J (id_of i) (id_of o).
  Proof.
    intros (f & r & -> & L & _ & Et & Ei & _) (f' & r' & -> & _ & Es & _ & Eo & _) Ia Ib E Hj.
    rewrite Ei, Eo. eapply leads_trans; [apply (linked_leads g J r f L Ia)|].
    apply (leads_on _ _ (last (f :: r) f) f'); [apply Ia; apply last_in; discriminate|apply Ib; left; reflexivity|congruence|congruence|constructor].
  Qed.

  Definition start (g0 : graph) (i : nat) : list edge := match get_edge g0 i with Some e => [e] | None => [] end.

  Lemma refines_start complete g0 t0 : exact Bidirectional g0 -> drawn g0 -> refines complete g0 t0 g0 t0 [] (start g0).
  Proof.
    intros H D. assert (G : forall e, In e (g_es g0) -> start g0 (e_id e) = [e]).
    { intros e He. unfold start. rewrite (get_edge_of _ _ _ H He). reflexivity. }
    constructor; auto.
    - intros e He. rewrite (G e He). exists e, []. split; [reflexivity|]. cbn [linked last map join flat_map]. rewrite app_nil_r. repeat split; auto.
    - rewrite (flat_map_ext_in' _ (fun e => [e])) by exact G. rewrite <- (map_id (g_es g0)) at 2. rewrite flat_map_concat_map.
      rewrite <- (map_map (fun e => e) (fun e => [e])), map_id. clear. induction (g_es g0) as [|e r IH]; [reflexivity|]. cbn. constructor. exact IH.
    - symmetry. apply filter_true. intros x Hx. apply existsb_eqb_In. rewrite <- seen_ids. apply in_map. exact Hx.
    - intros _. split; [reflexivity|]. intros e f He Hf. rewrite (G e He) in Hf. destruct Hf as [<-|[]]. reflexivity.
    - intros e f He Hf. rewrite (G e He) in Hf. destruct Hf as [<-|[]]. apply incl_refl.
    - intros n k Hk. exists n. split; [constructor|exact Hk].
  Qed.

  Lemma Permutation_remove {A} (f : A -> nat) (l : list A) a : NoDup (map f l) -> In a l ->
    Permutation l (a :: filter (fun x => negb (f x =? f a)) l).
  Proof.
    induction l as [|x l IH]; intros N Ha; [destruct Ha|]. cbn in N. inversion N as [|? ? N1 N2]; subst. cbn [filter].
    destruct Ha as [->|Ha].
    - rewrite Nat.eqb_refl. cbn [negb]. rewrite filter_true; [reflexivity|]. intros y Hy. apply negb_true_iff, Nat.eqb_neq.
      intros E. apply N1. rewrite <- E. apply in_map. exact Hy.
    - destruct (f x =? f a) eqn:E; [apply Nat.eqb_eq in E; exfalso; apply N1; rewrite E; apply in_map; exact Ha|]. cbn [negb].
      rewrite (IH N2 Ha) at 1. apply perm_swap.
  Qed.

  Lemma rest_perm (g : graph) i o : exact Bidirectional g -> In i (g_es g) -> In o (g_es g) -> e_id i <> e_id o ->
    Permutation (g_es g) (i :: o :: rest g i o).
  Proof.
    intros H Hi Ho N. rewrite (Permutation_remove e_id (g_es g) i (ex_eid _ _ H) Hi) at 1. constructor.
    unfold rest. apply Permutation_remove; [apply NoDup_map_filter, (ex_eid _ _ H)|].
    apply filter_In. split; [exact Ho|]. apply negb_true_iff, Nat.eqb_neq. auto.
  Qed.

  (** one merge *)
  Lemma refines_merge complete g0 t0 (s : import) J c i o :
    drawn g0 -> refines complete g0 t0 (i_graph s) (i_tags s) J c -> i_mem s = [] ->
    In i (g_es (i_graph s)) -> In o (g_es (i_graph s)) -> e_id i <> e_id o -> e_tgt i = e_src o -> In (e_tgt i) J ->
    (complete = false -> id_of i = id_of o) ->
    let g' := merged (i_graph s) i o (joined_road i o) in
    let t' := merge_edge_tags (id_of i) (id_of o) (i_tags s) in
    merge eqp s (e_id i) (e_id o) = Ok (set_graph g' (set_tags t' s)) /\
    exists c', refines complete g0 t0 g' t' J c'.
  Proof.
    intros D0 R Em Hi Ho N E Hj Hid g' t'. set (g := i_graph s) in *. pose proof (rf_exact _ _ _ _ _ _ _ R) as H.
    pose proof (rf_drawn _ _ _ _ _ _ _ R) as D.
    split. { apply merge_effect; auto. apply (drawn_merge g); auto. }
    set (c' := fun k => if k =? g_next g then c (e_id i) ++ c (e_id o) else c k).
    assert (Cold : forall e, In e (g_es g) -> c' (e_id e) = c (e_id e)).
    { intros e He. unfold c'. destruct (e_id e =? g_next g) eqn:Q; [|reflexivity]. apply Nat.eqb_eq in Q.
      pose proof (ex_elt _ _ H e He). lia. }
    assert (Cnew : c' (g_next g) = c (e_id i) ++ c (e_id o)) by (unfold c'; rewrite Nat.eqb_refl; reflexivity).
    assert (Orig : forall e f, In e (g_es g) -> In f (c (e_id e)) -> In f (g_es g0)).
    { intros e f He Hf. apply (Permutation_in f (rf_all _ _ _ _ _ _ _ R)). apply in_flat_map. eauto. }
    assert (Split : forall e, In e (g_es g') -> (In e (g_es g) /\ e_id e <> e_id i /\ e_id e <> e_id o) \/ e = merged_edge g i o (joined_road i o)).
    { intros e He. unfold g' in He. rewrite merged_edges in He. apply in_app_iff in He as [He|[<-|[]]]; [left; apply rest_in; exact He|right; reflexivity]. }
    destruct (C51_merge_edge_tags (i_tags s) (id_of i) (id_of o)) as (_ & T1 & T2 & T3). fold t' in T1, T2, T3.
    assert (Tgrow : forall x, incl (edge_tags (i_tags s) x) (edge_tags t' x)).
    { intros x k Hk. destruct (Nat.eq_dec x (id_of i)) as [->|Nx]; [apply T1; left; exact Hk|rewrite T2 by exact Nx; exact Hk]. }
    destruct (merged_vertices g i o (joined_road i o)) as (Vs & Vsub & Vkeep & _). fold g' in Vs, Vsub, Vkeep.
    exists c'. constructor.
    - apply merged_exact; auto.
    - apply drawn_merged; auto.
    - intros e He. destruct (Split e He) as [(He' & _)| ->]; [rewrite Cold by exact He'; apply (rf_course _ _ _ _ _ _ _ R); exact He'|].
      cbn [merged_edge e_id]. rewrite Cnew. apply (course_app J (c (e_id i)) (c (e_id o)) i o).
      + apply (rf_course _ _ _ _ _ _ _ R); exact Hi.
      + apply (rf_course _ _ _ _ _ _ _ R); exact Ho.
      + intros f Hf. destruct (D0 f (Orig o f Ho Hf)) as (L & _). intros Q. rewrite Q in L. cbn in L. lia.
      + rewrite <- E. exact Hj.
      + exact E.
      + reflexivity.
    - unfold g'. rewrite merged_edges. unfold merged_es. rewrite flat_map_app. cbn [flat_map merged_edge e_id]. rewrite Cnew, app_nil_r.
      rewrite (flat_map_ext_in' _ (fun e => c (e_id e)) (rest g i o)) by (intros e He; apply rest_in in He as [He _]; apply Cold; exact He).
      rewrite <- (rf_all _ _ _ _ _ _ _ R). fold g.
      rewrite (Permutation_flat_map (fun e => c (e_id e)) (rest_perm g i o H Hi Ho N)). cbn [flat_map].
      rewrite Permutation_app_comm. rewrite app_assoc. reflexivity.
    - destruct Vs as [Vs|Vs]; rewrite Vs at 1.
      + assert (Ev : vertex_ids g' = vertex_ids g) by (rewrite <- !seen_ids, Vs; reflexivity).
        rewrite Ev. apply (rf_vs _ _ _ _ _ _ _ R).
      + assert (Ev : vertex_ids g' = filter (fun v => negb (v =? e_tgt i)) (vertex_ids g)).
        { rewrite <- !seen_ids, Vs. rewrite filter_map_comm. reflexivity. }
        rewrite (rf_vs _ _ _ _ _ _ _ R). fold g. rewrite filter_filter. apply filter_ext_in'. intros x Hx. rewrite Ev.
        apply Bool.eq_iff_eq_true. rewrite andb_true_iff, !existsb_eqb_In, filter_In. reflexivity.
    - intros v Hv Nj. apply Vkeep; [apply (rf_keep _ _ _ _ _ _ _ R); auto|]. intros ->. contradiction.
    - intros Hc. destruct (rf_aware _ _ _ _ _ _ _ R Hc) as [A B]. split.
      + unfold t'. rewrite (Hid Hc). unfold merge_edge_tags. rewrite Nat.eqb_refl. exact A.
      + intros e f He Hf. destruct (Split e He) as [(He' & _)| ->]; [rewrite Cold in Hf by exact He'; apply B; auto|].
        cbn [merged_edge e_id] in Hf. rewrite Cnew in Hf. unfold id_of at 2. cbn [merged_edge e_data joined_road r_id].
        apply in_app_iff in Hf as [Hf|Hf]; [apply B; auto|]. rewrite (Hid Hc). apply B; auto.
    - intros e f He Hf. destruct (Split e He) as [(He' & _)| ->].
      + rewrite Cold in Hf by exact He'. eapply incl_tran; [apply (rf_tags _ _ _ _ _ _ _ R e f He' Hf)|apply Tgrow].
      + cbn [merged_edge e_id] in Hf. rewrite Cnew in Hf. unfold id_of at 2. cbn [merged_edge e_data joined_road r_id].
        apply in_app_iff in Hf as [Hf|Hf].
        * eapply incl_tran; [apply (rf_tags _ _ _ _ _ _ _ R i f Hi Hf)|apply Tgrow].
        * intros k Hk. apply T1. right. apply (rf_tags _ _ _ _ _ _ _ R o f Ho Hf). exact Hk.
    - intros n. rewrite T3. apply (rf_nodes _ _ _ _ _ _ _ R).
    - intros n k Hk. destruct (Nat.eq_dec n (id_of i)) as [->|Nx]; [|rewrite T2 in Hk by exact Nx; apply (rf_from _ _ _ _ _ _ _ R); exact Hk].
      apply T1 in Hk as [Hk|Hk]; [apply (rf_from _ _ _ _ _ _ _ R); exact Hk|].
      destruct (rf_from _ _ _ _ _ _ _ R _ _ Hk) as (m & L & Hm). exists m. split; [|exact Hm]. eapply leads_trans; [|exact L].
      apply (courses_lead g0 J (c (e_id i)) (c (e_id o))); auto; first [apply (rf_course _ _ _ _ _ _ _ R); auto|intros f Hf; eauto].
  Qed.
End Merge.
