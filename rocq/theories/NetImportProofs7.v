(** Proofs about the simplification pass: the loop over the vertices and the whole pass. *)
From Coq Require Import String.
From Verif Require Import Base ListAux AdjList AdjListSpec AdjListProofs AdjListProofs2 AdjListProofs3 Tags TagsProps RichLine NetImport NetImportSpec
  NetImportProofs NetImportProofs2 NetImportProofs3 NetImportProofs4 NetImportProofs5 NetImportProofs6.

Section Pass.
  Context {P Str : Type}.
  Variable eqp : P -> P -> bool.
  Hypothesis eqp_refl : forall p, eqp p p = true.
  Notation graph := (graph (node P) (road P)).
  Notation edge := (@edge (road P)).
  Notation import := (import P Str).

  Definition single (g : graph) (v : nat) : Prop := on_one_way g v \/ on_two_way eqp g v.

  (** a vertex on a single road is merged unless it has one neighbour only *)
  Lemma single_merges g v : exact Bidirectional g -> drawn g -> In v (vertex_ids g) -> single g v ->
    one_neighbour g v \/ (mergeable eqp g v /\ is_mergeable eqp g v = Ok true).
  Proof.
    intros H D Hv [(i & o & E1 & E2)|(i1 & i2 & o1 & o2 & E1 & E2 & O1 & O2)].
    - right. split; [left; eauto|]. apply mergeable_yes; auto. left. eauto.
    - assert (G : forall e, In e [i1; i2] -> In e (g_es g)) by (intros e He; apply (Permutation_in _ (Permutation_sym E1)) in He; apply ins_of_in in He; tauto).
      assert (K : forall e, In e [o1; o2] -> In e (g_es g)) by (intros e He; apply (Permutation_in _ (Permutation_sym E2)) in He; apply outs_of_in in He; tauto).
      destruct (Nat.eq_dec (e_src i1) (e_src i2)) as [Q|Q].
      + left. intros i o Hi Ho. apply (Permutation_in _ E1) in Hi. apply (Permutation_in _ E2) in Ho.
        destruct O1 as (_ & _ & O1 & _), O2 as (_ & _ & O2 & _). destruct Hi as [<-|[<-|[]]], Ho as [<-|[<-|[]]]; congruence.
      + right. apply (mate_iff eqp g i1 o1 H D) in O1; [|apply G; cbn; auto|apply K; cbn; auto].
        apply (mate_iff eqp g i2 o2 H D) in O2; [|apply G; cbn; auto|apply K; cbn; auto].
        destruct (Permutation_length_2_inv (Permutation_sym E1)) as [E|E].
        * split; [right; exists i1, i2, o1, o2; auto|]. apply mergeable_yes; auto. right. exists i1, i2, o1, o2. auto.
        * split; [right; exists i2, i1, o2, o1; split; [exact E|]; split; [rewrite E2; apply perm_swap|auto]|]. apply mergeable_yes; auto. right. exists i2, i1, o2, o1.
          split; [exact E|]. split; [rewrite E2; apply perm_swap|auto].
  Qed.

  Definition tidy (complete : bool) (g0 g : graph) (todo J : list nat) : Prop := complete = true ->
    (forall w, In w J -> ~ In w (vertex_ids g)) /\
    forall w, In w (vertex_ids g) -> single g0 w -> single g w /\ (~ In w todo -> one_neighbour g w).

  Lemma loop_ok complete g0 t0 : exact Bidirectional g0 -> drawn g0 -> forall vs (s : import) J c,
    refines complete g0 t0 (i_graph s) (i_tags s) J c -> i_mem s = [] ->
    NoDup vs -> incl vs (vertex_ids (i_graph s)) -> (forall w, In w vs -> ~ In w J) -> (forall w, In w J -> two_directions eqp g0 w) ->
    NoDup J -> tidy complete g0 (i_graph s) vs J ->
    exists s' J' c', simplify_loop eqp complete false vs s = Ok s' /\ refines complete g0 t0 (i_graph s') (i_tags s') J' c' /\
      i_mem s' = [] /\ (forall w, In w J' -> two_directions eqp g0 w) /\ NoDup J' /\ tidy complete g0 (i_graph s') [] J'.
  Proof.
    intros H0 D0. induction vs as [|v vs IH]; intros s J c R Em Nv Hv Dj Tj Nj T.
    - exists s, J, c. split; [reflexivity|]. auto.
    - inversion Nv as [|? ? Nv1 Nv2]; subst. pose proof (rf_exact _ _ _ _ _ _ _ R) as H. pose proof (rf_drawn _ _ _ _ _ _ _ R) as D.
      destruct (visit_ok eqp eqp_refl complete g0 t0 s J c v vs H0 D0 R Em (Hv v (or_introl eq_refl)) (Dj v (or_introl eq_refl)))
        as [(E & F)|(s' & c' & d & E & M & Fit & NL & Td & R' & Rl & Em' & Er & Sub & Keep & Gone & Loops)]; rewrite E.
      + apply (IH s J c); auto.
        * intros w Hw. apply Hv. right. exact Hw.
        * intros w Hw. apply Dj. right. exact Hw.
        * intros Hc. destruct (T Hc) as [T0 T1]. split; [exact T0|]. intros w Hw Sw. destruct (T1 w Hw Sw) as [S1 S2]. split; [exact S1|].
          intros Nw. destruct (Nat.eq_dec w v) as [->|Nwv]; [|apply S2; intros [Q|Q]; [congruence|contradiction]].
          destruct (single_merges _ v H D Hw S1) as [Q|[Q1 Q2]]; [exact Q|]. intros i o Hi Ho. destruct (F i o Q1 Q2 Hi Ho) as [Q|[Q _]]; [exact Q|congruence].
      + apply (IH s' (v :: J) c'); auto.
        * intros w Hw. apply Keep; [apply Hv; right; exact Hw|]. intros ->. contradiction.
        * intros w Hw [Q|Q]; [subst; contradiction|]. apply (Dj w (or_intror Hw) Q).
        * intros w [<-|Hw]; auto.
        * constructor; [apply (Dj v (or_introl eq_refl))|exact Nj].
        * intros Hc. destruct (T Hc) as [T0 T1]. specialize (Gone Hc). split.
          { intros w [<-|Hw]; [exact Gone|]. intros Q. apply (T0 w Hw). apply Sub. exact Q. }
          intros w Hw Sw. destruct (T1 w (Sub w Hw) Sw) as [S1 S2].
          assert (Nwv : w <> v) by (intros ->; contradiction).
          assert (Rt : refines true (i_graph s) (i_tags s) (i_graph s') (i_tags s') [v] d) by (rewrite Hc in Rl; exact Rl).
          split.
          { destruct S1 as [S1|S1]; [left|right].
            - apply (one_way_stays (i_graph s) (i_graph s') (i_tags s) (i_tags s') v d Rt w Nwv S1).
            - apply (two_way_stays eqp (i_graph s) (i_graph s') (i_tags s) (i_tags s') v d H D Rt M Fit NL Gone Loops w Nwv S1). }
          intros Nw. apply (one_neighbour_stays eqp (i_graph s) (i_graph s') (i_tags s) (i_tags s') v d H D Rt M Fit NL Gone Loops w Nwv S1).
          apply S2. intros [Q|Q]; [congruence|contradiction].
  Qed.

  (** *** renumbering *)
  Lemma reindex_edges_map {B} (f : edge -> B) (g : graph) : (forall k x, f (mkE (e_id x) k (e_src x) (e_tgt x) (e_data x)) = f x) ->
    map f (g_es (reindex g)) = map f (g_es g).
  Proof. intros Hf. unfold reindex. cbn [g_es]. apply reindex_es_map. exact Hf. Qed.
  Lemma reindex_ids (g : graph) : vertex_ids (reindex g) = vertex_ids g.
  Proof. apply reindex_vs_map. reflexivity. Qed.
  Lemma reindex_position (g : graph) v : position (reindex g) v = position g v.
  Proof.
    unfold position, get_vertex, reindex. cbn [g_vs]. generalize 0. induction (g_vs g) as [|x l IH]; intros k; [reflexivity|]. cbn [reindex_vs find v_id].
    destruct (v_id x =? v); [reflexivity|apply IH].
  Qed.

  Lemma refines_reindex complete (g0 : graph) (t0 : tags_state Str) (g : graph) (t : tags_state Str) J c : refines complete g0 t0 g t J c -> refines complete g0 t0 (reindex g) t J c.
  Proof.
    intros R. destruct R.
    assert (K : forall e, In e (g_es (reindex g)) -> exists f, In f (g_es g) /\ e_id e = e_id f /\ e_src e = e_src f /\ e_tgt e = e_tgt f /\ e_data e = e_data f).
    { intros e He. unfold reindex in He. cbn [g_es] in He. apply reindex_es_in in He. exact He. }
    constructor.
    - apply reindex_exact. exact rf_exact.
    - intros e He. destruct (K e He) as (f & Hf & E1 & E2 & E3 & E4). rewrite !reindex_position. unfold line_of. rewrite E2, E3, E4. apply rf_drawn. exact Hf.
    - intros e He. destruct (K e He) as (f & Hf & E1 & E2 & E3 & E4). rewrite E1. destruct (rf_course f Hf) as (x & r & A & B & C & E & F & G).
      exists x, r. unfold id_of, line_of in *. rewrite E2, E3, E4. auto 8.
    - rewrite !flat_map_concat_map in *. rewrite <- (map_map e_id c) in *. rewrite reindex_edges_map by reflexivity. exact rf_all.
    - rewrite reindex_ids. rewrite <- rf_vs. unfold seen_vertices, reindex. cbn [g_vs]. apply reindex_vs_map. reflexivity.
    - intros v Hv Nv. rewrite reindex_ids. auto.
    - intros Hc. destruct (rf_aware Hc) as [A B]. split; [exact A|]. intros e x He Hx. destruct (K e He) as (f & Hf & E1 & E2 & E3 & E4). unfold id_of at 2. rewrite E4. rewrite E1 in Hx.
      apply (B f x Hf Hx).
    - intros e x He Hx. destruct (K e He) as (f & Hf & E1 & E2 & E3 & E4). unfold id_of at 2. rewrite E4. rewrite E1 in Hx. apply (rf_tags f x Hf Hx).
    - exact rf_nodes.
    - exact rf_from.
  Qed.

  Lemma reindex_neighbour (g : graph) v : one_neighbour g v -> one_neighbour (reindex g) v.
  Proof.
    intros N i o Hi Ho. apply ins_of_in in Hi as [Hi Ti]. apply outs_of_in in Ho as [Ho So].
    unfold reindex in Hi, Ho. cbn [g_es] in Hi, Ho. apply reindex_es_in in Hi as (i' & Gi & _ & A & B & _). apply reindex_es_in in Ho as (o' & Go & _ & C & E & _).
    rewrite A, E. apply N; [apply ins_of_in; split; congruence|apply outs_of_in; split; congruence].
  Qed.

  Theorem simplify_ok complete (s : import) : exact Bidirectional (i_graph s) -> drawn (i_graph s) -> i_running s = false -> i_mem s = [] ->
    exists s' J c, simplify eqp complete s = Ok s' /\ refines complete (i_graph s) (i_tags s) (i_graph s') (i_tags s') J c /\
      indexed (i_graph s') /\ i_mem s' = [] /\ i_running s' = false /\ i_set s' = false /\
      NoDup J /\ (forall w, In w J -> two_directions eqp (i_graph s) w) /\
      (complete = true -> (forall w, In w J -> ~ In w (vertex_ids (i_graph s'))) /\
         forall w, In w (vertex_ids (i_graph s')) -> single (i_graph s) w -> one_neighbour (i_graph s') w).
  Proof.
    intros H D Er Em. unfold simplify. rewrite Er. set (s1 := mark true (i_set s) (i_vertex s) s).
    pose proof (refines_start complete (i_graph s) (i_tags s) H D) as R0.
    destruct (loop_ok complete (i_graph s) (i_tags s) H D (map v_id (g_vs (i_graph s))) s1 [] (start (i_graph s))) as (s' & J & c & E & R & Em' & Tj & Nj & T); auto.
    - apply (ex_vid _ _ H).
    - intros w Hw. exact Hw.
    - intros w [].
    - constructor.
    - intros Hc. split; [intros w []|]. intros w Hw Sw. split; [exact Sw|]. intros Nw. exfalso. apply Nw. exact Hw.
    - rewrite E. cbn [bindO]. eexists; exists J, c. split; [reflexivity|]. cbn [i_graph i_tags i_mem i_running i_set mark set_graph].
      split; [apply refines_reindex; exact R|]. split; [apply reindex_indexed|]. split; [exact Em'|]. split; [reflexivity|]. split; [reflexivity|]. split; [exact Nj|]. split; [exact Tj|].
      intros Hc. destruct (T Hc) as [T0 T1]. rewrite reindex_ids. split; [exact T0|]. intros w Hw Sw. apply reindex_neighbour. apply T1; auto.
  Qed.
End Pass.
