(** Proofs about the graph container model, second part: clear_vertex, remove_vertex, histories, copies. *)
From Verif Require Import Base ListAux AdjList AdjListSpec AdjListProofs.

Section Proofs2.
  Context {VD ED : Type}.
  Notation graph := (graph VD ED).
  Notation vertex := (@vertex VD).
  Notation edge := (@edge ED).
  Implicit Types (g : graph) (dir : direction) (es : list edge).
  Local Arguments in_spec : simpl never.
  Local Arguments out_spec : simpl never.

  Lemma out_remove_if_effect g w p b :
    NoDup (vertex_ids g) -> In w (vertex_ids g) ->
    (forall x y, In x (g_vs g) -> v_id x = w -> In y (v_out x) -> p y = Some (b y)) ->
    out_remove_if g w p =
    Ok (mapv (fun x => if v_id x =? w then set_out (filter (fun y => negb (b y)) (v_out x)) x else x) g).
  Proof.
    intros Hnd Hw Hp. unfold out_remove_if. destruct (get_vertex_some g w Hw) as [x E]. rewrite E. cbn [derefO].
    apply get_vertex_in in E as [Hx Ex]. rewrite (remove_if_filter p b) by (intros; eapply Hp; eauto).
    cbn [derefO]. f_equal. rewrite upd_mapv. apply mapv_ext. intros y Hy.
    destruct (Nat.eqb_spec (v_id y) w) as [E|]; [|reflexivity].
    replace y with x; [reflexivity|]. eapply NoDup_map_inj; eauto. congruence.
  Qed.
  Lemma in_remove_if_effect g w p b :
    NoDup (vertex_ids g) -> In w (vertex_ids g) ->
    (forall x y, In x (g_vs g) -> v_id x = w -> In y (v_in x) -> p y = Some (b y)) ->
    in_remove_if g w p =
    Ok (mapv (fun x => if v_id x =? w then set_in (filter (fun y => negb (b y)) (v_in x)) x else x) g).
  Proof.
    intros Hnd Hw Hp. unfold in_remove_if. destruct (get_vertex_some g w Hw) as [x E]. rewrite E. cbn [derefO].
    apply get_vertex_in in E as [Hx Ex]. rewrite (remove_if_filter p b) by (intros; eapply Hp; eauto).
    cbn [derefO]. f_equal. rewrite upd_mapv. apply mapv_ext. intros y Hy.
    destruct (Nat.eqb_spec (v_id y) w) as [E|]; [|reflexivity].
    replace y with x; [reflexivity|]. eapply NoDup_map_inj; eauto. congruence.
  Qed.

  (** vertex records after the edges [done] of [v] were processed *)
  Definition K dir v (done : list nat) (x : vertex) : vertex :=
    if v_id x =? v then x
    else match dir with
         | Directed => x
         | Bidirectional => set_in (filter (fun y => negb (existsb (Nat.eqb y) done)) (v_in x)) x
         | Undirected => set_out (filter (fun y => negb (existsb (Nat.eqb y) done)) (v_out x)) x
         end.
  Lemma K_skel dir v done : skel (K dir v done).
  Proof. intros x. unfold K. destruct (v_id x =? v), dir; cbn; auto. Qed.

  Lemma filter_snoc done e (l : list nat) :
    filter (fun y => negb (existsb (Nat.eqb y) (done ++ [e]))) l =
    filter (fun y => negb (y =? e)) (filter (fun y => negb (existsb (Nat.eqb y) done)) l).
  Proof.
    rewrite filter_filter. apply filter_ext. intros y. rewrite existsb_app. cbn.
    rewrite orb_false_r, negb_orb. reflexivity.
  Qed.
  Lemma filter_absent e (l : list nat) : ~ In e l -> filter (fun y => negb (y =? e)) l = l.
  Proof. intros H. apply filter_true. intros y Hy. apply negb_true_iff, Nat.eqb_neq. intros ->; contradiction. Qed.

  Lemma mapv_graph_vs g f x : In x (g_vs (mapv f g)) -> exists y, In y (g_vs g) /\ x = f y.
  Proof. cbn. intros H. apply in_map_iff in H as (y & E & Hy). eauto. Qed.

  Lemma in_out_iff dir g x ed : exact dir g -> In x (g_vs g) -> In ed (g_es g) ->
    (In (e_id ed) (v_out x) <-> leaves dir (v_id x) ed = true).
  Proof.
    intros H Hx Hed. rewrite (ex_out _ _ H x Hx), in_out_spec. split.
    - intros (e & He & E & L). rewrite <- (eid_inj _ _ _ _ H He Hed E). exact L.
    - intros L. exists ed; auto.
  Qed.
  Lemma in_in_iff g x ed : exact Bidirectional g -> In x (g_vs g) -> In ed (g_es g) ->
    (In (e_id ed) (v_in x) <-> e_tgt ed = v_id x).
  Proof.
    intros H Hx Hed. rewrite (ex_in _ _ H x Hx). unfold in_spec. rewrite in_map_iff. split.
    - intros (e & E & He). apply filter_In in He as [He L]. apply Nat.eqb_eq in L.
      rewrite <- (eid_inj _ _ _ _ H He Hed E). exact L.
    - intros L. exists ed; split; [reflexivity|]. apply filter_In; split; [exact Hed|]. apply Nat.eqb_eq; exact L.
  Qed.

  Lemma K_out_sub dir v done x : forall y, In y (v_out (K dir v done x)) -> In y (v_out x).
  Proof.
    intros y. unfold K. destruct (v_id x =? v), dir; cbn; auto. intros H; apply filter_In in H; tauto.
  Qed.
  Lemma K_in_sub dir v done x : forall y, In y (v_in (K dir v done x)) -> In y (v_in x).
  Proof.
    intros y. unfold K. destruct (v_id x =? v), dir; cbn; auto. intros H; apply filter_In in H; tauto.
  Qed.

  Lemma clear_one_effect dir g v done ed :
    exact dir g -> In v (vertex_ids g) -> In ed (g_es g) -> leaves dir v ed = true ->
    clear_one dir (mapv (K dir v done) g) v (e_id ed) = Ok (mapv (K dir v (done ++ [e_id ed])) g).
  Proof.
    intros H Hv Hed Hl. set (e := e_id ed). set (G := mapv (K dir v done) g).
    assert (Vids : vertex_ids G = vertex_ids g) by apply vertex_ids_mapv, K_skel.
    assert (Eids : edge_ids G = edge_ids g) by reflexivity.
    destruct (ex_end _ _ H ed Hed) as [Hs Ht].
    assert (Hnd : NoDup (vertex_ids G)) by (rewrite Vids; apply (ex_vid _ _ H)).
    assert (He : In e (edge_ids g)) by (apply in_map; exact Hed).
    unfold clear_one. change (get_edge G e) with (get_edge g e). unfold e at 1.
    rewrite (get_edge_of _ _ _ H Hed). cbn [derefO].
    rewrite is_same_vertex_eq by (rewrite Vids; assumption). cbn [derefO].
    destruct (Nat.eqb_spec (e_src ed) (e_tgt ed)) as [Eloop|NEloop].
    { f_equal. apply mapv_ext. intros x Hx. unfold K. destruct (Nat.eqb_spec (v_id x) v) as [|NE]; [reflexivity|].
      assert (Hv2 : e_src ed = v).
      { unfold leaves in Hl. apply orb_true_iff in Hl as [L|L]; [apply Nat.eqb_eq; exact L|].
        destruct dir; try discriminate. apply Nat.eqb_eq in L. congruence. }
      destruct dir; [reflexivity| |]; f_equal; rewrite filter_snoc, filter_absent; auto;
        intros Hin; apply filter_In in Hin as [Hin _].
      - apply (in_in_iff g x ed H Hx Hed) in Hin. congruence.
      - apply (in_out_iff _ g x ed H Hx Hed) in Hin. unfold leaves in Hin.
        apply orb_true_iff in Hin as [L|L]; apply Nat.eqb_eq in L; congruence. }
    (* the predicate with the identity test on a live list *)
    assert (Hpred : forall (G' : graph) (q : edge -> nat), (q = e_src \/ q = e_tgt) ->
              vertex_ids G' = vertex_ids g -> g_es G' = g_es g ->
              forall y, In y (edge_ids g) ->
              match get_edge G' y with
              | None => None
              | Some xe => andO (is_same_vertex G' (q xe) v) (is_same_edge G' y e)
              end = Some ((q ed =? v) && (y =? e))).
    { intros G' q Hq EV EE y Hy. assert (Hy' := Hy). apply in_map_iff in Hy' as (xe & Ex & Hxe).
      unfold get_edge. rewrite EE. change (find (fun x : edge => e_id x =? y) (g_es g)) with (get_edge g y).
      rewrite <- Ex at 1. rewrite (get_edge_of _ _ _ H Hxe).
      rewrite is_same_vertex_eq.
      2:{ rewrite EV. destruct (ex_end _ _ H xe Hxe). destruct Hq as [->| ->]; assumption. }
      2:{ rewrite EV; exact Hv. }
      rewrite is_same_edge_eq by (unfold edge_ids; rewrite EE; assumption).
      cbn. destruct (Nat.eqb_spec y e) as [E|NE].
      - assert (xe = ed) by (eapply eid_inj; eauto; unfold e in E; congruence). subst xe.
        destruct (q ed =? v); reflexivity.
      - rewrite andb_false_r. destruct (q xe =? v); reflexivity. }
    assert (Houtlive : forall x y, In x (g_vs G) -> In y (v_out x) -> In y (edge_ids g)).
    { intros x y Hx Hy. apply mapv_graph_vs in Hx as (x0 & Hx0 & ->). eapply out_ids_live; eauto.
      eapply K_out_sub; eauto. }
    assert (Hinlive : forall x y, In x (g_vs G) -> In y (v_in x) -> In y (edge_ids g)).
    { intros x y Hx Hy. apply mapv_graph_vs in Hx as (x0 & Hx0 & ->). eapply in_ids_live; eauto.
      eapply K_in_sub; eauto. }
    destruct dir.
    - (* directed *)
      cbn [bindO]. assert (Esv : e_src ed = v).
      { unfold leaves in Hl. rewrite orb_false_r in Hl. apply Nat.eqb_eq; exact Hl. }
      rewrite (out_remove_if_effect G (e_tgt ed) _ (fun y => (e_src ed =? v) && (y =? e)));
        [|exact Hnd|rewrite Vids; exact Ht|].
      2:{ intros x y Hx _ Hy. apply (Hpred G e_src); auto. eapply Houtlive; eauto. }
      f_equal. unfold G. rewrite mapv_mapv. apply mapv_ext. intros x Hx.
      destruct (K_skel Directed v done x) as (-> & _).
      assert (EK : forall d, K Directed v d x = x) by (intros d; unfold K; destruct (v_id x =? v); reflexivity).
      rewrite !EK. destruct (Nat.eqb_spec (v_id x) (e_tgt ed)) as [E|NE]; [|reflexivity].
      apply set_out_self. rewrite Esv, Nat.eqb_refl. cbn. symmetry. apply filter_absent.
      intros Hin. apply (in_out_iff _ g x ed H Hx Hed) in Hin. unfold leaves in Hin.
      rewrite orb_false_r in Hin. apply Nat.eqb_eq in Hin. congruence.
    - (* bidirectional *)
      assert (Esv : e_src ed = v).
      { unfold leaves in Hl. rewrite orb_false_r in Hl. apply Nat.eqb_eq; exact Hl. }
      cbn [bindO].
      rewrite (in_remove_if_effect G (e_tgt ed) _ (fun y => (e_src ed =? v) && (y =? e)));
        [|exact Hnd|rewrite Vids; exact Ht|].
      2:{ intros x y Hx _ Hy. apply (Hpred G e_src); auto. eapply Hinlive; eauto. }
      cbn [bindO].
      match goal with |- out_remove_if ?X _ _ = _ => set (G2 := X) end.
      assert (Vids2 : vertex_ids G2 = vertex_ids g).
      { unfold G2. rewrite vertex_ids_mapv; [exact Vids|]. intros x. destruct (v_id x =? e_tgt ed); cbn; auto. }
      rewrite (out_remove_if_effect G2 (e_tgt ed) _ (fun y => (e_src ed =? v) && (y =? e)));
        [|rewrite Vids2; apply (ex_vid _ _ H)|rewrite Vids2; exact Ht|].
      2:{ intros x y Hx _ Hy. apply (Hpred G2 e_src); auto. unfold G2 in Hx.
          apply mapv_graph_vs in Hx as (x0 & Hx0 & ->). eapply Houtlive; eauto.
          destruct (v_id x0 =? e_tgt ed); exact Hy. }
      f_equal. unfold G2, G. rewrite !mapv_mapv. apply mapv_ext. intros x Hx.
      destruct (K_skel Bidirectional v done x) as (-> & _).
      rewrite Esv, Nat.eqb_refl. cbn [andb].
      destruct (Nat.eqb_spec (v_id x) (e_tgt ed)) as [E|NE].
      + assert (Nv : v_id x <> v) by congruence.
        assert (Eo : v_out (K Bidirectional v done x) = v_out x) by (unfold K; destruct (v_id x =? v); reflexivity).
        cbn. destruct (K_skel Bidirectional v done x) as (-> & _). rewrite E, Nat.eqb_refl.
        apply vertex_eta; cbn.
        * rewrite !(proj1 (K_skel _ _ _ x)). reflexivity.
        * rewrite !(proj1 (proj2 (K_skel _ _ _ x))). reflexivity.
        * rewrite !(proj2 (proj2 (K_skel _ _ _ x))). reflexivity.
        * rewrite Eo. rewrite filter_absent.
          -- unfold K; destruct (v_id x =? v); reflexivity.
          -- intros Hin. apply (in_out_iff _ g x ed H Hx Hed) in Hin. unfold leaves in Hin.
             rewrite orb_false_r in Hin. apply Nat.eqb_eq in Hin. congruence.
        * unfold K. destruct (Nat.eqb_spec (v_id x) v); [congruence|]. cbn. rewrite filter_snoc. reflexivity.
      + rewrite (proj1 (K_skel _ _ _ x)). destruct (Nat.eqb_spec (v_id x) (e_tgt ed)); [congruence|].
        unfold K. destruct (Nat.eqb_spec (v_id x) v); [reflexivity|]. f_equal. rewrite filter_snoc, filter_absent; auto.
        intros Hin. apply filter_In in Hin as [Hin _]. apply (in_in_iff g x ed H Hx Hed) in Hin. congruence.
    - (* undirected *)
      assert (Hends : e_src ed = v \/ e_tgt ed = v).
      { unfold leaves in Hl. apply orb_true_iff in Hl as [L|L]; apply Nat.eqb_eq in L; auto. }
      rewrite is_same_vertex_eq by (rewrite Vids; assumption). cbn [derefO].
      destruct (Nat.eqb_spec (e_tgt ed) v) as [Etv|NEtv].
      + rewrite (out_remove_if_effect G (e_src ed) _ (fun y => (e_tgt ed =? v) && (y =? e)));
          [|exact Hnd|rewrite Vids; exact Hs|].
        2:{ intros x y Hx _ Hy. apply (Hpred G e_tgt); auto. eapply Houtlive; eauto. }
        cbn [bindO].
        match goal with |- out_remove_if ?X _ _ = _ => set (G2 := X) end.
        assert (Vids2 : vertex_ids G2 = vertex_ids g).
        { unfold G2. rewrite vertex_ids_mapv; [exact Vids|]. intros x. destruct (v_id x =? e_src ed); cbn; auto. }
        rewrite (out_remove_if_effect G2 (e_tgt ed) _ (fun y => (e_src ed =? v) && (y =? e)));
          [|rewrite Vids2; apply (ex_vid _ _ H)|rewrite Vids2; exact Ht|].
        2:{ intros x y Hx _ Hy. apply (Hpred G2 e_src); auto. unfold G2 in Hx.
            apply mapv_graph_vs in Hx as (x0 & Hx0 & ->). eapply Houtlive; eauto.
            destruct (v_id x0 =? e_src ed); [|exact Hy]. cbn in Hy. apply filter_In in Hy as [Hy _]. exact Hy. }
        f_equal. unfold G2, G. rewrite !mapv_mapv. apply mapv_ext. intros x Hx.
        destruct (K_skel Undirected v done x) as (-> & _).
        rewrite Etv, Nat.eqb_refl. cbn [andb].
        destruct (Nat.eqb_spec (e_src ed) v) as [|NEsv]; [congruence|]. cbn [andb negb].
        assert (Ef : forall l : list nat, filter (fun _ => true) l = l) by (intros; apply filter_true; reflexivity).
        destruct (Nat.eqb_spec (v_id x) (e_src ed)) as [E|NE].
        * cbn. rewrite (proj1 (K_skel _ _ _ x)). destruct (Nat.eqb_spec (v_id x) v) as [|NE2]; [congruence|].
          unfold K. destruct (Nat.eqb_spec (v_id x) v); [congruence|]. cbn. rewrite filter_snoc. reflexivity.
        * rewrite (proj1 (K_skel _ _ _ x)). destruct (Nat.eqb_spec (v_id x) v) as [E2|NE2].
          -- rewrite Ef. rewrite set_out_self by reflexivity. unfold K. rewrite E2, Nat.eqb_refl. reflexivity.
          -- unfold K. destruct (Nat.eqb_spec (v_id x) v); [congruence|]. f_equal. rewrite filter_snoc, filter_absent; auto.
             intros Hin. apply filter_In in Hin as [Hin _]. apply (in_out_iff _ g x ed H Hx Hed) in Hin.
             unfold leaves in Hin. apply orb_true_iff in Hin as [L|L]; apply Nat.eqb_eq in L; congruence.
      + destruct Hends as [Esv|]; [|congruence]. cbn [bindO].
        rewrite (out_remove_if_effect G (e_tgt ed) _ (fun y => (e_src ed =? v) && (y =? e)));
          [|exact Hnd|rewrite Vids; exact Ht|].
        2:{ intros x y Hx _ Hy. apply (Hpred G e_src); auto. eapply Houtlive; eauto. }
        f_equal. unfold G. rewrite !mapv_mapv. apply mapv_ext. intros x Hx.
        rewrite (proj1 (K_skel _ _ _ x)). rewrite Esv, Nat.eqb_refl. cbn [andb].
        destruct (Nat.eqb_spec (v_id x) (e_tgt ed)) as [E|NE].
        * unfold K. destruct (Nat.eqb_spec (v_id x) v); [congruence|]. cbn. rewrite filter_snoc. reflexivity.
        * unfold K. destruct (Nat.eqb_spec (v_id x) v); [reflexivity|]. f_equal. rewrite filter_snoc, filter_absent; auto.
          intros Hin. apply filter_In in Hin as [Hin _]. apply (in_out_iff _ g x ed H Hx Hed) in Hin.
          unfold leaves in Hin. apply orb_true_iff in Hin as [L|L]; apply Nat.eqb_eq in L; congruence.
  Qed.

  Lemma clear_loop_effect dir g v l done :
    exact dir g -> In v (vertex_ids g) ->
    (forall e, In e l -> exists ed, In ed (g_es g) /\ e_id ed = e /\ leaves dir v ed = true) ->
    clear_loop dir (mapv (K dir v done) g) v l = Ok (mapv (K dir v (done ++ l)) g).
  Proof.
    intros H Hv. revert done; induction l as [|e l IH]; intros done Hl.
    - cbn. rewrite app_nil_r. reflexivity.
    - destruct (Hl e (or_introl eq_refl)) as (ed & Hed & <- & L). cbn [clear_loop].
      rewrite (clear_one_effect dir g v done ed H Hv Hed L). cbn [bindO].
      rewrite IH by (intros y Hy; apply Hl; right; exact Hy). rewrite <- app_assoc. reflexivity.
  Qed.

  Definition outs g w : list nat := match get_vertex g w with Some x => v_out x | None => [] end.

  Lemma clear_incoming_effect v todo : forall g acc,
    NoDup (vertex_ids g) -> NoDup todo -> In v (vertex_ids g) ->
    (forall w, In w todo -> In w (vertex_ids g)) ->
    (forall x e, In x (g_vs g) -> In e (v_out x) -> exists ed, get_edge g e = Some ed /\ In (e_tgt ed) (vertex_ids g)) ->
    let hit y := match get_edge g y with Some ye => e_tgt ye =? v | None => false end in
    clear_incoming g v todo acc =
    Ok (mapv (fun x => if existsb (Nat.eqb (v_id x)) todo
                       then set_out (filter (fun y => negb (hit y)) (v_out x)) x else x) g,
        acc ++ flat_map (fun w => filter hit (outs g w)) todo).
  Proof.
    induction todo as [|w r IH]; intros g acc Hnd Htd Hv Hsub Hlive hit.
    - cbn. rewrite app_nil_r. rewrite mapv_id. reflexivity.
    - inversion Htd as [|? ? T1 T2]; subst. cbn [clear_incoming].
      destruct (get_vertex_some g w (Hsub w (or_introl eq_refl))) as [x Ex]. rewrite Ex. cbn [derefO].
      destruct (get_vertex_in _ _ _ Ex) as [Ix Vx].
      set (p := fun y : nat => match get_edge g y with None => None | Some ye => is_same_vertex g (e_tgt ye) v end).
      assert (Hp : forall y, In y (v_out x) -> p y = Some (hit y)).
      { intros y Hy. destruct (Hlive x y Ix Hy) as (ye & Ey & Ht). unfold p, hit. rewrite Ey.
        apply is_same_vertex_eq; assumption. }
      rewrite (remove_if_filter p hit) by exact Hp. cbn [derefO].
      set (f := fun z : vertex => if v_id z =? w then set_out (filter (fun y => negb (hit y)) (v_out x)) z else z).
      change (upd_vertex g w (set_out (filter (fun y => negb (hit y)) (v_out x)))) with (mapv f g).
      assert (Hf : skel f) by (intros z; unfold f; destruct (v_id z =? w); cbn; auto).
      assert (Efil : filter (fun y => match p y with Some true => true | _ => false end) (v_out x) = filter hit (v_out x)).
      { apply filter_ext_in'. intros y Hy. rewrite (Hp y Hy). destruct (hit y); reflexivity. }
      match goal with |- clear_incoming _ _ _ (_ ++ ?F) = _ => change F with (filter (fun y => match p y with Some true => true | _ => false end) (v_out x)) end.
      rewrite Efil. rewrite IH.
      + change (fun y : nat => match get_edge (mapv f g) y with Some ye => e_tgt ye =? v | None => false end) with hit.
        f_equal. f_equal.
        * rewrite mapv_mapv. apply mapv_ext. intros z Hz. cbn [existsb]. destruct (Hf z) as (-> & _).
          unfold f. destruct (Nat.eqb_spec (v_id z) w) as [E|NE].
          -- assert (z = x) by (eapply NoDup_map_inj; eauto; congruence). subst z.
             assert (Enot : existsb (Nat.eqb (v_id x)) r = false).
             { destruct (existsb (Nat.eqb (v_id x)) r) eqn:Ex'; [|reflexivity].
               apply existsb_eqb_In in Ex'. rewrite E in Ex'. contradiction. }
             rewrite Enot. reflexivity.
          -- reflexivity.
        * cbn [flat_map]. rewrite <- app_assoc. f_equal.
          assert (E1 : outs g w = v_out x) by (unfold outs; rewrite Ex; reflexivity). rewrite E1. f_equal.
          apply flat_map_ext_in'. intros w' Hw'. f_equal. unfold outs. rewrite get_vertex_mapv by exact Hf.
          destruct (get_vertex g w') eqn:E; [|reflexivity]. cbn. apply get_vertex_in in E as [_ E].
          unfold f. rewrite E. destruct (Nat.eqb_spec w' w); [congruence|reflexivity].
      + rewrite vertex_ids_mapv; assumption.
      + exact T2.
      + rewrite vertex_ids_mapv; assumption.
      + intros w' Hw'. rewrite vertex_ids_mapv by assumption. apply Hsub; right; exact Hw'.
      + intros z e Hz He. apply mapv_graph_vs in Hz as (z0 & Hz0 & ->). rewrite vertex_ids_mapv by assumption.
        rewrite get_edge_mapv. unfold f in He. destruct (Nat.eqb_spec (v_id z0) w).
        * cbn in He. apply filter_In in He as [He _]. apply (Hlive x); assumption.
        * apply (Hlive z0); assumption.
  Qed.

  Definition survives v (e : edge) : bool := negb (e_src e =? v) && negb (e_tgt e =? v).

  Lemma clear_vertex_effect dir g v :
    exact dir g -> In v (vertex_ids g) ->
    clear_vertex dir g v = Ok (canon dir g (filter (survives v) (g_es g)) (g_next g)).
  Proof.
    intros H Hv. destruct (get_vertex_some g v Hv) as [vx Ev]. destruct (get_vertex_in _ _ _ Ev) as [Iv Vv].
    unfold clear_vertex. rewrite Ev. cbn [derefO].
    assert (Hl : forall e, In e (v_out vx) -> exists ed, In ed (g_es g) /\ e_id ed = e /\ leaves dir v ed = true).
    { intros e He. rewrite (ex_out _ _ H vx Iv), Vv in He. apply in_out_spec in He. exact He. }
    assert (L : clear_loop dir g v (v_out vx) = Ok (mapv (K dir v (v_out vx)) g)).
    { etransitivity; [|exact (clear_loop_effect dir g v (v_out vx) [] H Hv Hl)]. f_equal.
      rewrite <- (mapv_id g) at 1. apply mapv_ext. intros x Hx. unfold K.
      destruct (v_id x =? v); [reflexivity|].
      assert (Ef : forall l : list nat, filter (fun y => negb (existsb (Nat.eqb y) [])) l = l)
        by (intros l; apply filter_true; reflexivity).
      destruct dir; try reflexivity; rewrite Ef; symmetry; [apply set_in_self|apply set_out_self]; reflexivity. }
    rewrite L. cbn [bindO]. clear L.
    set (d1 := v_out vx).
    (* records after clearing v's own lists *)
    set (C := fun x : vertex => if v_id x =? v then mkV (v_id x) (v_index x) (v_data x) [] (match dir with Bidirectional => [] | _ => v_in x end)
                        else K dir v d1 x).
    assert (HC : skel C).
    { intros x. unfold C. destruct (v_id x =? v); cbn; auto. apply K_skel. }
    assert (E3 : upd_vertex (match dir with Bidirectional => upd_vertex (mapv (K dir v d1) g) v (set_in [])
                             | _ => mapv (K dir v d1) g end) v (set_out []) = mapv C g).
    { destruct dir; rewrite !upd_mapv, !mapv_mapv; apply mapv_ext; intros x Hx; unfold C, K;
        destruct (v_id x =? v) eqn:E; cbn; rewrite ?E; cbn; rewrite ?E; reflexivity. }
    rewrite E3. clear E3.
    assert (Vids : vertex_ids (mapv C g) = vertex_ids g) by (apply vertex_ids_mapv; exact HC).
    assert (Nd1 : NoDup d1).
    { unfold d1. rewrite (ex_out _ _ H vx Iv). apply out_spec_NoDup; exact H. }
    assert (Id1 : forall ed, In ed (g_es g) -> (In (e_id ed) d1 <-> leaves dir v ed = true)).
    { intros ed Hed. unfold d1. rewrite (in_out_iff dir g vx ed H Iv Hed), Vv. reflexivity. }
    assert (Ld1 : forall e, In e d1 -> In e (edge_ids g)) by (intros e; apply (out_ids_live dir g vx H Iv)).
    (* pointwise shape of the canonical result *)
    assert (Hout0 : out_spec dir (filter (survives v) (g_es g)) v = []).
    { unfold out_spec. rewrite filter_filter, filter_false; [reflexivity|]. intros e He.
      unfold survives, leaves. destruct (e_src e =? v); cbn; [reflexivity|].
      destruct dir; try apply andb_false_r. destruct (e_tgt e =? v); reflexivity. }
    assert (Hin0 : in_spec dir (filter (survives v) (g_es g)) v = []).
    { unfold in_spec. destruct dir; try reflexivity. rewrite filter_filter, filter_false; [reflexivity|].
      intros e He. unfold survives. destruct (e_tgt e =? v); [|apply andb_false_r]. rewrite andb_false_r. reflexivity. }
    destruct dir eqn:Edir.
    3:{ (* undirected *)
      rewrite erase_edges_effect; [|exact Nd1|exact Ld1].
      f_equal. unfold set_es, canon, mapv; cbn. f_equal.
      - apply map_ext_in. intros x Hx. unfold C, canon1. destruct (Nat.eqb_spec (v_id x) v) as [E|NE].
        + apply vertex_eta; cbn; auto; rewrite E; [rewrite Hout0; reflexivity|].
          rewrite (ex_in _ _ H x Hx). reflexivity.
        + unfold K. destruct (Nat.eqb_spec (v_id x) v); [congruence|]. apply vertex_eta; cbn; auto.
          * rewrite (ex_out _ _ H x Hx). apply out_spec_filter. intros e He Hlx.
            unfold survives. rewrite <- negb_orb. f_equal.
            assert (Ex : existsb (Nat.eqb (e_id e)) d1 = leaves Undirected v e).
            { destruct (leaves Undirected v e) eqn:El.
              - apply existsb_eqb_In. apply Id1; assumption.
              - destruct (existsb _ d1) eqn:X; [|reflexivity]. apply existsb_eqb_In in X. apply (Id1 e He) in X. congruence. }
            rewrite Ex. unfold leaves. reflexivity.
          * apply (ex_in _ _ H); exact Hx.
      - apply filter_ext_in'. intros e He. unfold survives. rewrite <- negb_orb. f_equal.
        destruct (existsb (Nat.eqb (e_id e)) d1) eqn:X.
        + apply existsb_eqb_In in X. apply (Id1 e He) in X. symmetry; exact X.
        + destruct ((e_src e =? v) || (e_tgt e =? v)) eqn:Y; [|reflexivity]. exfalso.
          assert (In (e_id e) d1) by (apply Id1; [exact He|exact Y]).
          apply existsb_eqb_In in H0. congruence. }
    1,2: rewrite clear_incoming_effect;
      [ | rewrite Vids; apply (ex_vid _ _ H)
        | change (NoDup (vertex_ids (mapv C g))); rewrite Vids; apply (ex_vid _ _ H)
        | rewrite Vids; exact Hv
        | intros w Hw; exact Hw
        | intros x e Hx He; apply mapv_graph_vs in Hx as (x0 & Hx0 & ->); rewrite Vids, get_edge_mapv;
          assert (He0 : In e (v_out x0)) by
            (unfold C in He; destruct (v_id x0 =? v); [destruct He|apply K_out_sub in He; exact He]);
          rewrite (ex_out _ _ H x0 Hx0) in He0; apply in_out_spec in He0 as (ed & Hed & <- & _);
          exists ed; split; [apply (get_edge_of _ _ _ H Hed)|apply (ex_end _ _ H); exact Hed] ].
    all: cbn [app].
    all: set (hit := fun y : nat => match get_edge (mapv C g) y with Some ye => e_tgt ye =? v | None => false end).
    all: assert (Hhit : forall e, In e (g_es g) -> hit (e_id e) = (e_tgt e =? v))
      by (intros e He; unfold hit; rewrite get_edge_mapv, (get_edge_of _ _ _ H He); reflexivity).
    all: set (d2 := flat_map (fun w => filter hit (outs (mapv C g) w)) (map v_id (g_vs (mapv C g)))).
    all: assert (Houts : forall w y, In y (outs (mapv C g) w) ->
           exists e, In e (g_es g) /\ e_id e = y /\ e_src e = w /\ w <> v).
    1,3: (intros w y; unfold outs; rewrite get_vertex_mapv by exact HC;
      destruct (get_vertex g w) as [x|] eqn:Ew; cbn [option_map]; [|intros []];
      apply get_vertex_in in Ew as [Ix Vx]; unfold C; destruct (Nat.eqb_spec (v_id x) v) as [E|NE]; [intros []|];
      intros Hy; apply K_out_sub in Hy; rewrite (ex_out _ _ H x Ix) in Hy; apply in_out_spec in Hy as (e & He & Ee & Le);
      exists e; repeat split; auto; [|congruence]; unfold leaves in Le; rewrite orb_false_r in Le;
      apply Nat.eqb_eq in Le; congruence).
    all: assert (Hd2 : forall e, In e (g_es g) -> (In (e_id e) d2 <-> e_tgt e = v /\ e_src e <> v)).
    1,3: (intros e He; unfold d2; rewrite in_flat_map; split;
      [ intros (w & Hw & Hin); apply filter_In in Hin as [Hin Hh]; rewrite (Hhit e He) in Hh; apply Nat.eqb_eq in Hh;
        destruct (Houts w _ Hin) as (e' & He' & Ee & Es & Nw);
        rewrite (eid_inj _ _ _ _ H He' He Ee) in Es; split; [exact Hh|congruence]
      | intros (E1 & E2); exists (e_src e); split;
        [ change (In (e_src e) (vertex_ids (mapv C g))); rewrite Vids; apply (ex_end _ _ H); exact He | ];
        apply filter_In; split; [|rewrite (Hhit e He); apply Nat.eqb_eq; exact E1];
        unfold outs; rewrite get_vertex_mapv by exact HC;
        destruct (get_vertex_some g (e_src e)) as [x Ex]; [apply (ex_end _ _ H); exact He|]; rewrite Ex; cbn [option_map];
        apply get_vertex_in in Ex as [Ix Vx]; unfold C; destruct (Nat.eqb_spec (v_id x) v); [congruence|];
        unfold K; destruct (Nat.eqb_spec (v_id x) v); [congruence|]; cbn;
        apply (in_out_iff _ g x e H Ix He); unfold leaves; rewrite Vx, Nat.eqb_refl; reflexivity ]).
    all: assert (Ld2 : forall y, In y d2 -> exists e, In e (g_es g) /\ e_id e = y)
      by (intros y Hy; unfold d2 in Hy; apply in_flat_map in Hy as (w & _ & Hy); apply filter_In in Hy as [Hy _];
          destruct (Houts w y Hy) as (e & He & Ee & _); eauto).
    all: assert (Nd : NoDup (d1 ++ d2)).
    1,3: (apply NoDup_app';
      [ exact Nd1
      | unfold d2; apply NoDup_flat_map;
        [ change (NoDup (vertex_ids (mapv C g))); rewrite Vids; apply (ex_vid _ _ H)
        | intros w Hw; apply NoDup_filter; unfold outs; rewrite get_vertex_mapv by exact HC;
          destruct (get_vertex g w) as [x|] eqn:Ew; cbn [option_map]; [|constructor];
          apply get_vertex_in in Ew as [Ix Vx]; unfold C; destruct (v_id x =? v); [constructor|];
          unfold K; destruct (v_id x =? v); cbn; rewrite (ex_out _ _ H x Ix); apply out_spec_NoDup; exact H
        | intros a b y _ _ Ha Hb; apply filter_In in Ha as [Ha _]; apply filter_In in Hb as [Hb _];
          destruct (Houts a y Ha) as (e1 & H1 & I1 & S1 & _); destruct (Houts b y Hb) as (e2 & H2 & I2 & S2 & _);
          rewrite (eid_inj _ _ _ _ H H1 H2) in S1 by congruence; congruence ]
      | intros y Hy1 Hy2; destruct (Ld2 y Hy2) as (e & He & <-); apply (Hd2 e He) in Hy2 as [_ Hy2];
        apply (Id1 e He) in Hy1; unfold leaves in Hy1; rewrite orb_false_r in Hy1; apply Nat.eqb_eq in Hy1; congruence ]).
    all: rewrite erase_edges_effect;
      [ | exact Nd
        | intros y Hy; apply in_app_iff in Hy as [Hy|Hy]; [apply Ld1; exact Hy|];
          destruct (Ld2 y Hy) as (e & He & <-); apply in_map; exact He ].
    all: assert (Hdel : forall e, In e (g_es g) -> existsb (Nat.eqb (e_id e)) (d1 ++ d2) = negb (survives v e)).
    1,3: (intros e He; unfold survives; rewrite <- negb_orb, negb_involutive;
      destruct ((e_src e =? v) || (e_tgt e =? v)) eqn:Y;
      [ apply existsb_eqb_In; apply in_app_iff; destruct (Nat.eqb_spec (e_src e) v) as [Es|Ns];
        [ left; apply (Id1 e He); unfold leaves; rewrite Es, Nat.eqb_refl; reflexivity
        | right; apply (Hd2 e He); cbn in Y; apply Nat.eqb_eq in Y; auto ]
      | destruct (existsb _ (d1 ++ d2)) eqn:X; [|reflexivity]; apply existsb_eqb_In in X; exfalso;
        apply orb_false_iff in Y as [Y1 Y2]; apply Nat.eqb_neq in Y1, Y2;
        apply in_app_iff in X as [X|X];
        [ apply (Id1 e He) in X; unfold leaves in X; rewrite orb_false_r in X; apply Nat.eqb_eq in X; congruence
        | apply (Hd2 e He) in X; tauto ] ]).
    all: f_equal; rewrite mapv_mapv; unfold set_es, mapv, canon; cbn; f_equal;
      [|apply filter_ext_in'; intros e He; transitivity (negb (negb (survives v e))); [f_equal; exact (Hdel e He)|apply negb_involutive]].
    all: apply map_ext_in; intros x Hx.
    all: assert (Hmem : existsb (Nat.eqb (v_id (C x))) (map v_id (map C (g_vs g))) = true)
      by (apply existsb_eqb_In; apply in_map, in_map; exact Hx).
    all: rewrite Hmem.
    all: destruct (HC x) as (C1 & C2 & C3).
    all: apply vertex_eta; cbn; auto.
    - (* directed out *)
      unfold C. destruct (Nat.eqb_spec (v_id x) v) as [E|NE]; cbn; [rewrite E, Hout0; reflexivity|].
      unfold K. destruct (Nat.eqb_spec (v_id x) v); [congruence|]. rewrite (ex_out _ _ H x Hx).
      apply out_spec_filter. intros e He Le. transitivity (negb (e_tgt e =? v)); [f_equal; exact (Hhit e He)|].
      unfold survives, leaves in *.
      rewrite orb_false_r in Le. apply Nat.eqb_eq in Le. destruct (Nat.eqb_spec (e_src e) v); [congruence|reflexivity].
    - unfold C. destruct (Nat.eqb_spec (v_id x) v) as [E|NE]; cbn; [apply (ex_in _ _ H); exact Hx|].
      unfold K. destruct (v_id x =? v); apply (ex_in _ _ H); exact Hx.
    - unfold C. destruct (Nat.eqb_spec (v_id x) v) as [E|NE]; cbn; [rewrite E, Hout0; reflexivity|].
      unfold K. destruct (Nat.eqb_spec (v_id x) v); [congruence|]. cbn. rewrite (ex_out _ _ H x Hx).
      apply out_spec_filter. intros e He Le. transitivity (negb (e_tgt e =? v)); [f_equal; exact (Hhit e He)|].
      unfold survives, leaves in *.
      rewrite orb_false_r in Le. apply Nat.eqb_eq in Le. destruct (Nat.eqb_spec (e_src e) v); [congruence|reflexivity].
    - unfold C. destruct (Nat.eqb_spec (v_id x) v) as [E|NE]; cbn; [rewrite E, Hin0; reflexivity|].
      unfold K. destruct (Nat.eqb_spec (v_id x) v); [congruence|]. cbn. rewrite (ex_in _ _ H x Hx).
      apply in_spec_filter. intros e He Et. unfold survives. rewrite Et.
      destruct (Nat.eqb_spec (v_id x) v); [congruence|]. rewrite andb_true_r. f_equal.
      destruct (Nat.eqb_spec (e_src e) v) as [Es|Ns].
      + apply existsb_eqb_In, (Id1 e He). unfold leaves. rewrite Es, Nat.eqb_refl. reflexivity.
      + destruct (existsb _ d1) eqn:X; [|reflexivity]. apply existsb_eqb_In in X. apply (Id1 e He) in X.
        unfold leaves in X. rewrite orb_false_r in X. apply Nat.eqb_eq in X. congruence.
  Qed.
End Proofs2.
