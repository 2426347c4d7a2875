(** Proofs about the graph container model. *)
From Verif Require Import Base ListAux AdjList AdjListSpec.

Section Proofs.
  Context {VD ED : Type}.
  Notation graph := (graph VD ED).
  Notation vertex := (@vertex VD).
  Notation edge := (@edge ED).
  Implicit Types (g : graph) (dir : direction) (es : list edge).

  Lemma try_add_good {A} (c : list A) x : try_add c x Good = (c ++ [x], true).
  Proof. reflexivity. Qed.
  Lemma try_add_bad {A} (c : list A) x k : try_add c x (Bad k) = (c, false).
  Proof.
    cbn. rewrite pop_back_until_firstn by lia.
    rewrite firstn_app, Nat.sub_diag, firstn_all, firstn_O, app_nil_r. reflexivity.
  Qed.

  (** pointwise change of the vertex records *)
  Definition mapv (f : vertex -> vertex) g : graph := mkG (map f (g_vs g)) (g_es g) (g_next g).
  Definition skel (f : vertex -> vertex) : Prop :=
    forall x, v_id (f x) = v_id x /\ v_index (f x) = v_index x /\ v_data (f x) = v_data x.

  (** vertex record with the lists prescribed for edge list [es] *)
  Definition canon1 dir (es : list edge) (x : vertex) : vertex :=
    mkV (v_id x) (v_index x) (v_data x) (out_spec dir es (v_id x)) (in_spec dir es (v_id x)).
  Definition canon dir g (es : list edge) n : graph := mkG (map (canon1 dir es) (g_vs g)) es n.

  Lemma vertex_eta (x y : vertex) :
    v_id x = v_id y -> v_index x = v_index y -> v_data x = v_data y -> v_out x = v_out y -> v_in x = v_in y -> x = y.
  Proof. destruct x, y; cbn; intros; subst; reflexivity. Qed.

  Lemma canon_ids dir g es n : vertex_ids (canon dir g es n) = vertex_ids g.
  Proof. unfold vertex_ids, canon; cbn. rewrite map_map. reflexivity. Qed.

  Lemma canon_self dir g : exact dir g -> canon dir g (g_es g) (g_next g) = g.
  Proof.
    intros H. destruct g as [vs es n]. unfold canon; cbn. f_equal.
    rewrite <- (map_id vs) at 2. apply map_ext_in. intros x Hx.
    apply vertex_eta; cbn; auto; symmetry; [apply (ex_out _ _ H)|apply (ex_in _ _ H)]; exact Hx.
  Qed.

  Lemma exact_canon dir g es n :
    exact dir g ->
    NoDup (map e_id es) -> g_next g <= n ->
    (forall e, In e es -> e_id e < n) ->
    (forall e, In e es -> In (e_src e) (vertex_ids g) /\ In (e_tgt e) (vertex_ids g)) ->
    exact dir (canon dir g es n).
  Proof.
    intros H Hnd Hn Hlt Hend. constructor.
    - rewrite canon_ids. apply (ex_vid _ _ H).
    - exact Hnd.
    - intros x Hx. cbn in Hx. apply in_map_iff in Hx as (y & <- & Hy). cbn.
      pose proof (ex_vlt _ _ H y Hy). lia.
    - exact Hlt.
    - intros e He. rewrite canon_ids. apply Hend; exact He.
    - intros x Hx. cbn in Hx. apply in_map_iff in Hx as (y & <- & Hy). reflexivity.
    - intros x Hx. cbn in Hx. apply in_map_iff in Hx as (y & <- & Hy). reflexivity.
  Qed.

  Lemma exact_filter dir g (p : edge -> bool) :
    exact dir g -> exact dir (canon dir g (filter p (g_es g)) (g_next g)).
  Proof.
    intros H. apply exact_canon; auto.
    - apply NoDup_map_filter. apply (ex_eid _ _ H).
    - intros e He; apply filter_In in He as [He _]. apply (ex_elt _ _ H); exact He.
    - intros e He; apply filter_In in He as [He _]. apply (ex_end _ _ H); exact He.
  Qed.

  (** lookups *)
  Lemma get_vertex_in g v x : get_vertex g v = Some x -> In x (g_vs g) /\ v_id x = v.
  Proof.
    intros E. apply find_some in E as [E1 E2]. apply Nat.eqb_eq in E2. auto.
  Qed.
  Lemma get_edge_in g e x : get_edge g e = Some x -> In x (g_es g) /\ e_id x = e.
  Proof.
    intros E. apply find_some in E as [E1 E2]. apply Nat.eqb_eq in E2. auto.
  Qed.
  Lemma get_vertex_some g v : In v (vertex_ids g) -> exists x, get_vertex g v = Some x.
  Proof.
    intros H. apply in_map_iff in H as (x & Hx & Hin). unfold get_vertex.
    destruct (find (fun x0 : vertex => v_id x0 =? v) (g_vs g)) eqn:E; [eauto|].
    exfalso. apply (find_none _ _ E x) in Hin. apply Nat.eqb_neq in Hin. congruence.
  Qed.
  Lemma get_vertex_none g v : ~ In v (vertex_ids g) -> get_vertex g v = None.
  Proof.
    intros H. destruct (get_vertex g v) eqn:E; [|reflexivity].
    apply get_vertex_in in E as [E1 E2]. exfalso; apply H. rewrite <- E2. apply in_map; exact E1.
  Qed.
  Lemma get_edge_of dir g e : exact dir g -> In e (g_es g) -> get_edge g (e_id e) = Some e.
  Proof. intros H Hin. apply find_unique; [apply (ex_eid _ _ H)|exact Hin]. Qed.
  Lemma get_edge_mapv g f e : get_edge (mapv f g) e = get_edge g e.
  Proof. reflexivity. Qed.
  Lemma vertex_ids_mapv g f : skel f -> vertex_ids (mapv f g) = vertex_ids g.
  Proof.
    intros Hf. unfold vertex_ids, mapv; cbn. rewrite map_map. apply map_ext; intros x; apply Hf.
  Qed.
  Lemma get_vertex_mapv g f v : skel f -> get_vertex (mapv f g) v = option_map f (get_vertex g v).
  Proof.
    intros Hf. unfold get_vertex, mapv; cbn. induction (g_vs g) as [|x l IH]; cbn; [reflexivity|].
    destruct (Hf x) as [-> _]. destruct (v_id x =? v); [reflexivity|exact IH].
  Qed.
  Lemma upd_mapv g v f : upd_vertex g v f = mapv (fun x => if v_id x =? v then f x else x) g.
  Proof. reflexivity. Qed.
  Lemma mapv_mapv g f h : mapv f (mapv h g) = mapv (fun x => f (h x)) g.
  Proof. unfold mapv; cbn. rewrite map_map. reflexivity. Qed.
  Lemma mapv_ext g f h : (forall x, In x (g_vs g) -> f x = h x) -> mapv f g = mapv h g.
  Proof. intros H. unfold mapv. f_equal. apply map_ext_in; exact H. Qed.
  Lemma mapv_id g : mapv (fun x => x) g = g.
  Proof. destruct g; unfold mapv; cbn. rewrite map_id. reflexivity. Qed.

  Lemma is_same_vertex_eq g a b :
    In a (vertex_ids g) -> In b (vertex_ids g) -> is_same_vertex g a b = Some (a =? b).
  Proof.
    intros Ha Hb. unfold is_same_vertex.
    destruct (get_vertex_some g a Ha) as [x Ex], (get_vertex_some g b Hb) as [y Ey].
    rewrite Ex, Ey. apply get_vertex_in in Ex as [_ Ex], Ey as [_ Ey]. congruence.
  Qed.
  Lemma is_same_edge_eq g a b :
    In a (edge_ids g) -> In b (edge_ids g) -> is_same_edge g a b = Some (a =? b).
  Proof.
    intros Ha Hb. unfold is_same_edge.
    assert (K : forall c, In c (edge_ids g) -> exists x, get_edge g c = Some x /\ e_id x = c).
    { intros c Hc. apply in_map_iff in Hc as (x & Hx & Hin). unfold get_edge.
      destruct (find (fun y : edge => e_id y =? c) (g_es g)) eqn:E.
      - apply find_some in E as [_ E]. apply Nat.eqb_eq in E. eauto.
      - apply (find_none _ _ E x) in Hin. apply Nat.eqb_neq in Hin. congruence. }
    destruct (K a Ha) as (x & Ex & Hx), (K b Hb) as (y & Ey & Hy). rewrite Ex, Ey. congruence.
  Qed.

  Lemma remove_if_filter (p : nat -> option bool) (f : nat -> bool) l :
    (forall x, In x l -> p x = Some (f x)) -> remove_if p l = Some (filter (fun x => negb (f x)) l).
  Proof.
    induction l as [|x l IH]; intros H; [reflexivity|]. cbn.
    rewrite (H x) by (left; reflexivity). rewrite IH by (intros y Hy; apply H; right; exact Hy).
    destruct (f x); reflexivity.
  Qed.

  Lemma out_spec_app dir es e v :
    out_spec dir (es ++ [e]) v = if leaves dir v e then out_spec dir es v ++ [e_id e] else out_spec dir es v.
  Proof.
    unfold out_spec. rewrite filter_app, map_app. cbn. destruct (leaves dir v e); cbn; [|rewrite app_nil_r]; reflexivity.
  Qed.
  Lemma in_spec_app dir es e v :
    in_spec dir (es ++ [e]) v =
    match dir with
    | Bidirectional => if e_tgt e =? v then in_spec dir es v ++ [e_id e] else in_spec dir es v
    | _ => in_spec dir es v
    end.
  Proof.
    destruct dir; cbn; try reflexivity. rewrite filter_app, map_app. cbn.
    destruct (e_tgt e =? v); cbn; [|rewrite app_nil_r]; reflexivity.
  Qed.

  Lemma out_spec_fresh dir g v : exact dir g -> ~ In v (vertex_ids g) -> out_spec dir (g_es g) v = [] /\ in_spec dir (g_es g) v = [].
  Proof.
    intros H Hv. assert (K : forall e, In e (g_es g) -> e_src e <> v /\ e_tgt e <> v).
    { intros e He. destruct (ex_end _ _ H e He) as [H1 H2]. split; intros E; subst v; contradiction. }
    split.
    - unfold out_spec. rewrite filter_false; [reflexivity|]. intros e He. destruct (K e He).
      unfold leaves. apply orb_false_iff; split; [|destruct dir; auto]; apply Nat.eqb_neq; assumption.
    - destruct dir; cbn; try reflexivity. rewrite filter_false; [reflexivity|].
      intros e He. apply Nat.eqb_neq. apply (K e He).
  Qed.

  Lemma next_fresh dir g : exact dir g -> ~ In (g_next g) (vertex_ids g).
  Proof.
    intros H Hin. apply in_map_iff in Hin as (x & E & Hin). pose proof (ex_vlt _ _ H x Hin). lia.
  Qed.

  (** *** add_vertex *)
  Definition new_vertex g (d : VD) : vertex := mkV (g_next g) (length (g_vs g)) d [] [].

  Lemma add_vertex_good g d :
    add_vertex g d Good = Ok (mkG (g_vs g ++ [new_vertex g d]) (g_es g) (S (g_next g)), Some (g_next g)).
  Proof. reflexivity. Qed.
  Lemma add_vertex_bad g d k : add_vertex g d (Bad k) = Throw (g, None).
  Proof. unfold add_vertex. rewrite try_add_bad. destruct g; reflexivity. Qed.

  Lemma add_vertex_exact dir g d :
    exact dir g -> exact dir (mkG (g_vs g ++ [new_vertex g d]) (g_es g) (S (g_next g))).
  Proof.
    intros H. pose proof (next_fresh _ _ H) as Hf. destruct (out_spec_fresh _ _ _ H Hf) as [F1 F2].
    constructor; unfold vertex_ids, edge_ids; cbn.
    - rewrite map_app; cbn. apply (Permutation_NoDup (l := g_next g :: map v_id (g_vs g))).
      + apply Permutation_cons_append.
      + constructor; [exact Hf|apply (ex_vid _ _ H)].
    - apply (ex_eid _ _ H).
    - intros x Hx. apply in_app_iff in Hx as [Hx|[<-|[]]]; cbn; [|lia]. pose proof (ex_vlt _ _ H x Hx). lia.
    - intros e He. pose proof (ex_elt _ _ H e He). lia.
    - intros e He. rewrite map_app, !in_app_iff. pose proof (ex_end _ _ H e He). tauto.
    - intros x Hx. apply in_app_iff in Hx as [Hx|[<-|[]]]; [apply (ex_out _ _ H); exact Hx|].
      cbn. symmetry; exact F1.
    - intros x Hx. apply in_app_iff in Hx as [Hx|[<-|[]]]; [apply (ex_in _ _ H); exact Hx|].
      cbn. symmetry; exact F2.
  Qed.

  (** *** add_edge *)
  Definition new_edge g s t (d : ED) : edge := mkE (g_next g) (length (g_es g)) s t d.

  Lemma removelast_snoc {A} (l : list A) x : removelast (l ++ [x]) = l.
  Proof. rewrite removelast_app by discriminate. cbn. apply app_nil_r. Qed.

  Lemma edges_tidy_snoc vs es n e :
    edges_tidy (e_id e) (mkG vs (es ++ [e]) n : graph) = mkG vs es n.
  Proof.
    unfold edges_tidy; cbn. rewrite rev_app_distr; cbn. rewrite Nat.eqb_refl. unfold set_es; cbn.
    rewrite removelast_snoc. reflexivity.
  Qed.

  Lemma map_upd_id vs v (f : vertex -> vertex) :
    (forall x, In x vs -> v_id x = v -> f x = x) -> map (fun x => if v_id x =? v then f x else x) vs = vs.
  Proof.
    intros H. rewrite <- (map_id vs) at 2. apply map_ext_in. intros x Hx.
    destruct (Nat.eqb_spec (v_id x) v) as [E|NE]; auto.
  Qed.

  Lemma set_out_self (x : vertex) l : v_out x = l -> set_out l x = x.
  Proof. intros <-. destruct x; reflexivity. Qed.
  Lemma set_in_self (x : vertex) l : v_in x = l -> set_in l x = x.
  Proof. intros <-. destruct x; reflexivity. Qed.

  Lemma get_vertex_unique dir g x : exact dir g -> In x (g_vs g) -> get_vertex g (v_id x) = Some x.
  Proof. intros H Hin. apply find_unique; [apply (ex_vid _ _ H)|exact Hin]. Qed.

  Lemma same_vertex dir g x y : exact dir g -> In x (g_vs g) -> In y (g_vs g) -> v_id x = v_id y -> x = y.
  Proof. intros H Hx Hy E. eapply NoDup_map_inj; eauto. apply (ex_vid _ _ H). Qed.

  Local Arguments in_spec : simpl never.
  Local Arguments out_spec : simpl never.

  Lemma add_edge_effect dir g s t d a1 a2 a3 :
    exact dir g -> In s (vertex_ids g) -> In t (vertex_ids g) ->
    add_edge dir g s t d a1 a2 a3 =
    if add_edge_succeeds dir s t a1 a2 a3
    then Ok (canon dir g (g_es g ++ [new_edge g s t d]) (S (g_next g)), Some (g_next g))
    else Throw (g, None).
  Proof.
    intros H Hs Ht.
    destruct (get_vertex_some _ _ Hs) as [sv Es], (get_vertex_some _ _ Ht) as [tv Et].
    destruct (get_vertex_in _ _ _ Es) as [Is Vs], (get_vertex_in _ _ _ Et) as [It Vt].
    unfold add_edge. rewrite Es. cbn [derefO].
    destruct a1 as [|k1]; [rewrite try_add_good|rewrite try_add_bad; destruct g; reflexivity].
    change (get_vertex (set_es g (g_es g ++ [mkE (g_next g) (length (g_es g)) s t d])) s) with (get_vertex g s).
    rewrite Es. cbn [derefO].
    destruct a2 as [|k2].
    2:{ rewrite try_add_bad. cbn. f_equal. f_equal. unfold upd_vertex, set_es; cbn.
        rewrite (edges_tidy_snoc _ (g_es g) (g_next g) (new_edge g s t d)).
        destruct g as [vs es n]; cbn in *. f_equal. apply map_upd_id.
        intros x Hx E. apply set_out_self. assert (x = sv) by (eapply same_vertex; eauto; congruence).
        subst; reflexivity. }
    rewrite try_add_good. set (ne := new_edge g s t d).
    change (mkE (g_next g) (length (g_es g)) s t d) with ne.
    set (f1 := fun x : vertex => if v_id x =? s then set_out (v_out sv ++ [g_next g]) x else x).
    set (g1 := set_es g (g_es g ++ [ne])).
    change (upd_vertex g1 s (set_out (v_out sv ++ [g_next g]))) with (mapv f1 g1).
    assert (Hf1 : skel f1) by (intros x; unfold f1; destruct (v_id x =? s); cbn; auto).
    assert (Hcan : forall f2 : vertex -> vertex,
              (forall x, In x (g_vs g) -> f2 (f1 x) = canon1 dir (g_es g ++ [ne]) x) ->
              bump (mapv f2 (mapv f1 g1)) = canon dir g (g_es g ++ [ne]) (S (g_next g))).
    { intros f2 Hf2. rewrite mapv_mapv. unfold bump, canon, mapv; cbn. f_equal.
      apply map_ext_in; exact Hf2. }
    assert (Hpt : forall x, In x (g_vs g) -> v_out x = out_spec dir (g_es g) (v_id x) /\
                                       v_in x = in_spec dir (g_es g) (v_id x) /\
                                       (v_id x = s -> x = sv) /\ (v_id x = t -> x = tv)).
    { intros x Hx. split; [apply (ex_out _ _ H); exact Hx|]. split; [apply (ex_in _ _ H); exact Hx|].
      split; intros E; eapply same_vertex; eauto; congruence. }
    destruct dir.
    - (* directed *)
      unfold add_edge_succeeds; cbn. f_equal. f_equal.
      rewrite <- (mapv_id (mapv f1 g1)). apply (Hcan (fun x => x)). intros x Hx.
      destruct (Hpt x Hx) as (Ho & Hi & E1 & E2).
      unfold f1, canon1. rewrite out_spec_app, in_spec_app. unfold leaves; cbn.
      rewrite orb_false_r, (Nat.eqb_sym s). destruct (Nat.eqb_spec (v_id x) s) as [E|NE].
      + rewrite (E1 E) in *. apply vertex_eta; cbn; auto. rewrite Ho. reflexivity.
      + apply vertex_eta; cbn; auto.
    - (* bidirectional *)
      rewrite get_vertex_mapv by exact Hf1. change (get_vertex g1 t) with (get_vertex g t). rewrite Et.
      cbn [option_map derefO].
      assert (Hin : v_in (f1 tv) = v_in tv) by (unfold f1; destruct (v_id tv =? s); reflexivity).
      unfold add_edge_succeeds; destruct a3 as [|k3]; cbn [good andb].
      + rewrite try_add_good. f_equal. f_equal.
        rewrite upd_mapv. apply Hcan. intros x Hx.
        destruct (Hpt x Hx) as (Ho & Hi & E1 & E2).
        destruct (Hf1 x) as [-> _]. unfold canon1. rewrite out_spec_app, in_spec_app. unfold leaves; cbn.
        rewrite orb_false_r, (Nat.eqb_sym s), (Nat.eqb_sym t), Hin. unfold f1.
        destruct (Nat.eqb_spec (v_id x) t) as [Et'|NEt]; destruct (Nat.eqb_spec (v_id x) s) as [Es'|NEs];
          apply vertex_eta; cbn; auto;
          try (pose proof (E1 Es')); try (pose proof (E2 Et')); congruence.
      + rewrite try_add_bad. f_equal. f_equal.
        rewrite upd_mapv.
        set (f2 := fun x : vertex => if v_id x =? t then set_in (v_in (f1 tv)) x else x).
        assert (Hf2 : skel f2) by (intros x; unfold f2; destruct (v_id x =? t); cbn; auto).
        unfold source_out_edges_tidy.
        rewrite get_vertex_mapv, get_vertex_mapv by assumption.
        change (get_vertex g1 s) with (get_vertex g s). rewrite Es. cbn [option_map].
        assert (Hout : v_out (f2 (f1 sv)) = v_out sv ++ [g_next g]).
        { unfold f2, f1. rewrite Vs, Nat.eqb_refl. cbn. rewrite Vs. destruct (s =? t); reflexivity. }
        rewrite Hout, rev_app_distr; cbn [rev app]. rewrite Nat.eqb_refl, removelast_snoc, upd_mapv.
        rewrite mapv_mapv, mapv_mapv. unfold mapv, g1; cbn.
        rewrite (edges_tidy_snoc _ (g_es g) (g_next g) ne).
        destruct g as [vs es n]; cbn in *. f_equal. rewrite <- (map_id vs) at 2.
        apply map_ext_in. intros x Hx. destruct (Hpt x Hx) as (Ho & Hi & E1 & E2).
        destruct (Hf2 (f1 x)) as (-> & _). destruct (Hf1 x) as (-> & _).
        unfold f2. destruct (Hf1 x) as (-> & _). rewrite Hin. unfold f1.
        destruct (Nat.eqb_spec (v_id x) t) as [Et'|NEt]; destruct (Nat.eqb_spec (v_id x) s) as [Es'|NEs];
          apply vertex_eta; cbn; auto;
          try (pose proof (E1 Es')); try (pose proof (E2 Et')); congruence.
    - (* undirected *)
      rewrite get_vertex_mapv by exact Hf1. change (get_vertex g1 t) with (get_vertex g t). rewrite Et.
      cbn [option_map derefO].
      unfold add_edge_succeeds. destruct (Nat.eqb_spec s t) as [Est|NEst]; cbn [good andb orb].
      + f_equal. f_equal. rewrite <- (mapv_id (mapv f1 g1)). apply (Hcan (fun x => x)). intros x Hx.
        destruct (Hpt x Hx) as (Ho & Hi & E1 & E2).
        unfold f1, canon1. rewrite out_spec_app, in_spec_app. unfold leaves; cbn. rewrite <- Est.
        rewrite orb_diag, (Nat.eqb_sym s). destruct (Nat.eqb_spec (v_id x) s) as [E|NE].
        * rewrite (E1 E) in *. apply vertex_eta; cbn; auto. rewrite Ho. reflexivity.
        * apply vertex_eta; cbn; auto.
      + assert (Hout : v_out (f1 tv) = v_out tv).
        { unfold f1. rewrite Vt. destruct (Nat.eqb_spec t s); [congruence|reflexivity]. }
        destruct a3 as [|k3]; cbn [good].
        * rewrite try_add_good. f_equal. f_equal.
          rewrite upd_mapv. apply Hcan. intros x Hx.
          destruct (Hpt x Hx) as (Ho & Hi & E1 & E2).
          destruct (Hf1 x) as [-> _]. unfold canon1. rewrite out_spec_app, in_spec_app. unfold leaves; cbn.
          rewrite (Nat.eqb_sym s), (Nat.eqb_sym t), Hout. unfold f1.
          destruct (Nat.eqb_spec (v_id x) t) as [Et'|NEt]; destruct (Nat.eqb_spec (v_id x) s) as [Es'|NEs];
            try congruence; apply vertex_eta; cbn; auto;
            try (pose proof (E1 Es')); try (pose proof (E2 Et')); congruence.
        * rewrite try_add_bad. f_equal. f_equal.
          rewrite upd_mapv.
          set (f2 := fun x : vertex => if v_id x =? t then set_out (v_out (f1 tv)) x else x).
          assert (Hf2 : skel f2) by (intros x; unfold f2; destruct (v_id x =? t); cbn; auto).
          unfold source_out_edges_tidy.
          rewrite get_vertex_mapv, get_vertex_mapv by assumption.
          change (get_vertex g1 s) with (get_vertex g s). rewrite Es. cbn [option_map].
          assert (Hout2 : v_out (f2 (f1 sv)) = v_out sv ++ [g_next g]).
          { unfold f2, f1. rewrite Vs, Nat.eqb_refl. cbn. rewrite Vs.
            destruct (Nat.eqb_spec s t); [congruence|reflexivity]. }
          rewrite Hout2, rev_app_distr; cbn [rev app]. rewrite Nat.eqb_refl, removelast_snoc, upd_mapv.
          rewrite mapv_mapv, mapv_mapv. unfold mapv, g1; cbn.
          rewrite (edges_tidy_snoc _ (g_es g) (g_next g) ne).
          destruct g as [vs es n]; cbn in *. f_equal. rewrite <- (map_id vs) at 2.
          apply map_ext_in. intros x Hx. destruct (Hpt x Hx) as (Ho & Hi & E1 & E2).
          destruct (Hf2 (f1 x)) as (-> & _). destruct (Hf1 x) as (-> & _).
          unfold f2. destruct (Hf1 x) as (-> & _). rewrite Hout. unfold f1.
          destruct (Nat.eqb_spec (v_id x) t) as [Et'|NEt]; destruct (Nat.eqb_spec (v_id x) s) as [Es'|NEs];
            try congruence; apply vertex_eta; cbn; auto;
            try (pose proof (E1 Es')); try (pose proof (E2 Et')); congruence.
  Qed.

  Lemma add_edge_exact dir g s t d :
    exact dir g -> In s (vertex_ids g) -> In t (vertex_ids g) ->
    exact dir (canon dir g (g_es g ++ [new_edge g s t d]) (S (g_next g))).
  Proof.
    intros H Hs Ht. apply exact_canon; auto.
    - rewrite map_app; cbn. apply (Permutation_NoDup (l := g_next g :: map e_id (g_es g))).
      + apply Permutation_cons_append.
      + constructor; [|apply (ex_eid _ _ H)]. intros Hin. apply in_map_iff in Hin as (e & E & Hin).
        pose proof (ex_elt _ _ H e Hin). lia.
    - intros e He. apply in_app_iff in He as [He|[<-|[]]]; cbn; [|lia]. pose proof (ex_elt _ _ H e He). lia.
    - intros e He. apply in_app_iff in He as [He|[<-|[]]]; cbn; [apply (ex_end _ _ H); exact He|auto].
  Qed.

  (** *** erase_edges *)
  Lemma erase_edges_effect g l :
    NoDup l -> (forall e, In e l -> In e (edge_ids g)) ->
    erase_edges g l = Ok (set_es g (filter (fun x => negb (existsb (Nat.eqb (e_id x)) l)) (g_es g))).
  Proof.
    revert g; induction l as [|e l IH]; intros g Hnd Hin.
    - cbn. f_equal. rewrite filter_true by reflexivity. destruct g; reflexivity.
    - inversion Hnd as [|? ? H1 H2]; subst. cbn [erase_edges].
      unfold erase_edge at 1.
      assert (He : exists x, get_edge g e = Some x).
      { specialize (Hin e (or_introl eq_refl)). apply in_map_iff in Hin as (x & Ex & Hx).
        unfold get_edge. destruct (find _ _) eqn:E; [eauto|].
        apply (find_none _ _ E x) in Hx. apply Nat.eqb_neq in Hx; congruence. }
      destruct He as [x ->]. cbn [derefO bindO]. rewrite IH; auto.
      + unfold set_es; cbn. f_equal. f_equal. rewrite filter_filter.
        apply filter_ext. intros y. cbn. rewrite negb_orb. reflexivity.
      + intros e' He'. unfold edge_ids; cbn. apply in_map_iff.
        specialize (Hin e' (or_intror He')). apply in_map_iff in Hin as (y & Ey & Hy).
        exists y. split; [exact Ey|]. apply filter_In. split; [exact Hy|].
        apply negb_true_iff, Nat.eqb_neq. intros E2. apply H1. rewrite <- E2, Ey. exact He'.
  Qed.

  Lemma in_out_spec dir es v x :
    In x (out_spec dir es v) <-> exists e, In e es /\ e_id e = x /\ leaves dir v e = true.
  Proof.
    unfold out_spec. rewrite in_map_iff. split.
    - intros (e & E & Hin). apply filter_In in Hin as [H1 H2]. exists e; auto.
    - intros (e & H1 & E & H2). exists e. split; [exact E|]. apply filter_In; auto.
  Qed.

  Lemma out_spec_filter dir es v (p : nat -> bool) (q : edge -> bool) :
    (forall e, In e es -> leaves dir v e = true -> p (e_id e) = q e) ->
    filter p (out_spec dir es v) = out_spec dir (filter q es) v.
  Proof.
    intros H. unfold out_spec. rewrite filter_map_comm, !filter_filter. f_equal.
    apply filter_ext_in'. intros e He. destruct (leaves dir v e) eqn:E; cbn; [|rewrite andb_false_r; reflexivity].
    rewrite andb_true_r. apply H; assumption.
  Qed.
  Lemma in_spec_filter dir es v (p : nat -> bool) (q : edge -> bool) :
    (forall e, In e es -> e_tgt e = v -> p (e_id e) = q e) ->
    filter p (in_spec dir es v) = in_spec dir (filter q es) v.
  Proof.
    intros H. destruct dir; unfold in_spec; try reflexivity. rewrite filter_map_comm, !filter_filter. f_equal.
    apply filter_ext_in'. intros e He. destruct (Nat.eqb_spec (e_tgt e) v) as [E|NE]; cbn;
      [|rewrite andb_false_r; reflexivity].
    rewrite andb_true_r. apply H; assumption.
  Qed.

  Lemma out_ids_live dir g x : exact dir g -> In x (g_vs g) -> forall e, In e (v_out x) -> In e (edge_ids g).
  Proof.
    intros H Hx e He. rewrite (ex_out _ _ H x Hx) in He. apply in_out_spec in He as (ed & H1 & <- & _).
    apply in_map; exact H1.
  Qed.
  Lemma in_ids_live dir g x : exact dir g -> In x (g_vs g) -> forall e, In e (v_in x) -> In e (edge_ids g).
  Proof.
    intros H Hx e He. rewrite (ex_in _ _ H x Hx) in He. destruct dir; unfold in_spec in He; try contradiction.
    apply in_map_iff in He as (ed & <- & Hin). apply filter_In in Hin as [Hin _]. apply in_map; exact Hin.
  Qed.

  Lemma eid_inj dir g e f : exact dir g -> In e (g_es g) -> In f (g_es g) -> e_id e = e_id f -> e = f.
  Proof. intros H He Hf E. eapply NoDup_map_inj; eauto. apply (ex_eid _ _ H). Qed.

  (** *** remove_edge *)
  Lemma find_entry_in g e l :
    In e (edge_ids g) -> (forall x, In x l -> In x (edge_ids g)) ->
    find_entry g e l = Some (existsb (Nat.eqb e) l).
  Proof.
    intros He. induction l as [|x l IH]; intros Hl; [reflexivity|]. cbn.
    rewrite is_same_edge_eq by (auto; apply Hl; left; reflexivity).
    rewrite (Nat.eqb_sym e x). destruct (x =? e); [reflexivity|]. cbn. apply IH.
    intros y Hy; apply Hl; right; exact Hy.
  Qed.

  Lemma erase_first_filter e l : NoDup l -> erase_first e l = filter (fun x => negb (x =? e)) l.
  Proof.
    induction l as [|x l IH]; intros Hnd; [reflexivity|]. inversion Hnd as [|? ? H1 H2]; subst. cbn.
    destruct (Nat.eqb_spec x e) as [->|NE]; cbn.
    - symmetry. apply filter_true. intros y Hy. apply negb_true_iff, Nat.eqb_neq. intros ->; contradiction.
    - f_equal; apply IH; exact H2.
  Qed.

  Lemma out_spec_NoDup dir g v : exact dir g -> NoDup (out_spec dir (g_es g) v).
  Proof. intros H. apply NoDup_map_filter, (ex_eid _ _ H). Qed.

  Lemma remove_edge_effect dir g e :
    exact dir g -> In e (edge_ids g) ->
    remove_edge dir false g e =
    Ok (canon dir g (filter (fun x => negb (e_id x =? e)) (g_es g)) (g_next g)).
  Proof.
    intros H He. apply in_map_iff in He as (ed & <- & Hed).
    destruct (ex_end _ _ H ed Hed) as [Hs Ht].
    destruct (get_vertex_some _ _ Hs) as [sv Es], (get_vertex_some _ _ Ht) as [tv Et].
    destruct (get_vertex_in _ _ _ Es) as [Is Vs], (get_vertex_in _ _ _ Et) as [It Vt].
    assert (Hid : In (e_id ed) (edge_ids g)) by (apply in_map; exact Hed).
    unfold remove_edge. rewrite (get_edge_of _ _ _ H Hed). cbn [derefO]. rewrite Es. cbn [derefO].
    rewrite find_entry_in by (auto; eapply out_ids_live; eauto). cbn [derefO].
    assert (Hfound : existsb (Nat.eqb (e_id ed)) (v_out sv) = true).
    { apply existsb_eqb_In. rewrite (ex_out _ _ H sv Is), Vs. apply in_out_spec. exists ed.
      repeat split; auto. unfold leaves. rewrite Nat.eqb_refl. reflexivity. }
    rewrite Hfound. set (q := fun x : edge => negb (e_id x =? e_id ed)).
    set (ne := fun x : nat => negb (x =? e_id ed)).
    (* state after the target's lists were cleaned *)
    set (f1 := fun x : vertex =>
                 if v_id x =? e_tgt ed then
                   match dir with
                   | Directed => x
                   | Bidirectional => set_in (filter ne (v_in tv)) x
                   | Undirected => if e_src ed =? e_tgt ed then x else set_out (filter ne (v_out tv)) x
                   end
                 else x).
    assert (Hf1 : skel f1).
    { intros x; unfold f1. destruct (v_id x =? e_tgt ed), dir; cbn; auto. destruct (e_src ed =? e_tgt ed); auto. }
    (* common tail *)
    assert (Htail : forall f : vertex -> vertex, (forall x, In x (g_vs g) -> f x = f1 x) -> skel f ->
      bindO (erase_edge (mapv f g) (e_id ed)) (fun y => y) (fun g3 =>
        derefO (get_vertex g3 (e_src ed)) (fun sv' =>
          Ok (upd_vertex g3 (e_src ed) (set_out (erase_first (e_id ed) (v_out sv'))))))
      = Ok (canon dir g (filter q (g_es g)) (g_next g))).
    { intros f Hff Hskf. unfold erase_edge.
      change (get_edge (mapv f g) (e_id ed)) with (get_edge g (e_id ed)).
      rewrite (get_edge_of _ _ _ H Hed). cbn [derefO bindO].
      change (set_es (mapv f g) (filter (fun x : edge => negb (e_id x =? e_id ed)) (g_es (mapv f g))))
        with (mapv f (set_es g (filter q (g_es g)))).
      rewrite get_vertex_mapv by exact Hskf.
      change (get_vertex (set_es g (filter q (g_es g))) (e_src ed)) with (get_vertex g (e_src ed)).
      rewrite Es. cbn [option_map derefO]. f_equal. rewrite upd_mapv, mapv_mapv.
      unfold mapv, canon; cbn. f_equal. apply map_ext_in. intros x Hx.
      destruct (Hskf x) as (-> & _). rewrite (Hff x Hx), (Hff sv Is).
      pose proof (ex_out _ _ H x Hx) as Ho. pose proof (ex_in _ _ H x Hx) as Hi.
      assert (Ko : filter ne (out_spec dir (g_es g) (v_id x)) = out_spec dir (filter q (g_es g)) (v_id x))
        by (apply out_spec_filter; intros; reflexivity).
      assert (Ki : filter ne (in_spec dir (g_es g) (v_id x)) = in_spec dir (filter q (g_es g)) (v_id x))
        by (apply in_spec_filter; intros; reflexivity).
      assert (Kno : leaves dir (v_id x) ed = false ->
                    out_spec dir (g_es g) (v_id x) = out_spec dir (filter q (g_es g)) (v_id x)).
      { intros E. rewrite <- Ko. symmetry. apply filter_true. intros y Hy.
        apply in_out_spec in Hy as (e' & H1 & <- & H2). apply negb_true_iff, Nat.eqb_neq. intros E'.
        rewrite (eid_inj _ _ _ _ H H1 Hed E') in H2. congruence. }
      assert (Kni : e_tgt ed <> v_id x ->
                    in_spec dir (g_es g) (v_id x) = in_spec dir (filter q (g_es g)) (v_id x)).
      { intros NE. rewrite <- Ki. symmetry. apply filter_true. intros y Hy. destruct dir; unfold in_spec in Hy; try contradiction.
        apply in_map_iff in Hy as (e' & <- & Hin). apply filter_In in Hin as [H1 H2]. apply Nat.eqb_eq in H2.
        apply negb_true_iff, Nat.eqb_neq. intros E'. rewrite (eid_inj _ _ _ _ H H1 Hed E') in H2. congruence. }
      unfold canon1. destruct (Nat.eqb_spec (v_id x) (e_src ed)) as [E|NE].
      - assert (x = sv) by (eapply same_vertex; eauto; congruence). subst x.
        assert (Hout : v_out (f1 sv) = v_out sv).
        { unfold f1. destruct (Nat.eqb_spec (v_id sv) (e_tgt ed)) as [E2|_]; [|reflexivity].
          destruct dir; try reflexivity. destruct (Nat.eqb_spec (e_src ed) (e_tgt ed)); [reflexivity|congruence]. }
        rewrite Hout, Ho. rewrite erase_first_filter by (apply out_spec_NoDup; exact H). fold ne. rewrite Ko.
        apply vertex_eta; cbn; try (apply Hf1). reflexivity.
        unfold f1. destruct (Nat.eqb_spec (v_id sv) (e_tgt ed)) as [E2|NE2].
        + destruct dir; cbn; auto.
          * assert (sv = tv) by (eapply same_vertex; eauto; congruence). subst tv. rewrite Hi. exact Ki.
          * destruct (e_src ed =? e_tgt ed); cbn; exact Hi.
        + rewrite Hi. apply Kni. congruence.
      - unfold f1. destruct (Nat.eqb_spec (v_id x) (e_tgt ed)) as [E2|NE2].
        + assert (x = tv) by (eapply same_vertex; eauto; congruence). subst x.
          destruct dir.
          * apply vertex_eta; cbn; auto. rewrite Ho. apply Kno. unfold leaves.
            destruct (Nat.eqb_spec (e_src ed) (v_id tv)); [congruence|reflexivity].
          * apply vertex_eta; cbn; auto.
            -- rewrite Ho. apply Kno. unfold leaves. destruct (Nat.eqb_spec (e_src ed) (v_id tv)); [congruence|reflexivity].
            -- rewrite Hi. exact Ki.
          * destruct (Nat.eqb_spec (e_src ed) (e_tgt ed)) as [E3|_]; [congruence|].
            apply vertex_eta; cbn; auto. rewrite Ho. exact Ko.
        + apply vertex_eta; cbn; auto.
          * rewrite Ho. apply Kno. unfold leaves. destruct (Nat.eqb_spec (e_src ed) (v_id x)); [congruence|].
            destruct dir; try reflexivity. destruct (Nat.eqb_spec (e_tgt ed) (v_id x)); [congruence|reflexivity].
          * rewrite Hi. apply Kni. congruence. }
    destruct dir; cbn [bindO].
    - rewrite <- (mapv_id g) at 1. apply Htail; [|intros x; auto].
      intros x Hx. unfold f1. destruct (v_id x =? e_tgt ed); reflexivity.
    - rewrite Et. cbn [derefO].
      rewrite (remove_if_filter _ (fun x => x =? e_id ed)).
      2:{ intros x Hx. apply is_same_edge_eq; auto. eapply in_ids_live; eauto. }
      cbn [derefO bindO]. rewrite upd_mapv. apply Htail.
      + intros x Hx. unfold f1. reflexivity.
      + intros x. destruct (v_id x =? e_tgt ed); cbn; auto.
    - rewrite is_same_vertex_eq by assumption. cbn [derefO].
      destruct (Nat.eqb_spec (e_src ed) (e_tgt ed)) as [E|NE]; cbn [bindO].
      + rewrite <- (mapv_id g) at 1. apply Htail; [|intros x; auto].
        intros x Hx. unfold f1. destruct (v_id x =? e_tgt ed); reflexivity.
      + rewrite Et. cbn [derefO].
        rewrite (remove_if_filter _ (fun x => x =? e_id ed)).
        2:{ intros x Hx.
            assert (Hxl : In x (edge_ids g)) by (eapply out_ids_live; eauto).
            assert (Hx' := Hx). rewrite (ex_out _ _ H tv It), Vt in Hx'. apply in_out_spec in Hx' as (xe & X1 & <- & X2).
            rewrite (get_edge_of _ _ _ H X1).
            rewrite is_same_vertex_eq by (auto; apply (ex_end _ _ H); assumption).
            rewrite is_same_edge_eq by auto. cbn.
            destruct (Nat.eqb_spec (e_tgt ed) (e_tgt xe)) as [E1|NE1]; [reflexivity|].
            f_equal. symmetry. apply Nat.eqb_neq. intros E2. apply NE1.
            rewrite (eid_inj _ _ _ _ H X1 Hed E2). reflexivity. }
        cbn [derefO bindO]. rewrite upd_mapv. apply Htail.
        * intros x Hx. reflexivity.
        * intros x. destruct (v_id x =? e_tgt ed); cbn; auto.
  Qed.

  (** *** remove_edge(source, target) *)
  Lemma remove_edge_st_loop_effect dir g s t (H : exact dir g) (Hs : In s (vertex_ids g)) (Ht : In t (vertex_ids g)) :
    let hit e := match get_edge g e with
                 | Some ed => (e_src ed =? s) && (e_tgt ed =? t)
                 | None => false
                 end in
    forall l keep del,
    (forall e, In e l -> In e (edge_ids g)) ->
    let F dl x := if v_id x =? t then
                    match dir with
                    | Directed => x
                    | Bidirectional => set_in (filter (fun y => negb (existsb (Nat.eqb y) dl)) (v_in x)) x
                    | Undirected => if s =? t then x
                                    else set_out (filter (fun y => negb (existsb (Nat.eqb y) dl)) (v_out x)) x
                    end
                  else x in
    remove_edge_st_loop dir (mapv (F del) g) s t l keep del =
    Ok (mapv (F (del ++ filter hit l)) g, (keep ++ filter (fun e => negb (hit e)) l, del ++ filter hit l)).
  Proof.
    intros hit l. induction l as [|e l IH]; intros keep del Hl F.
    - cbn. rewrite !app_nil_r. reflexivity.
    - assert (Hskel : forall dl, skel (F dl)).
      { intros dl x. unfold F. destruct (v_id x =? t), dir; cbn; auto. destruct (s =? t); auto. }
      assert (He : In e (edge_ids g)) by (apply Hl; left; reflexivity).
      destruct (get_vertex_some _ _ Ht) as [tv Et]. destruct (get_vertex_in _ _ _ Et) as [It Vt].
      pose proof He as He'. apply in_map_iff in He' as (ed & Eid & Hed).
      assert (Eg : get_edge g e = Some ed) by (rewrite <- Eid; apply (get_edge_of _ _ _ H Hed)).
      destruct (ex_end _ _ H ed Hed) as [Hes Het].
      assert (Hhit : hit e = (e_src ed =? s) && (e_tgt ed =? t)) by (unfold hit; rewrite Eg; reflexivity).
      cbn [remove_edge_st_loop]. rewrite get_edge_mapv, Eg. cbn [derefO].
      rewrite !is_same_vertex_eq by (rewrite vertex_ids_mapv by apply Hskel; assumption).
      assert (Eand : andO (Some (e_src ed =? s)) (Some (e_tgt ed =? t)) = Some (hit e)).
      { rewrite Hhit. unfold andO. destruct (e_src ed =? s); reflexivity. }
      rewrite Eand. cbn [derefO].
      destruct (hit e) eqn:Ehit.
      + symmetry in Hhit. apply andb_true_iff in Hhit as [H1 H2]. apply Nat.eqb_eq in H1, H2.
        cbn [filter]. rewrite Ehit. cbn [negb].
        assert (Hfil : forall dl (l0 : list nat),
                  filter (fun x => negb (x =? e)) (filter (fun y => negb (existsb (Nat.eqb y) dl)) l0) =
                  filter (fun y => negb (existsb (Nat.eqb y) (dl ++ [e]))) l0).
        { intros dl l0. rewrite filter_filter. apply filter_ext. intros y.
          rewrite existsb_app. cbn. rewrite orb_false_r, negb_orb. reflexivity. }
        assert (Hnext : forall g2, g2 = mapv (F (del ++ [e])) g ->
          remove_edge_st_loop dir g2 s t l keep (del ++ [e]) =
          Ok (mapv (F (del ++ e :: filter hit l)) g,
              (keep ++ filter (fun e0 => negb (hit e0)) l, del ++ e :: filter hit l))).
        { intros g2 ->. etransitivity; [apply IH; intros y Hy; apply Hl; right; exact Hy|].
          cbn zeta. rewrite <- !app_assoc. reflexivity. }
        destruct dir; cbn [bindO].
        * apply Hnext. apply mapv_ext. intros x Hx. unfold F. destruct (v_id x =? t); reflexivity.
        * unfold in_remove_if. rewrite H2, get_vertex_mapv, Et by apply Hskel. cbn [option_map derefO].
          rewrite (remove_if_filter _ (fun x => x =? e)).
          2:{ intros x Hx. rewrite is_same_edge_eq; auto.
              change (edge_ids (mapv (F del) g)) with (edge_ids g).
              eapply in_ids_live; eauto. unfold F in Hx. rewrite Vt, Nat.eqb_refl in Hx. cbn in Hx.
              apply filter_In in Hx as [Hx _]. exact Hx. }
          cbn [derefO bindO]. apply Hnext. rewrite upd_mapv, mapv_mapv. apply mapv_ext.
          intros x Hx. destruct (Hskel del x) as (-> & _). unfold F.
          destruct (Nat.eqb_spec (v_id x) t) as [E|NE].
          -- assert (x = tv) by (eapply same_vertex; eauto; congruence). subst x. rewrite E, Nat.eqb_refl.
             apply vertex_eta; cbn; auto.
          -- reflexivity.
        * destruct (Nat.eqb_spec s t) as [Est|NEst]; cbn [bindO].
          -- apply Hnext. apply mapv_ext. intros x Hx. unfold F. destruct (v_id x =? t); [|reflexivity]. destruct (Nat.eqb_spec s t); [reflexivity|congruence].
          -- unfold out_remove_if. rewrite H2, get_vertex_mapv, Et by apply Hskel. cbn [option_map derefO].
             assert (EF : forall dl, v_out (F dl tv) = filter (fun y => negb (existsb (Nat.eqb y) dl)) (v_out tv)).
             { intros dl. unfold F. rewrite Vt, Nat.eqb_refl. destruct (Nat.eqb_spec s t); [congruence|]. reflexivity. }
             rewrite (remove_if_filter _ (fun x => x =? e)).
             2:{ intros x Hx. rewrite is_same_edge_eq; auto.
                 change (edge_ids (mapv (F del) g)) with (edge_ids g).
                 eapply out_ids_live; eauto. rewrite EF in Hx. apply filter_In in Hx as [Hx _]. exact Hx. }
             cbn [derefO bindO]. apply Hnext. rewrite upd_mapv, mapv_mapv. apply mapv_ext.
             intros x Hx. destruct (Hskel del x) as (-> & _). rewrite EF. unfold F.
             destruct (Nat.eqb_spec (v_id x) t) as [E|NE].
             ++ assert (x = tv) by (eapply same_vertex; eauto; congruence). subst x.
                destruct (Nat.eqb_spec s t); [congruence|]. apply vertex_eta; cbn; auto.
             ++ reflexivity.
      + cbn [filter]. rewrite Ehit. cbn [negb].
        etransitivity; [apply IH; intros y Hy; apply Hl; right; exact Hy|].
        cbn zeta. rewrite <- !app_assoc. reflexivity.
  Qed.

  Lemma remove_edge_st_effect dir g s t :
    exact dir g -> In s (vertex_ids g) -> In t (vertex_ids g) ->
    remove_edge_st dir g s t =
    Ok (canon dir g (filter (fun x => negb ((e_src x =? s) && (e_tgt x =? t))) (g_es g)) (g_next g)).
  Proof.
    intros H Hs Ht. unfold remove_edge_st.
    destruct (get_vertex_some _ _ Hs) as [sv Es]. destruct (get_vertex_in _ _ _ Es) as [Is Vs].
    rewrite Es. cbn [derefO].
    pose proof (remove_edge_st_loop_effect dir g s t H Hs Ht (v_out sv) [] []) as L.
    cbn zeta in L. specialize (L (out_ids_live _ _ _ H Is)).
    match type of L with remove_edge_st_loop _ ?G0 _ _ _ _ _ = ?R =>
      assert (E0 : G0 = g);
      [|assert (L' : remove_edge_st_loop dir g s t (v_out sv) [] [] = R);
        [etransitivity; [|exact L]; f_equal; symmetry; exact E0|]] end.
    { rewrite <- (mapv_id g) at 2. apply mapv_ext. intros x Hx. destruct (v_id x =? t); [|reflexivity].
      assert (Ef : forall l : list nat, filter (fun y => negb (existsb (Nat.eqb y) [])) l = l)
        by (intros l; apply filter_true; reflexivity).
      destruct dir; try reflexivity; [|destruct (s =? t); [reflexivity|]];
        rewrite Ef; [apply set_in_self|apply set_out_self]; reflexivity. }
    rewrite L'. cbn [app]. clear L L' E0.
    set (hit := fun e : nat => match get_edge g e with
                         | Some ed => (e_src ed =? s) && (e_tgt ed =? t) | None => false end).
    assert (Hhit : forall ed, In ed (g_es g) -> hit (e_id ed) = (e_src ed =? s) && (e_tgt ed =? t)).
    { intros ed Hed. unfold hit. rewrite (get_edge_of _ _ _ H Hed). reflexivity. }
    set (q := fun x : edge => (e_src x =? s) && (e_tgt x =? t)).
    set (del := filter hit (v_out sv)).
    assert (Hdel : forall ed, In ed (g_es g) -> existsb (Nat.eqb (e_id ed)) del = q ed).
    { intros ed Hed. destruct (q ed) eqn:Eq.
      - apply existsb_eqb_In. unfold del. apply filter_In. rewrite (Hhit _ Hed). split; [|exact Eq].
        rewrite (ex_out _ _ H sv Is), Vs. apply in_out_spec. exists ed. repeat split; auto.
        unfold q in Eq. apply andb_true_iff in Eq as [Eq _]. unfold leaves. rewrite Eq. reflexivity.
      - destruct (existsb (Nat.eqb (e_id ed)) del) eqn:Ex; [|reflexivity]. exfalso.
        apply existsb_eqb_In in Ex. apply filter_In in Ex as [_ Ex]. rewrite (Hhit _ Hed) in Ex.
        unfold q in Eq. congruence. }
    rewrite erase_edges_effect.
    - f_equal. unfold set_es, upd_vertex, mapv, canon; cbn.
      f_equal; [|apply filter_ext_in'; intros ed Hed; rewrite (Hdel _ Hed); reflexivity].
      rewrite map_map. apply map_ext_in. intros x Hx.
      pose proof (ex_out _ _ H x Hx) as Ho. pose proof (ex_in _ _ H x Hx) as Hi.
      assert (Ko : filter (fun y => negb (existsb (Nat.eqb y) del)) (out_spec dir (g_es g) (v_id x)) =
                   out_spec dir (filter (fun e => negb (q e)) (g_es g)) (v_id x)).
      { apply out_spec_filter. intros e He _. rewrite (Hdel _ He). reflexivity. }
      assert (Ki : filter (fun y => negb (existsb (Nat.eqb y) del)) (in_spec dir (g_es g) (v_id x)) =
                   in_spec dir (filter (fun e => negb (q e)) (g_es g)) (v_id x)).
      { apply in_spec_filter. intros e He _. rewrite (Hdel _ He). reflexivity. }
      assert (Ko' : filter (fun y => negb (hit y)) (out_spec dir (g_es g) (v_id x)) =
                   out_spec dir (filter (fun e => negb (q e)) (g_es g)) (v_id x)).
      { apply out_spec_filter. intros e He _. rewrite (Hhit _ He). reflexivity. }
      assert (Kno : (v_id x <> s) -> (dir = Undirected -> v_id x <> t) ->
                    out_spec dir (g_es g) (v_id x) = out_spec dir (filter (fun e => negb (q e)) (g_es g)) (v_id x)).
      { intros N1 N2. unfold out_spec. rewrite filter_filter. f_equal. apply filter_ext_in'.
        intros e He. unfold leaves, q. destruct (Nat.eqb_spec (e_src e) (v_id x)) as [E1|].
        - destruct (Nat.eqb_spec (e_src e) s); [congruence|reflexivity].
        - destruct dir; cbn; try (rewrite andb_false_r; reflexivity).
          destruct (Nat.eqb_spec (e_tgt e) (v_id x)); [|rewrite andb_false_r; reflexivity].
          destruct (Nat.eqb_spec (e_tgt e) t); [exfalso; apply N2; congruence|]. rewrite andb_false_r. reflexivity. }
      assert (Kni : v_id x <> t -> in_spec dir (g_es g) (v_id x) = in_spec dir (filter (fun e => negb (q e)) (g_es g)) (v_id x)).
      { intros N. destruct dir; unfold in_spec; try reflexivity. rewrite filter_filter. f_equal. apply filter_ext_in'.
        intros e He. unfold q. destruct (Nat.eqb_spec (e_tgt e) (v_id x)); [|rewrite andb_false_r; reflexivity].
        destruct (Nat.eqb_spec (e_tgt e) t); [congruence|]. rewrite andb_false_r. reflexivity. }
      assert (HO : v_out sv = out_spec dir (g_es g) s) by (rewrite <- Vs; apply (ex_out _ _ H); exact Is).
      unfold canon1.
      match goal with |- context [if v_id x =? t then ?A else x] => set (X := if v_id x =? t then A else x) end.
      assert (EX : v_id X = v_id x /\ v_index X = v_index x /\ v_data X = v_data x).
      { unfold X. destruct (v_id x =? t), dir; cbn; auto. destruct (s =? t); auto. }
      destruct EX as (EX1 & EX2 & EX3). rewrite EX1.
      destruct (Nat.eqb_spec (v_id x) s) as [E|NE].
      + assert (x = sv) by (eapply same_vertex; eauto; congruence). subst x.
        apply vertex_eta; cbn; auto.
        * rewrite Ho. exact Ko'.
        * unfold X. destruct (Nat.eqb_spec (v_id sv) t) as [E2|NE2].
          -- destruct dir; cbn; auto.
             ++ rewrite Hi. exact Ki.
             ++ destruct (s =? t); cbn; exact Hi.
          -- rewrite Hi. apply Kni; exact NE2.
      + apply vertex_eta; cbn; auto; unfold X; destruct (Nat.eqb_spec (v_id x) t) as [E2|NE2].
        * destruct dir; cbn.
          -- rewrite Ho. apply Kno; [exact NE|discriminate].
          -- rewrite Ho. apply Kno; [exact NE|discriminate].
          -- destruct (Nat.eqb_spec s t); [congruence|]. cbn. rewrite Ho. exact Ko.
        * rewrite Ho. apply Kno; auto.
        * destruct dir; cbn; auto.
          -- rewrite Hi. exact Ki.
          -- destruct (s =? t); cbn; exact Hi.
        * rewrite Hi. apply Kni; exact NE2.
    - unfold del. apply NoDup_filter. rewrite (ex_out _ _ H sv Is). apply out_spec_NoDup; exact H.
    - intros e He. apply filter_In in He as [He _]. exact (out_ids_live dir g sv H Is e He).
  Qed.
End Proofs.
