(** Proofs about the graph container model, third part: whole histories, copies. *)
From Verif Require Import Base ListAux AdjList AdjListSpec AdjListProofs AdjListProofs2.

Section Proofs3.
  Context {VD ED : Type}.
  Notation graph := (graph VD ED).
  Notation vertex := (@vertex VD).
  Notation edge := (@edge ED).
  Implicit Types (g : graph) (dir : direction) (es : list edge).
  Local Arguments in_spec : simpl never.
  Local Arguments out_spec : simpl never.

  Lemma exact_empty dir : exact dir (@empty_graph VD ED).
  Proof. constructor; cbn; try (intros ? []; fail); apply NoDup_nil. Qed.

  (** *** remove_vertex *)
  Definition without_vertex g v : graph :=
    mkG (filter (fun y => negb (v_id y =? v)) (g_vs g)) (g_es g) (g_next g).

  Lemma remove_vertex_effect dir g v :
    exact dir g -> In v (vertex_ids g) ->
    remove_vertex g v = if existsb (leaves dir v) (g_es g) then Throw g else Ok (without_vertex g v).
  Proof.
    intros H Hv. unfold remove_vertex. destruct (get_vertex_some g v Hv) as [x E]. rewrite E. cbn [derefO].
    apply get_vertex_in in E as [Hx Ex]. rewrite (ex_out _ _ H x Hx), Ex. unfold out_spec.
    assert (K : existsb (leaves dir v) (g_es g) = match filter (leaves dir v) (g_es g) with [] => false | _ => true end).
    { induction (g_es g) as [|e l IH]; [reflexivity|]. cbn. destruct (leaves dir v e); [reflexivity|exact IH]. }
    rewrite K. destruct (filter (leaves dir v) (g_es g)); reflexivity.
  Qed.

  Lemma without_vertex_exact dir g v : exact dir g -> isolated g v -> exact dir (without_vertex g v).
  Proof.
    intros H Hi. constructor; unfold without_vertex, vertex_ids, edge_ids; cbn.
    - apply NoDup_map_filter, (ex_vid _ _ H).
    - apply (ex_eid _ _ H).
    - intros x Hx. apply filter_In in Hx as [Hx _]. apply (ex_vlt _ _ H); exact Hx.
    - apply (ex_elt _ _ H).
    - intros e He. destruct (Hi e He) as [N1 N2]. destruct (ex_end _ _ H e He) as [P1 P2].
      assert (Q : forall a, a <> v -> In a (vertex_ids g) ->
                  In a (map v_id (filter (fun y => negb (v_id y =? v)) (g_vs g)))).
      { intros a Na Ha. apply in_map_iff in Ha as (x & <- & Hx). apply in_map, filter_In. split; [exact Hx|].
        apply negb_true_iff, Nat.eqb_neq. exact Na. }
      split; apply Q; assumption.
    - intros x Hx. apply filter_In in Hx as [Hx _]. apply (ex_out _ _ H); exact Hx.
    - intros x Hx. apply filter_In in Hx as [Hx _]. apply (ex_in _ _ H); exact Hx.
  Qed.

  Lemma seen_vertices_without g v :
    seen_vertices (without_vertex g v) = filter (fun x => negb (fst x =? v)) (seen_vertices g).
  Proof. unfold seen_vertices, without_vertex; cbn. rewrite filter_map_comm. reflexivity. Qed.

  Lemma isolated_leaves dir g v : isolated g v -> existsb (leaves dir v) (g_es g) = false.
  Proof.
    intros Hi. apply not_true_iff_false. intros E. apply existsb_exists in E as (e & He & L).
    destruct (Hi e He) as [N1 N2]. unfold leaves in L. apply orb_true_iff in L as [L|L].
    - apply Nat.eqb_eq in L; contradiction.
    - destruct dir; try discriminate. apply Nat.eqb_eq in L; contradiction.
  Qed.
  Lemma undirected_isolated g v : existsb (leaves Undirected v) (g_es g) = false -> isolated g v.
  Proof.
    intros E e He. assert (L : leaves Undirected v e = false).
    { apply not_true_iff_false. intros L. apply not_true_iff_false in E. apply E. apply existsb_exists; eauto. }
    unfold leaves in L. apply orb_false_iff in L as [L1 L2]. split; apply Nat.eqb_neq; assumption.
  Qed.

  (** *** reindex *)
  Lemma reindex_vs_in i l x : In x (reindex_vs (VD:=VD) i l) ->
    exists y, In y l /\ v_id x = v_id y /\ v_data x = v_data y /\ v_out x = v_out y /\ v_in x = v_in y.
  Proof.
    revert i; induction l as [|a l IH]; intros i; cbn; [intros []|]. intros [<-|Hx].
    - exists a; cbn; auto.
    - destruct (IH _ Hx) as (y & Hy & P). exists y; auto.
  Qed.
  Lemma reindex_es_in i l x : In x (reindex_es (ED:=ED) i l) ->
    exists y, In y l /\ e_id x = e_id y /\ e_src x = e_src y /\ e_tgt x = e_tgt y /\ e_data x = e_data y.
  Proof.
    revert i; induction l as [|a l IH]; intros i; cbn; [intros []|]. intros [<-|Hx].
    - exists a; cbn; auto.
    - destruct (IH _ Hx) as (y & Hy & P). exists y; auto.
  Qed.
  Lemma reindex_vs_map {B} (f : vertex -> B) i l :
    (forall k x, f (mkV (v_id x) k (v_data x) (v_out x) (v_in x)) = f x) -> map f (reindex_vs i l) = map f l.
  Proof. intros Hf. revert i; induction l as [|a l IH]; intros i; cbn; [reflexivity|]. rewrite Hf, IH. reflexivity. Qed.
  Lemma reindex_es_map {B} (f : edge -> B) i l :
    (forall k x, f (mkE (e_id x) k (e_src x) (e_tgt x) (e_data x)) = f x) -> map f (reindex_es i l) = map f l.
  Proof. intros Hf. revert i; induction l as [|a l IH]; intros i; cbn; [reflexivity|]. rewrite Hf, IH. reflexivity. Qed.
  Lemma reindex_es_out_spec dir i es v : out_spec dir (reindex_es i es) v = out_spec dir es v.
  Proof.
    unfold out_spec. revert i; induction es as [|a l IH]; intros i; cbn; [reflexivity|].
    change (leaves dir v (mkE (e_id a) i (e_src a) (e_tgt a) (e_data a))) with (leaves dir v a).
    destruct (leaves dir v a); cbn; rewrite IH; reflexivity.
  Qed.
  Lemma reindex_es_in_spec dir i es v : in_spec dir (reindex_es i es) v = in_spec dir es v.
  Proof.
    unfold in_spec. destruct dir; try reflexivity. revert i; induction es as [|a l IH]; intros i; cbn; [reflexivity|].
    destruct (e_tgt a =? v); cbn; rewrite IH; reflexivity.
  Qed.

  Lemma reindex_exact dir g : exact dir g -> exact dir (reindex g).
  Proof.
    intros H.
    assert (EV : vertex_ids (reindex g) = vertex_ids g) by (apply reindex_vs_map; reflexivity).
    assert (EE : edge_ids (reindex g) = edge_ids g) by (apply reindex_es_map; reflexivity).
    constructor.
    - rewrite EV; apply (ex_vid _ _ H).
    - rewrite EE; apply (ex_eid _ _ H).
    - intros x Hx. apply reindex_vs_in in Hx as (y & Hy & -> & _). apply (ex_vlt _ _ H); exact Hy.
    - intros x Hx. apply reindex_es_in in Hx as (y & Hy & -> & _). apply (ex_elt _ _ H); exact Hy.
    - intros x Hx. rewrite EV. apply reindex_es_in in Hx as (y & Hy & _ & -> & -> & _). apply (ex_end _ _ H); exact Hy.
    - intros x Hx. apply reindex_vs_in in Hx as (y & Hy & -> & _ & -> & _).
      cbn. rewrite reindex_es_out_spec. apply (ex_out _ _ H); exact Hy.
    - intros x Hx. apply reindex_vs_in in Hx as (y & Hy & -> & _ & _ & ->).
      cbn. rewrite reindex_es_in_spec. apply (ex_in _ _ H); exact Hy.
  Qed.
  Lemma reindex_indexed g : indexed (reindex g).
  Proof.
    unfold indexed, reindex; cbn.
    assert (L : forall (l : list vertex) i, length (reindex_vs i l) = length l).
    { induction l as [|a l IH]; intros i; cbn; auto. }
    assert (M : forall (l : list vertex) i, map v_index (reindex_vs i l) = seq i (length l)).
    { induction l as [|a l IH]; intros i; cbn; [reflexivity|]. rewrite IH. reflexivity. }
    rewrite L. apply M.
  Qed.

  (** abstraction of the canonical graph *)
  Lemma abs_canon dir g es n :
    abs_of (canon dir g es n) =
    (seen_vertices g, map (fun e => (e_id e, (e_src e, e_tgt e), e_data e)) es, n).
  Proof. unfold abs_of, canon, seen_vertices, seen_edges; cbn. rewrite map_map. reflexivity. Qed.

  Lemma seen_vertices_canon dir g es n : seen_vertices (canon dir g es n) = seen_vertices g.
  Proof. unfold canon, seen_vertices; cbn. rewrite map_map. reflexivity. Qed.
  Lemma seen_edges_canon dir g es n :
    seen_edges (canon dir g es n) = map (fun e => (e_id e, (e_src e, e_tgt e), e_data e)) es.
  Proof. reflexivity. Qed.

  Lemma map_filter_seen (p : edge -> bool) (q : nat * (nat * nat) * ED -> bool) es :
    (forall e, In e es -> p e = q (e_id e, (e_src e, e_tgt e), e_data e)) ->
    map (fun e => (e_id e, (e_src e, e_tgt e), e_data e)) (filter p es) =
    filter q (map (fun e => (e_id e, (e_src e, e_tgt e), e_data e)) es).
  Proof.
    intros H. rewrite filter_map_comm. f_equal. apply filter_ext_in'. exact H.
  Qed.

  Lemma existsb_touches v es :
    existsb (touches v) (map (fun e : edge => (e_id e, (e_src e, e_tgt e), e_data e)) es) =
    existsb (leaves Undirected v) es.
  Proof. induction es as [|e l IH]; [reflexivity|]. cbn. rewrite IH. reflexivity. Qed.

  Theorem step_refines dir g o :
    exact dir g -> legal dir g o ->
    exists g', (step dir g o = Ok g' \/ step dir g o = Throw g') /\ exact dir g' /\
               abs_of g' = abs_step dir (abs_of g) o.
  Proof.
    intros H L. destruct o as [d a|s t d a1 a2 a3|e|s t|v|v|]; cbn [step legal] in *.
    - destruct a as [|k].
      + rewrite add_vertex_good. eexists; split; [left; reflexivity|].
        split; [apply add_vertex_exact; exact H|]. unfold abs_of, seen_vertices, seen_edges; cbn. rewrite map_app. reflexivity.
      + rewrite add_vertex_bad. eexists; split; [right; reflexivity|]. split; [exact H|reflexivity].
    - destruct L as [Ls Lt]. rewrite (add_edge_effect dir g s t d a1 a2 a3 H Ls Lt). cbn [abs_step abs_of].
      unfold abs_of at 2. cbn [abs_step].
      destruct (add_edge_succeeds dir s t a1 a2 a3).
      + eexists; split; [left; reflexivity|]. split; [apply add_edge_exact; assumption|].
        rewrite abs_canon, map_app. reflexivity.
      + eexists; split; [right; reflexivity|]. split; [exact H|reflexivity].
    - rewrite (remove_edge_effect dir g e H L). eexists; split; [left; reflexivity|].
      split; [apply exact_filter; exact H|]. rewrite abs_canon. unfold abs_of; cbn. f_equal. f_equal.
      apply map_filter_seen. reflexivity.
    - destruct L as [Ls Lt]. rewrite (remove_edge_st_effect dir g s t H Ls Lt).
      eexists; split; [left; reflexivity|].
      split; [apply exact_filter; exact H|]. rewrite abs_canon. unfold abs_of; cbn. f_equal. f_equal.
      apply map_filter_seen. reflexivity.
    - rewrite (clear_vertex_effect dir g v H L). eexists; split; [left; reflexivity|].
      split; [apply exact_filter; exact H|]. rewrite abs_canon. unfold abs_of; cbn. f_equal. f_equal.
      apply map_filter_seen. intros e He. unfold survives, touches; cbn. rewrite negb_orb. reflexivity.
    - destruct L as [Lv L]. rewrite (remove_vertex_effect dir g v H Lv).
      assert (T : existsb (touches v) (seen_edges g) = existsb (leaves Undirected v) (g_es g))
        by apply existsb_touches.
      unfold abs_of; cbn [abs_step]. rewrite T.
      assert (C : existsb (leaves dir v) (g_es g) = existsb (leaves Undirected v) (g_es g)).
      { destruct L as [->|[(e & He & Es)|Hi]]; [reflexivity| |].
        - transitivity true; [|symmetry]; apply existsb_exists; exists e; split; auto;
            unfold leaves; rewrite Es, Nat.eqb_refl; reflexivity.
        - rewrite !isolated_leaves by exact Hi. reflexivity. }
      rewrite C. destruct (existsb (leaves Undirected v) (g_es g)) eqn:E.
      + eexists; split; [right; reflexivity|]. split; [exact H|reflexivity].
      + eexists; split; [left; reflexivity|]. split; [apply without_vertex_exact; [exact H|apply undirected_isolated; exact E]|].
        f_equal. f_equal. unfold seen_vertices, without_vertex; cbn. rewrite filter_map_comm. reflexivity.
    - eexists; split; [left; reflexivity|]. split; [apply reindex_exact; exact H|].
      unfold abs_of, reindex, seen_vertices, seen_edges; cbn. f_equal. f_equal.
      + apply reindex_vs_map; reflexivity.
      + apply reindex_es_map; reflexivity.
  Qed.

  Theorem run_refines dir os : forall g,
    exact dir g -> legal_history dir g os ->
    exists g', run dir g os = Some g' /\ exact dir g' /\ abs_of g' = fold_left (abs_step dir) os (abs_of g).
  Proof.
    induction os as [|o os IH]; intros g H L.
    - exists g; auto.
    - destruct L as [Lo L]. destruct (step_refines dir g o H Lo) as (g1 & E & H1 & A1).
      assert (L1 : legal_history dir g1 os) by (destruct E as [E|E]; rewrite E in L; exact L).
      destruct (IH g1 H1 L1) as (g' & R & H' & A'). exists g'. cbn.
      destruct E as [E|E]; rewrite E; rewrite A1 in A'; auto.
  Qed.

  (** *** copy *)
  Lemma position_in_app l1 l2 v :
    position_in (VD:=VD) (l1 ++ l2) v =
    match position_in l1 v with
    | Some i => Some i
    | None => option_map (fun i => length l1 + i) (position_in l2 v)
    end.
  Proof.
    induction l1 as [|x l1 IH]; cbn; [destruct (position_in l2 v); reflexivity|].
    destruct (v_id x =? v); [reflexivity|]. rewrite IH.
    destruct (position_in l1 v); [reflexivity|]. destruct (position_in l2 v); reflexivity.
  Qed.
  Lemma position_in_ids (l1 l2 : list vertex) v : map v_id l1 = map v_id l2 -> position_in l1 v = position_in l2 v.
  Proof.
    revert l2; induction l1 as [|x l1 IH]; intros [|y l2] E; try discriminate; [reflexivity|].
    injection E as E1 E2. cbn. rewrite E1, (IH l2 E2). reflexivity.
  Qed.
  Lemma position_in_seq (l : list vertex) k n v :
    map v_id l = seq k n -> k <= v < k + n -> position_in l v = Some (v - k).
  Proof.
    revert k n; induction l as [|x l IH]; intros k n E Hv.
    - destruct n; [lia|discriminate].
    - destruct n; [discriminate|]. injection E as E1 E2. cbn. destruct (Nat.eqb_spec (v_id x) v) as [EQ|NE].
      + f_equal. lia.
      + rewrite (IH (S k) n E2) by lia. cbn. f_equal. lia.
  Qed.
  Lemma position_indexed g x i :
    indexed g -> nth_error (g_vs g) i = Some x -> v_index x = i.
  Proof.
    intros Hi Hn. assert (E : nth_error (map v_index (g_vs g)) i = Some (v_index x)) by (apply map_nth_error; exact Hn).
    rewrite Hi in E. assert (Hlt : i < length (g_vs g)) by (apply nth_error_Some; congruence).
    rewrite (nth_error_nth' _ 0) in E by (rewrite seq_length; exact Hlt).
    rewrite seq_nth in E by exact Hlt. injection E as E. lia.
  Qed.
  Lemma position_nth g v x :
    NoDup (vertex_ids g) -> get_vertex g v = Some x ->
    exists i, position g v = Some i /\ nth_error (g_vs g) i = Some x.
  Proof.
    intros _. unfold get_vertex, position. induction (g_vs g) as [|y l IH]; cbn; [discriminate|].
    destruct (v_id y =? v); intros E.
    - injection E as ->. exists 0; auto.
    - destruct (IH E) as (i & P & N). exists (S i). rewrite P. auto.
  Qed.

  (** the graph being filled while vertices are copied *)
  Definition fresh (ds : list VD) : graph :=
    mkG (map (fun p => mkV (fst p) (fst p) (snd p) [] []) (combine (seq 0 (length ds)) ds)) [] (length ds).

  Lemma combine_snoc {A B} (l1 : list A) (l2 : list B) a b :
    length l1 = length l2 -> combine (l1 ++ [a]) (l2 ++ [b]) = combine l1 l2 ++ [(a, b)].
  Proof.
    revert l2; induction l1 as [|x l1 IH]; intros [|y l2] E; try discriminate; [reflexivity|].
    injection E as E. cbn. rewrite IH by exact E. reflexivity.
  Qed.
  Lemma fresh_snoc ds d :
    add_vertex (fresh ds) d Good = Ok (fresh (ds ++ [d]), Some (length ds)).
  Proof.
    rewrite add_vertex_good. unfold fresh, new_vertex; cbn. f_equal. f_equal.
    rewrite map_length, combine_length, seq_length, Nat.min_id, app_length; cbn.
    rewrite Nat.add_1_r, seq_S, combine_snoc, map_app by (apply seq_length). reflexivity.
  Qed.
  Lemma fresh_snoc_eq ds d :
    mkG (g_vs (fresh ds) ++ [new_vertex (fresh ds) d]) (g_es (fresh ds)) (S (g_next (fresh ds))) = fresh (ds ++ [d]).
  Proof.
    pose proof (fresh_snoc ds d) as E. rewrite add_vertex_good in E.
    assert (X : forall (a b : graph) (c e : option nat), Ok (a, c) = Ok (b, e) -> a = b) by congruence.
    exact (X _ _ _ _ E).
  Qed.
  Lemma fresh_len ds : length (g_vs (fresh ds)) = length ds.
  Proof. unfold fresh; cbn. rewrite map_length, combine_length, seq_length. apply Nat.min_id. Qed.
  Lemma combine_fst {A B} (l1 : list A) (l2 : list B) : length l1 = length l2 -> map fst (combine l1 l2) = l1.
  Proof. revert l2; induction l1; intros [|y l2] E; try discriminate; [reflexivity|]. cbn. f_equal; auto. Qed.
  Lemma combine_snd {A B} (l1 : list A) (l2 : list B) : length l1 = length l2 -> map snd (combine l1 l2) = l2.
  Proof. revert l2; induction l1; intros [|y l2] E; try discriminate; [reflexivity|]. cbn. f_equal; auto. Qed.
  Lemma fresh_ids ds : vertex_ids (fresh ds) = seq 0 (length ds).
  Proof. unfold vertex_ids, fresh; cbn. rewrite map_map; cbn. apply combine_fst. apply seq_length. Qed.
  Lemma fresh_data ds : map v_data (g_vs (fresh ds)) = ds.
  Proof. unfold fresh; cbn. rewrite map_map; cbn. apply combine_snd. apply seq_length. Qed.
  Lemma fresh_exact dir ds : exact dir (fresh ds).
  Proof.
    induction ds as [|d ds IH] using rev_ind; [apply exact_empty|].
    pose proof (add_vertex_exact dir (fresh ds) d IH) as H. rewrite fresh_snoc_eq in H. exact H.
  Qed.
  Lemma fresh_get_last ds d : get_vertex (fresh (ds ++ [d])) (length ds) = Some (mkV (length ds) (length ds) d [] []).
  Proof.
    assert (Hin : In (mkV (length ds) (length ds) d [] []) (g_vs (fresh (ds ++ [d])))).
    { rewrite <- fresh_snoc_eq; cbn.
      apply in_app_iff. right; left. unfold new_vertex; cbn. rewrite map_length, combine_length, seq_length, Nat.min_id.
      reflexivity. }
    exact (get_vertex_unique Directed _ _ (fresh_exact Directed _) Hin).
  Qed.

  Lemma copy_vertices_effect vs : forall ds k,
    length vs <= k ->
    copy_vertices (fresh ds) vs (map Some (seq 0 (length ds)) ++ repeat None k) =
    Ok (fresh (ds ++ map v_data vs), map Some (seq 0 (length ds + length vs)) ++ repeat None (k - length vs)).
  Proof.
    induction vs as [|x vs IH]; intros ds k Hk; cbn in Hk.
    - cbn. rewrite app_nil_r, Nat.add_0_r, Nat.sub_0_r. reflexivity.
    - cbn [copy_vertices]. rewrite fresh_snoc, fresh_get_last. cbn [v_index].
      rewrite app_length, map_length, seq_length, repeat_length.
      destruct (Nat.ltb_spec (length ds) (length ds + k)) as [_|Hbad]; [|lia].
      destruct k as [|k]; [lia|].
      assert (Ef : firstn (length ds) (map (@Some nat) (seq 0 (length ds)) ++ repeat None (S k)) = map Some (seq 0 (length ds))).
      { rewrite firstn_app. rewrite map_length, seq_length, Nat.sub_diag. cbn. rewrite app_nil_r.
        rewrite firstn_all2; [reflexivity|]. rewrite map_length, seq_length. lia. }
      assert (Es : skipn (S (length ds)) (map (@Some nat) (seq 0 (length ds)) ++ repeat None (S k)) = repeat None k).
      { rewrite skipn_app. rewrite map_length, seq_length. rewrite skipn_all2 by (rewrite map_length, seq_length; lia).
        replace (S (length ds) - length ds) with 1 by lia. reflexivity. }
      rewrite Ef, Es.
      assert (Em : map Some (seq 0 (length ds)) ++ Some (length ds) :: repeat None k =
                   map Some (seq 0 (length (ds ++ [v_data x]))) ++ repeat None k).
      { rewrite app_length; cbn. rewrite Nat.add_1_r, seq_S, map_app, <- app_assoc. reflexivity. }
      rewrite Em, IH by lia. cbn [map]. rewrite <- app_assoc. rewrite app_length; cbn [length app].
      replace (length ds + 1 + length vs) with (length ds + S (length vs)) by lia. reflexivity.
  Qed.

  Lemma copy_edges_effect dir (other : graph) : exact dir other -> indexed other ->
    forall (rest : list edge) (h : graph),
    (forall e, In e rest -> In e (g_es other)) ->
    exact dir h -> vertex_ids h = seq 0 (length (g_vs other)) ->
    exists h', copy_edges dir other h rest (map Some (seq 0 (length (g_vs other)))) = Ok h' /\
      exact dir h' /\ vertex_ids h' = vertex_ids h /\ map v_data (g_vs h') = map v_data (g_vs h) /\
      exists new, g_es h' = g_es h ++ new /\
      Forall2 (fun e f => e_data e = e_data f /\
                          position other (e_src e) = Some (e_src f) /\ position other (e_tgt e) = Some (e_tgt f)) rest new.
  Proof.
    intros H Hi. induction rest as [|e rest IH]; intros h Hsub Hh Vh.
    - exists h. cbn. split; [reflexivity|]. split; [exact Hh|]. split; [reflexivity|]. split; [reflexivity|]. exists []. rewrite app_nil_r. auto.
    - cbn [copy_edges]. destruct (ex_end _ _ H e (Hsub e (or_introl eq_refl))) as [Hs Ht].
      destruct (get_vertex_some _ _ Hs) as [sv Es], (get_vertex_some _ _ Ht) as [tv Et]. rewrite Es, Et. cbn [derefO].
      destruct (position_nth _ _ _ (ex_vid _ _ H) Es) as (i & Pi & Ni).
      destruct (position_nth _ _ _ (ex_vid _ _ H) Et) as (j & Pj & Nj).
      rewrite (position_indexed _ _ _ Hi Ni), (position_indexed _ _ _ Hi Nj).
      assert (Li : i < length (g_vs other)) by (apply nth_error_Some; congruence).
      assert (Lj : j < length (g_vs other)) by (apply nth_error_Some; congruence).
      assert (Nm : forall k, k < length (g_vs other) -> nth_error (map Some (seq 0 (length (g_vs other)))) k = Some (Some k)).
      { intros k Hk. apply map_nth_error. rewrite (nth_error_nth' _ 0) by (rewrite seq_length; exact Hk).
        rewrite seq_nth by exact Hk. reflexivity. }
      rewrite (Nm i Li), (Nm j Lj).
      assert (Vi : In i (vertex_ids h)) by (rewrite Vh; apply in_seq; lia).
      assert (Vj : In j (vertex_ids h)) by (rewrite Vh; apply in_seq; lia).
      rewrite (add_edge_effect dir h i j (e_data e) Good Good Good Hh Vi Vj).
      assert (Eok : add_edge_succeeds dir i j Good Good Good = true).
      { destruct dir; cbn; auto. apply orb_true_r. }
      rewrite Eok. set (h1 := canon dir h (g_es h ++ [new_edge h i j (e_data e)]) (S (g_next h))).
      destruct (IH h1) as (h' & E & X & V & D & new & Enew & F).
      + intros f Hf; apply Hsub; right; exact Hf.
      + apply add_edge_exact; assumption.
      + unfold h1. rewrite canon_ids. exact Vh.
      + exists h'. split; [exact E|]. split; [exact X|]. split; [rewrite V; unfold h1; apply canon_ids|].
        split; [rewrite D; unfold h1, canon; cbn; rewrite map_map; reflexivity|].
        exists (new_edge h i j (e_data e) :: new). split.
        * rewrite Enew. unfold h1, canon; cbn. rewrite <- app_assoc. reflexivity.
        * constructor; [|exact F]. cbn. auto.
  Qed.

  Theorem copy_from_same_shape dir g :
    exact dir g -> indexed g ->
    exists h, copy_from dir g = Ok h /\ exact dir h /\ same_shape g h.
  Proof.
    intros H Hi. unfold copy_from.
    pose proof (copy_vertices_effect (g_vs g) [] (length (g_vs g)) (le_n _)) as C. cbn in C.
    rewrite Nat.sub_diag in C. cbn in C. rewrite app_nil_r in C.
    change (fresh []) with (@empty_graph VD ED) in C. rewrite C. cbn [bindO].
    destruct (copy_edges_effect dir g H Hi (g_es g) (fresh (map v_data (g_vs g)))) as (h & E & X & V & D & new & En & F).
    - auto.
    - apply fresh_exact.
    - rewrite fresh_ids, map_length. reflexivity.
    - exists h. split; [exact E|]. split; [exact X|]. split; [rewrite D, fresh_data; reflexivity|].
      cbn in En. rewrite En.
      assert (Hpos : forall a i, position g a = Some i -> position h i = Some i).
      { intros a i P. assert (Li : i < length (g_vs g)).
        { clear -P. unfold position in P. revert i P; induction (g_vs g) as [|x l IH]; intros i P; cbn in *; [discriminate|].
          destruct (v_id x =? a); [injection P as <-; lia|]. destruct (position_in l a) as [j|]; [|discriminate].
          injection P as <-. specialize (IH j eq_refl). lia. }
        unfold position. rewrite (position_in_seq (g_vs h) 0 (length (g_vs g)) i); [f_equal; lia| |lia].
        change (map v_id (g_vs h)) with (vertex_ids h). rewrite V, fresh_ids, map_length. reflexivity. }
      clear -F Hpos. induction F as [|e f l l' (D & S & T) F IH]; constructor; auto.
      split; [exact D|]. split; [exists (e_src f)|exists (e_tgt f)]; split; auto; eapply Hpos; eauto.
  Qed.
End Proofs3.
