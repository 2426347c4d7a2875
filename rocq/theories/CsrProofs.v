(** Proofs about the compressed graph. *)
From Verif Require Import Base ListAux AdjList AdjListSpec AdjListProofs AdjListProofs3 Csr.

Section CsrProofs.
  Context {VD ED : Type}.
  Notation graph := (graph VD ED).
  Implicit Types (g : graph) (dir : direction).

  (** index of a vertex, for specification purposes: its position *)
  Definition pos g v : nat := match position g v with Some i => i | None => 0 end.
  Definition crow g (e : edge ED) : nat * nat * ED := (pos g (e_src e), pos g (e_tgt e), e_data e).
  Definition forward g v : list (edge ED) := filter (fun e => e_src e =? v) (g_es g).

  Lemma index_pos g v x : NoDup (vertex_ids g) -> indexed g -> get_vertex g v = Some x -> v_index x = pos g v.
  Proof.
    intros Hnd Hi E. destruct (position_nth g v x Hnd E) as (i & P & N). unfold pos. rewrite P.
    exact (position_indexed g x i Hi N).
  Qed.

  Lemma pos_inj g a b : NoDup (vertex_ids g) -> In a (vertex_ids g) -> In b (vertex_ids g) -> pos g a = pos g b -> a = b.
  Proof.
    intros Hnd Ha Hb E.
    destruct (get_vertex_some g a Ha) as [x Ex], (get_vertex_some g b Hb) as [y Ey].
    destruct (position_nth g a x Hnd Ex) as (i & P & N), (position_nth g b y Hnd Ey) as (j & Q & M).
    unfold pos in E. rewrite P, Q in E. subst j. rewrite N in M. injection M as <-.
    apply get_vertex_in in Ex as [_ Ex], Ey as [_ Ey]. congruence.
  Qed.

  Lemma csr_edges_effect dir g v x : exact dir g -> indexed g -> In x (g_vs g) -> v_id x = v ->
    forall l es0, (forall e, In e l -> In e (g_es g) /\ leaves dir v e = true) ->
    csr_edges dir g (v_index x) (map e_id l) es0 (length es0) =
    Ok (es0 ++ map (crow g) (filter (fun e => e_src e =? v) l),
        length (es0 ++ map (crow g) (filter (fun e => e_src e =? v) l))).
  Proof.
    intros H Hi Hx Ex. induction l as [|e l IH]; intros es0 Hl.
    - cbn. rewrite app_nil_r. reflexivity.
    - destruct (Hl e (or_introl eq_refl)) as [He Le]. cbn [map csr_edges].
      rewrite (get_edge_of _ _ _ H He). cbn [derefO].
      destruct (ex_end _ _ H e He) as [Hs Ht].
      destruct (get_vertex_some g _ Hs) as [s Es], (get_vertex_some g _ Ht) as [t Et].
      rewrite Es, Et. cbn [derefO].
      rewrite (index_pos g _ s (ex_vid _ _ H) Hi Es), (index_pos g _ t (ex_vid _ _ H) Hi Et).
      assert (Ev : get_vertex g v = Some x) by (rewrite <- Ex; apply (get_vertex_unique dir g x H Hx)).
      rewrite (index_pos g _ x (ex_vid _ _ H) Hi Ev).
      assert (Hv : In v (vertex_ids g)) by (rewrite <- Ex; apply in_map; exact Hx).
      assert (Hnext : forall es1, csr_edges dir g (pos g v) (map e_id l) es1 (length es1) =
        Ok (es1 ++ map (crow g) (filter (fun e => e_src e =? v) l),
            length (es1 ++ map (crow g) (filter (fun e => e_src e =? v) l)))).
      { intros es1. rewrite <- (index_pos g _ x (ex_vid _ _ H) Hi Ev). apply IH. intros e' He'. apply Hl; right; exact He'. }
      assert (Eeq : forall a, In a (vertex_ids g) -> (pos g a =? pos g v) = (a =? v)).
      { intros a Ha. destruct (Nat.eqb_spec a v) as [->|NE]; [apply Nat.eqb_refl|].
        apply Nat.eqb_neq. intros E. apply NE. exact (pos_inj g a v (ex_vid _ _ H) Ha Hv E). }
      rewrite (Eeq _ Hs), (Eeq _ Ht). cbn [filter].
      destruct (Nat.eqb_spec (e_src e) v) as [E|NE].
      + assert (Eskip : match dir with Undirected => negb true && (e_tgt e =? v) | _ => false end = false)
          by (destruct dir; reflexivity).
        rewrite Eskip. cbn [map].
        replace (S (length es0)) with (length (es0 ++ [(pos g (e_src e), pos g (e_tgt e), e_data e)]))
          by (rewrite app_length; cbn; lia).
        rewrite Hnext. rewrite <- !app_assoc. reflexivity.
      + assert (Ed : dir = Undirected /\ e_tgt e = v).
        { unfold leaves in Le. destruct (Nat.eqb_spec (e_src e) v); [contradiction|]. cbn in Le.
          destruct dir; try discriminate. apply Nat.eqb_eq in Le. auto. }
        destruct Ed as [-> Et']. rewrite Et', Nat.eqb_refl. cbn [negb andb]. apply Hnext.
  Qed.

  (** the rows of the vertices [xs], one after another *)
  Definition rows g (xs : list (vertex VD)) : list (nat * nat * ED) :=
    flat_map (fun x => map (crow g) (forward g (v_id x))) xs.
  Fixpoint starts g (n : nat) (xs : list (vertex VD)) : list (nat * VD) :=
    match xs with
    | [] => []
    | x :: r => (n, v_data x) :: starts g (n + length (forward g (v_id x))) r
    end.

  Lemma filter_forward dir g v : filter (fun e => e_src e =? v) (filter (leaves dir v) (g_es g)) = forward g v.
  Proof.
    rewrite filter_filter. unfold forward. apply filter_ext. intros e. unfold leaves.
    destruct (e_src e =? v); cbn; [reflexivity|apply andb_false_r].
  Qed.

  Lemma csr_vertices_effect dir g : exact dir g -> indexed g ->
    forall xs c, (forall x, In x xs -> In x (g_vs g)) ->
    csr_vertices dir g xs c (length (c_es c)) =
    Ok (mkC (c_vs c ++ starts g (length (c_es c)) xs) (c_es c ++ rows g xs)).
  Proof.
    intros H Hi. induction xs as [|x xs IH]; intros c Hxs.
    - cbn. rewrite !app_nil_r. destruct c; reflexivity.
    - cbn [csr_vertices]. assert (Hx : In x (g_vs g)) by (apply Hxs; left; reflexivity).
      assert (Eo : v_out x = map e_id (filter (leaves dir (v_id x)) (g_es g))) by apply (ex_out _ _ H x Hx).
      rewrite Eo.
      pose proof (csr_edges_effect dir g (v_id x) x H Hi Hx eq_refl (filter (leaves dir (v_id x)) (g_es g)) (c_es c)) as E.
      rewrite E by (intros e He; apply filter_In in He; exact He). rewrite filter_forward. clear E.
      pose proof (IH (mkC (c_vs c ++ [(length (c_es c), v_data x)]) (c_es c ++ map (crow g) (forward g (v_id x))))) as E.
      cbn [c_es c_vs] in E. rewrite E by (intros y Hy; apply Hxs; right; exact Hy). clear E.
      cbn [starts]. unfold rows. cbn [flat_map]. rewrite <- !app_assoc. rewrite app_length, map_length. reflexivity.
  Qed.

  Lemma from_adjacency_list_effect dir g : exact dir g -> indexed g ->
    from_adjacency_list dir g = Ok (mkC (starts g 0 (g_vs g)) (rows g (g_vs g))).
  Proof. intros H Hi. exact (csr_vertices_effect dir g H Hi (g_vs g) (mkC [] []) (fun x Hx => Hx)). Qed.

  Lemma rows_app g l1 l2 : rows g (l1 ++ l2) = rows g l1 ++ rows g l2.
  Proof. apply flat_map_app. Qed.
  Lemma starts_nth g xs i x n : nth_error xs i = Some x ->
    nth_error (starts g n xs) i = Some (n + length (rows g (firstn i xs)), v_data x).
  Proof.
    revert i n; induction xs as [|y xs IH]; intros i n E; [destruct i; discriminate|].
    destruct i; cbn in E.
    - injection E as ->. cbn. rewrite Nat.add_0_r. reflexivity.
    - cbn. rewrite (IH i _ E). unfold rows. cbn. rewrite app_length, map_length. f_equal. f_equal. lia.
  Qed.
  Lemma starts_length g xs n : length (starts g n xs) = length xs.
  Proof. revert n; induction xs as [|x xs IH]; intros n; cbn; auto. Qed.
  Lemma starts_data g xs n : map snd (starts g n xs) = map v_data xs.
  Proof. revert n; induction xs as [|x xs IH]; intros n; cbn; [reflexivity|]. f_equal. apply IH. Qed.

  Lemma split_nth {A} (l : list A) i x : nth_error l i = Some x -> l = firstn i l ++ x :: skipn (S i) l.
  Proof.
    revert i; induction l as [|y l IH]; intros i E; [destruct i; discriminate|].
    destruct i; cbn in *; [injection E as ->; reflexivity|]. f_equal. apply IH; exact E.
  Qed.

  Lemma csr_range_effect dir g c i x : exact dir g -> indexed g -> from_adjacency_list dir g = Ok c ->
    nth_error (g_vs g) i = Some x ->
    csr_range c i = Some (length (rows g (firstn i (g_vs g))), length (rows g (firstn (S i) (g_vs g)))).
  Proof.
    intros H Hi E Hn. rewrite (from_adjacency_list_effect dir g H Hi) in E. injection E as <-.
    unfold csr_range; cbn [c_vs c_es]. rewrite (starts_nth g _ i x 0 Hn). cbn [Nat.add].
    destruct (nth_error (g_vs g) (S i)) as [y|] eqn:En.
    - rewrite (starts_nth g _ (S i) y 0 En). reflexivity.
    - assert (L : length (g_vs g) <= S i) by (apply nth_error_None; exact En).
      assert (Nn : nth_error (starts g 0 (g_vs g)) (S i) = None) by (apply nth_error_None; rewrite starts_length; exact L).
      rewrite Nn. rewrite (firstn_all2 _ L). reflexivity.
  Qed.

  Lemma firstn_S_nth {A} (l : list A) i x : nth_error l i = Some x -> firstn (S i) l = firstn i l ++ [x].
  Proof.
    revert i; induction l as [|y l IH]; intros i E; [destruct i; discriminate|].
    destruct i; cbn in *; [injection E as ->; reflexivity|]. f_equal. apply IH; exact E.
  Qed.

  Lemma csr_out_effect dir g c i x : exact dir g -> indexed g -> from_adjacency_list dir g = Ok c ->
    nth_error (g_vs g) i = Some x ->
    csr_out c i = Ok (seq (length (rows g (firstn i (g_vs g)))) (length (forward g (v_id x)))) /\
    (forall k e, nth_error (forward g (v_id x)) k = Some e ->
       nth_error (c_es c) (length (rows g (firstn i (g_vs g))) + k) = Some (crow g e)).
  Proof.
    intros H Hi E Hn. pose proof (csr_range_effect dir g c i x H Hi E Hn) as R.
    rewrite (from_adjacency_list_effect dir g H Hi) in E. injection E as <-.
    assert (Es : rows g (firstn (S i) (g_vs g)) = rows g (firstn i (g_vs g)) ++ map (crow g) (forward g (v_id x))).
    { rewrite (firstn_S_nth _ _ _ Hn), rows_app. unfold rows at 2; cbn. rewrite app_nil_r. reflexivity. }
    assert (Ea : rows g (g_vs g) = rows g (firstn i (g_vs g)) ++ map (crow g) (forward g (v_id x)) ++ rows g (skipn (S i) (g_vs g))).
    { rewrite (split_nth _ _ _ Hn) at 1. rewrite rows_app. unfold rows at 2; cbn. reflexivity. }
    split.
    - unfold csr_out. rewrite R; cbn [c_es]. rewrite Es, Ea, !app_length, !map_length.
      set (a := length (rows g (firstn i (g_vs g)))). set (b := length (forward g (v_id x))).
      set (d := length (rows g (skipn (S i) (g_vs g)))).
      destruct (Nat.ltb_spec (a + (b + d)) a); [lia|]. destruct (Nat.ltb_spec (a + (b + d)) (a + b)); [lia|].
      destruct (Nat.ltb_spec (a + b) a); [lia|]. cbn. f_equal. f_equal. lia.
    - intros k e Hk. cbn [c_es]. rewrite Ea. rewrite nth_error_app2 by lia.
      replace (_ + k - _) with k by lia. rewrite nth_error_app1.
      + rewrite (map_nth_error (crow g) _ _ Hk). reflexivity.
      + rewrite map_length. apply nth_error_Some. congruence.
  Qed.

  Lemma flat_map_seq_rows (all : list (nat * nat * ED)) (l : list (nat * nat * ED)) a :
    (forall k e, nth_error l k = Some e -> nth_error all (a + k) = Some e) ->
    flat_map (fun e => match nth_error all e with Some (_, t, d) => [(t, d)] | None => [] end) (seq a (length l)) =
    map (fun r => (snd (fst r), snd r)) l.
  Proof.
    revert a; induction l as [|r l IH]; intros a Hk; [reflexivity|]. cbn.
    pose proof (Hk 0 r eq_refl) as H0. rewrite Nat.add_0_r in H0. rewrite H0. destruct r as [[s t] d]. cbn. f_equal.
    apply IH. intros k e He. specialize (Hk (S k) e He). rewrite <- Nat.add_succ_comm in Hk. exact Hk.
  Qed.

  Lemma csr_outs_effect dir g c i x : exact dir g -> indexed g -> from_adjacency_list dir g = Ok c ->
    nth_error (g_vs g) i = Some x ->
    csr_outs c i = map (fun e => (pos g (e_tgt e), e_data e)) (forward g (v_id x)).
  Proof.
    intros H Hi E Hn. destruct (csr_out_effect dir g c i x H Hi E Hn) as [Eo Ek]. unfold csr_outs. rewrite Eo.
    rewrite <- (map_length (crow g)). rewrite flat_map_seq_rows.
    - rewrite map_map. reflexivity.
    - intros k e He. destruct (nth_error (forward g (v_id x)) k) as [f|] eqn:Ef.
      + rewrite (map_nth_error (crow g) _ _ Ef) in He. injection He as <-. apply Ek. exact Ef.
      + exfalso. assert (K : nth_error (map (crow g) (forward g (v_id x))) k = None).
        { apply nth_error_None. rewrite map_length. apply nth_error_None. exact Ef. }
        congruence.
  Qed.

  Lemma flat_map_partition_perm {A B} (f : A -> nat) (h : A -> B) (l : list A) (ks : list nat) :
    NoDup ks -> (forall a, In a l -> In (f a) ks) ->
    Permutation (flat_map (fun k => map h (filter (fun a => f a =? k) l)) ks) (map h l).
  Proof.
    intros Hnd. induction l as [|a l IH]; intros Hin.
    - assert (E : flat_map (fun k => map h (filter (fun a => f a =? k) [])) ks = []) by (clear; induction ks; cbn; auto).
      rewrite E. constructor.
    - cbn [map]. transitivity (h a :: flat_map (fun k => map h (filter (fun a => f a =? k) l)) ks);
        [|constructor; apply IH; intros b Hb; apply Hin; right; exact Hb].
      assert (Ha : In (f a) ks) by (apply Hin; left; reflexivity). clear Hin IH.
      induction ks as [|k ks IHk]; [destruct Ha|]. inversion Hnd as [|? ? N1 N2]; subst. cbn.
      destruct (Nat.eqb_spec (f a) k) as [Ek|NE].
      + subst k. cbn. constructor. apply Permutation_app_head.
        assert (E : flat_map (fun k' => map h (if f a =? k' then a :: filter (fun a0 => f a0 =? k') l else filter (fun a0 => f a0 =? k') l)) ks
                    = flat_map (fun k' => map h (filter (fun a0 => f a0 =? k') l)) ks).
        { apply flat_map_ext_in'. intros k' Hk'. destruct (Nat.eqb_spec (f a) k') as [E|]; [rewrite <- E in Hk'; contradiction|reflexivity]. }
        rewrite E. reflexivity.
      + destruct Ha as [Ha|Ha]; [congruence|]. rewrite (IHk N2 Ha). symmetry. apply Permutation_middle.
  Qed.

  Lemma rows_perm dir g : exact dir g -> Permutation (rows g (g_vs g)) (map (crow g) (g_es g)).
  Proof.
    intros H. unfold rows, forward.
    replace (flat_map (fun x => map (crow g) (filter (fun e => e_src e =? v_id x) (g_es g))) (g_vs g))
      with (flat_map (fun k => map (crow g) (filter (fun e => e_src e =? k) (g_es g))) (vertex_ids g)).
    2:{ unfold vertex_ids. induction (g_vs g); cbn; [reflexivity|]. f_equal; assumption. }
    apply flat_map_partition_perm; [apply (ex_vid _ _ H)|]. intros e He. apply (ex_end _ _ H e He).
  Qed.
End CsrProofs.
