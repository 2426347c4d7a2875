(** C34: pairing of matches with ground truths. *)
From Verif Require Import Base ListAux Forwarder.

Section C34.
  Context {Id M T : Type}.
  Variable ideq : Id -> Id -> bool.
  Hypothesis ideq_spec : forall a b, reflect (a = b) (ideq a b).
  Variable mid : M -> Id.
  Variable tid : T -> Id.
  Variable empty_match : Id -> M.
  Variable order : list (Id * T) -> list (Id * T).
  Hypothesis order_ok : forall l, Permutation l (order l).
  Notation arrival := (arrival M T).

  (** what arrived on either side *)
  Definition matches (h : list arrival) : list M := flat_map (fun a => match a with Matched m => [m] | Truth _ => [] end) h.
  Definition truths (h : list arrival) : list T := flat_map (fun a => match a with Truth t => [t] | Matched _ => [] end) h.

  Definition matched (h : list arrival) (i : Id) : bool := existsb (fun m => ideq (mid m) i) (matches h).
  Definition has_truth (h : list arrival) (i : Id) : bool := existsb (fun t => ideq (tid t) i) (truths h).

  Lemma matches_snoc h a : matches (h ++ [a]) = matches h ++ match a with Matched m => [m] | Truth _ => [] end.
  Proof. unfold matches. rewrite flat_map_app. cbn. rewrite app_nil_r. reflexivity. Qed.
  Lemma truths_snoc h a : truths (h ++ [a]) = truths h ++ match a with Truth t => [t] | Matched _ => [] end.
  Proof. unfold truths. rewrite flat_map_app. cbn. rewrite app_nil_r. reflexivity. Qed.

  Lemma matched_In h i : matched h i = true <-> In i (map mid (matches h)).
  Proof.
    unfold matched. rewrite existsb_exists, in_map_iff. split; intros (m & A & B); exists m.
    - destruct (ideq_spec (mid m) i); [auto|discriminate].
    - split; [exact B|]. destruct (ideq_spec (mid m) i); [auto|contradiction].
  Qed.
  Lemma truth_In h i : has_truth h i = true <-> In i (map tid (truths h)).
  Proof.
    unfold has_truth. rewrite existsb_exists, in_map_iff. split; intros (m & A & B); exists m.
    - destruct (ideq_spec (tid m) i); [auto|discriminate].
    - split; [exact B|]. destruct (ideq_spec (tid m) i); [auto|contradiction].
  Qed.

  (** the pairs with equal ids *)
  Definition pairs (ms : list M) (ts : list T) : list (M * T) :=
    flat_map (fun m => map (fun t => (m, t)) (filter (fun t => ideq (tid t) (mid m)) ts)) ms.

  Lemma pairs_snoc_m ms ts m : pairs (ms ++ [m]) ts = pairs ms ts ++ map (fun t => (m, t)) (filter (fun t => ideq (tid t) (mid m)) ts).
  Proof. unfold pairs. rewrite flat_map_app. cbn. rewrite app_nil_r. reflexivity. Qed.
  Lemma pairs_snoc_t ms ts t : Permutation (pairs ms (ts ++ [t])) (pairs ms ts ++ map (fun m => (m, t)) (filter (fun m => ideq (mid m) (tid t)) ms)).
  Proof.
    induction ms as [|m ms IH]; cbn; [reflexivity|]. fold (pairs ms (ts ++ [t])). fold (pairs ms ts).
    rewrite filter_app, map_app, IH. cbn.
    assert (E : ideq (tid t) (mid m) = ideq (mid m) (tid t)) by (destruct (ideq_spec (tid t) (mid m)), (ideq_spec (mid m) (tid t)); congruence).
    rewrite E. destruct (ideq (mid m) (tid t)); cbn.
    - rewrite <- !app_assoc. apply Permutation_app_head. cbn.
      apply Permutation_middle with (l1 := pairs ms ts).
    - rewrite app_nil_r, app_assoc. reflexivity.
  Qed.

  (** what is kept after the arrivals [h] *)
  Definition open_matches h := map (fun m => (mid m, m)) (filter (fun m => negb (has_truth h (mid m))) (matches h)).
  Definition open_truths h := map (fun t => (tid t, t)) (filter (fun t => negb (matched h (tid t))) (truths h)).

  Lemma mfind_map {A} (key : A -> Id) (l : list A) i :
    NoDup (map key l) -> mfind ideq i (map (fun a => (key a, a)) l) = hd_error (filter (fun a => ideq (key a) i) l)
                         /\ length (filter (fun a => ideq (key a) i) l) <= 1.
  Proof.
    unfold mfind. induction l as [|a l IH]; intros Nd; cbn; [auto|]. inversion Nd as [|? ? Na Nl]; subst.
    destruct (ideq_spec (key a) i) as [E|E]; cbn; [|apply IH; exact Nl].
    split; [reflexivity|]. rewrite (filter_false _ l); [cbn; lia|]. intros b Hb. destruct (ideq_spec (key b) i); [|reflexivity].
    exfalso. apply Na. rewrite E, <- e. apply in_map; exact Hb.
  Qed.
  Lemma filter_map_key {A} (key : A -> Id) f (l : list A) : NoDup (map key l) -> NoDup (map key (filter f l)).
  Proof. intros H. apply NoDup_map_filter. exact H. Qed.

  Definition good (h : list arrival) (s : fwd) : Prop :=
    f_matches s = open_matches h /\ f_compares s = open_truths h /\ Permutation (f_log s) (pairs (matches h) (truths h)).

  Lemma find_truth h i : NoDup (map tid (truths h)) -> matched h i = false ->
    mfind ideq i (open_truths h) = hd_error (filter (fun t => ideq (tid t) i) (truths h)).
  Proof.
    intros Nd Hm. unfold open_truths. destruct (mfind_map tid (filter (fun t => negb (matched h (tid t))) (truths h)) i) as [E _].
    { apply filter_map_key; exact Nd. }
    rewrite E, filter_filter. f_equal. apply filter_ext_in'. intros t _.
    destruct (ideq_spec (tid t) i) as [->|]; [rewrite Hm; reflexivity|]. apply andb_false_r || reflexivity.
  Qed.
  Lemma find_match h i : NoDup (map mid (matches h)) -> has_truth h i = false ->
    mfind ideq i (open_matches h) = hd_error (filter (fun m => ideq (mid m) i) (matches h)).
  Proof.
    intros Nd Hm. unfold open_matches. destruct (mfind_map mid (filter (fun m => negb (has_truth h (mid m))) (matches h)) i) as [E _].
    { apply filter_map_key; exact Nd. }
    rewrite E, filter_filter. f_equal. apply filter_ext_in'. intros t _.
    destruct (ideq_spec (mid t) i) as [->|]; [rewrite Hm; reflexivity|]. apply andb_false_r || reflexivity.
  Qed.
  Lemma erase_map {A} (key : A -> Id) i (l : list A) :
    merase ideq i (map (fun a => (key a, a)) l) = map (fun a => (key a, a)) (filter (fun a => negb (ideq (key a) i)) l).
  Proof. unfold merase. rewrite filter_map_comm. reflexivity. Qed.

  Lemma pass_good h s a :
    good h s -> NoDup (map mid (matches (h ++ [a]))) -> NoDup (map tid (truths (h ++ [a]))) ->
    good (h ++ [a]) (pass ideq mid tid s a).
  Proof.
    intros (GM & GC & GL) Nm Nt. destruct a as [m|t]; cbn [pass].
    - rewrite matches_snoc in Nm. rewrite truths_snoc, app_nil_r in Nt. rewrite map_app in Nm. cbn in Nm.
      assert (Hm : matched h (mid m) = false).
      { apply not_true_iff_false. rewrite matched_In. intros H. apply NoDup_remove_2 in Nm. rewrite app_nil_r in Nm. contradiction. }
      assert (Nm' : NoDup (map mid (matches h))) by (apply NoDup_remove_1 in Nm; rewrite app_nil_r in Nm; exact Nm).
      assert (HT : forall i, has_truth (h ++ [Matched m]) i = has_truth h i)
        by (intros; unfold has_truth; rewrite truths_snoc, app_nil_r; reflexivity).
      assert (HM : forall i, matched (h ++ [Matched m]) i = matched h i || ideq (mid m) i)
        by (intros; unfold matched; rewrite matches_snoc, existsb_app; cbn; rewrite orb_false_r; reflexivity).
      assert (OT : open_truths (h ++ [Matched m]) = merase ideq (mid m) (open_truths h)).
      { unfold open_truths. rewrite erase_map, filter_filter, truths_snoc, app_nil_r. f_equal. apply filter_ext_in'. intros t _.
        rewrite HM, negb_orb. 
        assert (E : ideq (mid m) (tid t) = ideq (tid t) (mid m)) by (destruct (ideq_spec (tid t) (mid m)), (ideq_spec (mid m) (tid t)); congruence).
        rewrite E. try rewrite andb_comm; reflexivity. }
      unfold pass_match. rewrite GC, (find_truth h (mid m) Nt Hm).
      destruct (mfind_map tid (truths h) (mid m) Nt) as [_ Len].
      destruct (filter (fun t => ideq (tid t) (mid m)) (truths h)) as [|t tl] eqn:F; cbn [hd_error].
      + assert (Hno : has_truth h (mid m) = false).
        { apply not_true_iff_false. unfold has_truth. rewrite existsb_exists. intros (t & Ht & E).
          assert (K : In t []) by (rewrite <- F; apply filter_In; auto). destruct K. }
        split; [|split]; cbn.
        * rewrite GM. unfold memplace. rewrite (find_match h (mid m) Nm' Hno).
          assert (E : filter (fun m0 => ideq (mid m0) (mid m)) (matches h) = []).
          { apply filter_false. intros x Hx. destruct (ideq_spec (mid x) (mid m)); [|reflexivity].
            exfalso. apply not_true_iff_false in Hm. apply Hm, matched_In. rewrite <- e. apply in_map; exact Hx. }
          rewrite E. cbn. unfold open_matches. rewrite matches_snoc, filter_app, map_app. cbn. rewrite HT, Hno. cbn.
          f_equal. f_equal. apply filter_ext_in'. intros x _. rewrite HT. reflexivity.
        * rewrite OT. unfold merase. symmetry. apply filter_true. intros [i t] Hi. cbn.
          unfold open_truths in Hi. apply in_map_iff in Hi as (t' & [= <- ->] & Hi). apply filter_In in Hi as [Hi _].
          destruct (ideq_spec (tid t) (mid m)); [|reflexivity]. exfalso.
          assert (K : In t []) by (rewrite <- F; apply filter_In; split; [exact Hi|rewrite e; destruct (ideq_spec (mid m) (mid m)); auto]).
          destruct K.
        * rewrite matches_snoc, truths_snoc, app_nil_r, pairs_snoc_m, F. cbn. rewrite app_nil_r. exact GL.
      + destruct tl; [|cbn in Len; lia]. split; [|split]; cbn.
        * rewrite GM. unfold open_matches. rewrite matches_snoc, filter_app, map_app. cbn. rewrite HT.
          assert (Hyes : has_truth h (mid m) = true).
          { unfold has_truth. rewrite existsb_exists. exists t. apply (filter_In (fun t => ideq (tid t) (mid m))). rewrite F. left; reflexivity. }
          rewrite Hyes. cbn. rewrite app_nil_r. f_equal. apply filter_ext_in'. intros x _. rewrite HT. reflexivity.
        * rewrite OT. reflexivity.
        * rewrite matches_snoc, truths_snoc, app_nil_r, pairs_snoc_m, F. cbn. apply Permutation_app_tail. exact GL.
    - rewrite truths_snoc in Nt. rewrite matches_snoc, app_nil_r in Nm. rewrite map_app in Nt. cbn in Nt.
      assert (Hm : has_truth h (tid t) = false).
      { apply not_true_iff_false. rewrite truth_In. intros H. apply NoDup_remove_2 in Nt. rewrite app_nil_r in Nt. contradiction. }
      assert (Nt' : NoDup (map tid (truths h))) by (apply NoDup_remove_1 in Nt; rewrite app_nil_r in Nt; exact Nt).
      assert (HM : forall i, matched (h ++ [Truth t]) i = matched h i)
        by (intros; unfold matched; rewrite matches_snoc, app_nil_r; reflexivity).
      assert (HT : forall i, has_truth (h ++ [Truth t]) i = has_truth h i || ideq (tid t) i)
        by (intros; unfold has_truth; rewrite truths_snoc, existsb_app; cbn; rewrite orb_false_r; reflexivity).
      assert (OT : open_matches (h ++ [Truth t]) = merase ideq (tid t) (open_matches h)).
      { unfold open_matches. rewrite erase_map, filter_filter, matches_snoc, app_nil_r. f_equal. apply filter_ext_in'. intros m _.
        rewrite HT, negb_orb.
        assert (E : ideq (tid t) (mid m) = ideq (mid m) (tid t)) by (destruct (ideq_spec (tid t) (mid m)), (ideq_spec (mid m) (tid t)); congruence).
        rewrite E. try rewrite andb_comm; reflexivity. }
      unfold pass_compare. rewrite GM, (find_match h (tid t) Nm Hm).
      destruct (mfind_map mid (matches h) (tid t) Nm) as [_ Len].
      destruct (filter (fun m => ideq (mid m) (tid t)) (matches h)) as [|m ml] eqn:F; cbn [hd_error].
      + assert (Hno : matched h (tid t) = false).
        { apply not_true_iff_false. unfold matched. rewrite existsb_exists. intros (m & Ht & E).
          assert (K : In m []) by (rewrite <- F; apply filter_In; auto). destruct K. }
        split; [|split]; cbn.
        * rewrite OT. unfold merase. symmetry. apply filter_true. intros [i m] Hi. cbn.
          unfold open_matches in Hi. apply in_map_iff in Hi as (m' & [= <- ->] & Hi). apply filter_In in Hi as [Hi _].
          destruct (ideq_spec (mid m) (tid t)); [|reflexivity]. exfalso.
          assert (K : In m []) by (rewrite <- F; apply filter_In; split; [exact Hi|rewrite e; destruct (ideq_spec (tid t) (tid t)); auto]).
          destruct K.
        * rewrite GC. unfold memplace. rewrite (find_truth h (tid t) Nt' Hno).
          assert (E : filter (fun t0 => ideq (tid t0) (tid t)) (truths h) = []).
          { apply filter_false. intros x Hx. destruct (ideq_spec (tid x) (tid t)); [|reflexivity].
            exfalso. apply not_true_iff_false in Hm. apply Hm, truth_In. rewrite <- e. apply in_map; exact Hx. }
          rewrite E. cbn. unfold open_truths. rewrite truths_snoc, filter_app, map_app. cbn. rewrite HM, Hno. cbn.
          f_equal. f_equal. apply filter_ext_in'. intros x _. rewrite HM. reflexivity.
        * rewrite matches_snoc, truths_snoc, app_nil_r, pairs_snoc_t, F. cbn. rewrite app_nil_r. exact GL.
      + destruct ml; [|cbn in Len; lia]. split; [|split]; cbn.
        * rewrite OT. reflexivity.
        * rewrite GC. unfold open_truths. rewrite truths_snoc, filter_app, map_app. cbn. rewrite HM.
          assert (Hyes : matched h (tid t) = true).
          { unfold matched. rewrite existsb_exists. exists m. apply (filter_In (fun m => ideq (mid m) (tid t))). rewrite F. left; reflexivity. }
          rewrite Hyes. cbn. rewrite app_nil_r. f_equal. apply filter_ext_in'. intros x _. rewrite HM. reflexivity.
        * rewrite matches_snoc, truths_snoc, app_nil_r, pairs_snoc_t, F. cbn. apply Permutation_app_tail. exact GL.
  Qed.

  Lemma nodup_app_l {A} (l m : list A) : NoDup (l ++ m) -> NoDup l.
  Proof.
    induction l as [|x l IH]; cbn; intros H; [constructor|]. inversion H as [|? ? N K]; subst.
    constructor; [|apply IH; exact K]. intros I. apply N, in_app_iff. auto.
  Qed.

  Lemma fold_good h2 : forall h s, good h s -> NoDup (map mid (matches (h ++ h2))) -> NoDup (map tid (truths (h ++ h2))) ->
    good (h ++ h2) (fold_left (pass ideq mid tid) h2 s).
  Proof.
    induction h2 as [|a h2 IH]; intros h s G Nm Nt; cbn [fold_left].
    - rewrite app_nil_r. exact G.
    - replace (h ++ a :: h2) with ((h ++ [a]) ++ h2) in * by (rewrite <- app_assoc; reflexivity).
      apply IH; auto. apply pass_good; auto.
      + unfold matches in Nm |- *. rewrite flat_map_app, map_app in Nm. apply nodup_app_l in Nm. exact Nm.
      + unfold truths in Nt |- *. rewrite flat_map_app, map_app in Nt. apply nodup_app_l in Nt. exact Nt.
  Qed.

  (** **** C34.  In whatever order they arrive, the comparisons are exactly: every match with the ground truth of the same
      id, once; and, unless disabled, every ground truth without a match against the empty match of its id. *)
  Theorem C34_pairing ignore h :
    NoDup (map mid (matches h)) -> NoDup (map tid (truths h)) ->
    Permutation (run ideq mid tid empty_match order ignore h)
      (flat_map (fun m => map (fun t => (m, t)) (filter (fun t => ideq (tid t) (mid m)) (truths h))) (matches h)
       ++ if ignore then []
          else map (fun t => (empty_match (tid t), t))
                   (filter (fun t => negb (existsb (fun m => ideq (mid m) (tid t)) (matches h))) (truths h))).
  Proof.
    intros Nm Nt. destruct (fold_good h [] fwd_start) as (GM & GC & GL); cbn; auto.
    { split; [reflexivity|]. split; [reflexivity|]. constructor. }
    unfold run, finish. cbn [app] in *. set (s := fold_left _ _ _) in *. destruct ignore.
    - rewrite app_nil_r. exact GL.
    - cbn [f_log]. apply Permutation_app; [exact GL|]. rewrite <- (order_ok (f_compares s)), GC.
      unfold open_truths. rewrite map_map. cbn. reflexivity.
  Qed.

  (** each comparison is made exactly once *)
  Theorem C34_exactly_once ignore h :
    NoDup (map mid (matches h)) -> NoDup (map tid (truths h)) ->
    NoDup (map snd (run ideq mid tid empty_match order ignore h))
    /\ (forall m t, In m (matches h) -> In t (truths h) -> mid m = tid t -> In (m, t) (run ideq mid tid empty_match order ignore h))
    /\ (forall m t, In (m, t) (run ideq mid tid empty_match order ignore h) ->
          In t (truths h) /\ (In m (matches h) /\ mid m = tid t
                              \/ ignore = false /\ m = empty_match (tid t) /\ ~ In (tid t) (map mid (matches h))))
    /\ (ignore = false -> forall t, In t (truths h) -> exists m, In (m, t) (run ideq mid tid empty_match order ignore h)).
  Proof.
    intros Nm Nt. pose proof (C34_pairing ignore h Nm Nt) as Pm.
    set (log := run _ _ _ _ _ _ _) in *. set (A := flat_map _ _) in *. set (B := if ignore then _ else _) in *.
    assert (InA : forall m t, In (m, t) A <-> In m (matches h) /\ In t (truths h) /\ tid t = mid m).
    { intros m t. unfold A. rewrite in_flat_map. split.
      - intros (m' & Hm & H). apply in_map_iff in H as (t' & [= -> ->] & H). apply filter_In in H as [H E].
        destruct (ideq_spec (tid t) (mid m)); [auto|discriminate].
      - intros (Hm & Ht & E). exists m. split; [exact Hm|]. apply in_map_iff. exists t. split; [reflexivity|].
        apply filter_In. split; [exact Ht|]. destruct (ideq_spec (tid t) (mid m)); [auto|contradiction]. }
    assert (InB : forall m t, In (m, t) B <-> ignore = false /\ m = empty_match (tid t) /\ In t (truths h) /\ matched h (tid t) = false).
    { intros m t. unfold B. destruct ignore; [cbn; intuition discriminate|]. rewrite in_map_iff. split.
      - intros (t' & [= <- ->] & H). apply filter_In in H as [H E]. apply negb_true_iff in E. auto.
      - intros (_ & -> & Ht & E). exists t. split; [reflexivity|]. apply filter_In. split; [exact Ht|]. apply negb_true_iff; exact E. }
    assert (NmB : forall t, matched h (tid t) = false <-> ~ In (tid t) (map mid (matches h))).
    { intros t. rewrite <- matched_In. split; [intros ->; discriminate|apply not_true_iff_false]. }
    split; [|split; [|split]].
    - eapply Permutation_NoDup; [apply Permutation_sym, Permutation_map; exact Pm|]. rewrite map_app. apply NoDup_app'.
      + unfold A. clear - Nm Nt ideq_spec. induction (matches h) as [|m ms IH]; cbn; [constructor|]. inversion Nm as [|? ? Na Nl]; subst.
        rewrite map_app, map_map. cbn. rewrite map_id. apply NoDup_app'; [apply NoDup_filter; eapply NoDup_map_inv; exact Nt|apply IH; exact Nl|].
        intros t H1 H2. apply filter_In in H1 as [_ E1]. apply in_map_iff in H2 as ([m' t'] & E & H2). cbn in E; subst t'.
        apply in_flat_map in H2 as (m'' & Hm & H2). apply in_map_iff in H2 as (t' & [= -> ->] & H2). apply filter_In in H2 as [_ E2].
        destruct (ideq_spec (tid t) (mid m)); [|discriminate]. destruct (ideq_spec (tid t) (mid m')); [|discriminate].
        apply Na. rewrite <- e, e0. apply in_map; exact Hm.
      + unfold B. destruct ignore; [constructor|]. rewrite map_map. cbn. rewrite map_id. apply NoDup_filter. eapply NoDup_map_inv; exact Nt.
      + intros t H1 H2. apply in_map_iff in H1 as ([m t'] & E & H1). cbn in E; subst t'.
        apply in_map_iff in H2 as ([m' t'] & E & H2). cbn in E; subst t'. apply InA in H1 as (H1 & _ & E).
        apply InB in H2 as (_ & _ & _ & H2). apply NmB in H2. apply H2. rewrite E. apply in_map; exact H1.
    - intros m t Hm Ht E. eapply Permutation_in; [apply Permutation_sym; exact Pm|]. apply in_app_iff. left. apply InA. auto.
    - intros m t H. apply (Permutation_in _ Pm) in H. apply in_app_iff in H as [H|H].
      + apply InA in H as (Hm & Ht & E). split; [exact Ht|]. left. auto.
      + apply InB in H as (I & -> & Ht & E). split; [exact Ht|]. right. apply NmB in E. auto.
    - intros I t Ht. destruct (matched h (tid t)) eqn:E.
      + apply matched_In in E. apply in_map_iff in E as (m & E & Hm). exists m.
        eapply Permutation_in; [apply Permutation_sym; exact Pm|]. apply in_app_iff. left. apply InA. auto.
      + exists (empty_match (tid t)). eapply Permutation_in; [apply Permutation_sym; exact Pm|]. apply in_app_iff. right. apply InB. auto.
  Qed.
End C34.

(** tracks as (id, payload) *)
Definition demo_arrivals : list (arrival (nat * nat) (nat * nat)) :=
  [Matched (1, 10); Truth (2, 20); Truth (1, 11); Matched (3, 30); Matched (2, 21); Truth (4, 40)].
Example C34_demo :
  run Nat.eqb fst fst (fun i => (i, 0)) (fun l => l) false demo_arrivals
  = [((1, 10), (1, 11)); ((2, 21), (2, 20)); ((4, 0), (4, 40))]
  /\ NoDup (map fst (matches demo_arrivals)) /\ NoDup (map fst (truths demo_arrivals)).
Proof. split; [vm_compute; reflexivity|]. split; repeat constructor; cbn; intuition congruence. Qed.

(** **** What is not true.  A second match of the same id that arrives before the ground truth is dropped unseen. *)
Theorem C34_duplicate_match_refuted : exists (h : list (arrival (nat * nat) (nat * nat))) m t,
  In m (matches h) /\ In t (truths h) /\ fst m = fst t
  /\ ~ In m (map fst (run Nat.eqb fst fst (fun i => (i, 0)) (fun l => l) false h)).
Proof.
  exists [Matched (1, 10); Matched (1, 12); Truth (1, 11)], (1, 12), (1, 11). vm_compute. intuition congruence.
Qed.
(** A second ground truth of the same id is compared to the empty match although a match for its id exists. *)
Theorem C34_duplicate_truth_refuted : exists (h : list (arrival (nat * nat) (nat * nat))) t,
  In t (truths h) /\ In (fst t) (map fst (matches h))
  /\ In ((fst t, 0), t) (run Nat.eqb fst fst (fun i => (i, 0)) (fun l => l) false h).
Proof.
  exists [Matched (1, 10); Truth (1, 11); Truth (1, 12)], (1, 12). vm_compute. intuition congruence.
Qed.

Print Assumptions C34_pairing.
Print Assumptions C34_exactly_once.
