(** Proofs about the traversals. *)
From Verif Require Import Base ListAux Traverse TraverseSpec.

Section Proofs.
  Variable out : nat -> list nat.
  Variable stop : list nat -> list nat -> bool.

  Lemma mem_In v l : mem v l = true <-> In v l.
  Proof. apply existsb_eqb_In. Qed.
  Lemma mem_nIn v l : mem v l = false <-> ~ In v l.
  Proof. rewrite <- mem_In. destruct (mem v l); split; congruence. Qed.

  Lemma expand_spec ts : forall seen,
    NoDup (expand seen ts) /\
    (forall x, In x (expand seen ts) -> In x ts /\ ~ In x seen) /\
    (forall x, In x ts -> In x seen \/ In x (expand seen ts)).
  Proof.
    induction ts as [|t ts IH]; intros seen; cbn.
    - split; [constructor|]. split; intros x [].
    - destruct (mem t seen) eqn:E.
      + apply mem_In in E. destruct (IH seen) as (H1 & H2 & H3). split; [exact H1|]. split.
        * intros x H. apply H2 in H. tauto.
        * intros x [<-|Hx]; auto.
      + apply mem_nIn in E. destruct (IH (t :: seen)) as (H1 & H2 & H3). split; [|split].
        * constructor; [|exact H1]. intros H. apply H2 in H as [_ H]. apply H. left; reflexivity.
        * intros x [<-|H]; [split; [left; reflexivity|exact E]|]. apply H2 in H as [Ha Hb].
          split; [right; exact Ha|]. intros K. apply Hb. right; exact K.
        * intros x [<-|Hx]; [right; left; reflexivity|]. destruct (H3 x Hx) as [[<-|K]|K]; auto.
          -- right; left; reflexivity.
          -- right; right; exact K.
  Qed.

  (** invariant common to both searches *)
  Record inv (v0 : list nat) (s : nat) (st : tstate) : Prop := {
    inv_nd : NoDup (t_disc st);
    inv_avoid : forall v, In v (t_disc st) -> v = s \/ ~ In v v0;
    inv_perm : Permutation (t_disc st) (t_fin st ++ t_work st);
    inv_sound : forall v, In v (t_disc st) -> reachable out v0 s v;
    inv_start : In s (t_disc st);
    inv_closed : forall u v, In u (t_fin st) -> In v (out u) -> ~ In v v0 -> In v (t_disc st)
  }.

  Lemma inv_init v0 s : inv v0 s (mkT [s] [] [s]).
  Proof.
    constructor; cbn.
    - constructor; [intros []|constructor].
    - intros v [<-|[]]; auto.
    - reflexivity.
    - intros v [<-|[]]. exists 0. constructor.
    - auto.
    - intros u v [].
  Qed.

  Lemma inv_step v0 s disc fin v q work' ts new :
    inv v0 s (mkT disc fin (v :: q)) -> Permutation ts (out v) -> new = expand (v0 ++ disc) ts ->
    Permutation work' (q ++ new) -> inv v0 s (mkT (disc ++ new) (fin ++ [v]) work').
  Proof.
    intros [H1 H2 H3 H4 H5 H6] Pts -> Pw. cbn in *.
    destruct (expand_spec ts (v0 ++ disc)) as (E1 & E2 & E3). set (new := expand (v0 ++ disc) ts) in *.
    assert (Hv : In v disc).
    { apply (Permutation_in _ (Permutation_sym H3)). apply in_app_iff; right; left; reflexivity. }
    constructor; cbn.
    - apply NoDup_app'; auto. intros x Hx Hn. apply E2 in Hn as [_ Hn]. apply Hn. apply in_app_iff; auto.
    - intros x Hx. apply in_app_iff in Hx as [Hx|Hx]; [auto|]. apply E2 in Hx as [_ Hn].
      right. intros K. apply Hn, in_app_iff; auto.
    - rewrite Pw, H3. rewrite <- !app_assoc. apply Permutation_app_head. cbn. reflexivity.
    - intros x Hx. apply in_app_iff in Hx as [Hx|Hx]; [auto|]. apply E2 in Hx as [Hx Hn].
      destruct (H4 v Hv) as [k Hk]. exists (S k). econstructor; [exact Hk| |].
      + apply (Permutation_in _ Pts); exact Hx.
      + intros K. apply Hn, in_app_iff; auto.
    - apply in_app_iff; auto.
    - intros u x Hu Hx Hn. apply in_app_iff. apply in_app_iff in Hu as [Hu|[<-|[]]]; [left; eauto|].
      apply (Permutation_in _ (Permutation_sym Pts)) in Hx. destruct (E3 x Hx) as [K|K]; [|auto].
      apply in_app_iff in K as [K|K]; [contradiction|auto].
  Qed.

  Lemma inv_complete v0 s st : inv v0 s st -> t_work st = [] -> forall v, reachable out v0 s v -> In v (t_disc st).
  Proof.
    intros H E v [k Hk]. induction Hk as [|k u v Hk IH Hin Ha].
    - apply (inv_start _ _ _ H).
    - apply (inv_closed _ _ _ H) with (u := u); auto.
      apply (Permutation_in _ (inv_perm _ _ _ H)) in IH. rewrite E, app_nil_r in IH. exact IH.
  Qed.

  Lemma NoDup_app_l {A} (l1 l2 : list A) : NoDup (l1 ++ l2) -> NoDup l1.
  Proof. induction l1; intros H; [constructor|]. inversion H; subst. constructor; auto. rewrite in_app_iff in *. tauto. Qed.

  Lemma inv_fin_bound v0 s vs st : inv v0 s st -> closed_in out vs -> In s vs -> t_work st <> [] ->
    length (t_fin st) < length vs.
  Proof.
    intros H Hc Hs Hw.
    assert (Hsub : incl (t_disc st) vs).
    { intros v Hv. destruct (inv_sound _ _ _ H v Hv) as [k Hk]. inversion Hk; subst; [exact Hs|]. eapply Hc; eauto. }
    pose proof (NoDup_incl_length (inv_nd _ _ _ H) Hsub) as L.
    rewrite (Permutation_length (inv_perm _ _ _ H)), app_length in L.
    destruct (t_work st); [contradiction|]. cbn in L. lia.
  Qed.

  (** *** levels, for breadth-first order *)
  Record levels (v0 : list nat) (s : nat) (L : nat -> nat) (st : tstate) : Prop := {
    lv_order : t_disc st = t_fin st ++ t_work st;
    lv_walk : forall v, In v (t_disc st) -> walk out v0 s (L v) v;
    lv_mono : forall i j a b, i <= j -> nth_error (t_disc st) i = Some a -> nth_error (t_disc st) j = Some b -> L a <= L b;
    lv_top : forall f r v, t_work st = f :: r -> In v (t_disc st) -> L v <= S (L f);
    lv_edge : forall u v, In u (t_fin st) -> In v (out u) -> ~ In v v0 -> In v (t_disc st) /\ L v <= S (L u);
    lv_zero : L s = 0
  }.

  Lemma levels_init v0 s : levels v0 s (fun _ => 0) (mkT [s] [] [s]).
  Proof.
    constructor; cbn; [reflexivity| |intros; lia|intros; lia| |reflexivity].
    - intros v [<-|[]]. constructor.
    - intros u v [].
  Qed.

  Lemma nth_error_app_cases {A} (l1 l2 : list A) i a : nth_error (l1 ++ l2) i = Some a ->
    (i < length l1 /\ nth_error l1 i = Some a) \/ (length l1 <= i /\ In a l2).
  Proof.
    intros E. destruct (Nat.lt_ge_cases i (length l1)) as [Hlt|Hge].
    - rewrite nth_error_app1 in E by exact Hlt. auto.
    - rewrite nth_error_app2 in E by exact Hge. right. split; [exact Hge|]. eapply nth_error_In; eauto.
  Qed.

  Lemma levels_step v0 s L disc fin v q :
    levels v0 s L (mkT disc fin (v :: q)) -> inv v0 s (mkT disc fin (v :: q)) ->
    let new := expand (v0 ++ disc) (out v) in
    exists L', levels v0 s L' (mkT (disc ++ new) (fin ++ [v]) (q ++ new)).
  Proof.
    intros [P1 P2 P3 P4 P5 P6] I new. cbn in *.
    destruct (expand_spec (out v) (v0 ++ disc)) as (E1 & E2 & E3). fold new in E1, E2, E3.
    assert (Hv : In v disc) by (rewrite P1; apply in_app_iff; right; left; reflexivity).
    assert (Hs : In s disc) by apply (inv_start _ _ _ I).
    exists (fun x => if mem x new then S (L v) else L x).
    assert (Hold : forall x, In x disc -> mem x new = false).
    { intros x Hx. apply mem_nIn. intros K. apply E2 in K as [_ K]. apply K, in_app_iff; auto. }
    assert (Htop : forall x, In x disc -> L x <= S (L v)) by (intros x Hx; apply (P4 v q x eq_refl Hx)).
    constructor; cbn.
    - rewrite P1, <- !app_assoc. reflexivity.
    - intros x Hx. apply in_app_iff in Hx as [Hx|Hx].
      + rewrite (Hold x Hx). auto.
      + assert (K : mem x new = true) by (apply mem_In; exact Hx). rewrite K. apply E2 in Hx as [Hx Hn].
        econstructor; [exact (P2 v Hv)|exact Hx|]. intros Z. apply Hn, in_app_iff; auto.
    - intros i j a b Hij Ha Hb.
      apply nth_error_app_cases in Ha as [[La Ha]|[La Ha]]; apply nth_error_app_cases in Hb as [[Lb Hb]|[Lb Hb]].
      + pose proof (nth_error_In _ _ Ha) as Ia. pose proof (nth_error_In _ _ Hb) as Ib.
        rewrite (Hold a Ia), (Hold b Ib). exact (P3 i j a b Hij Ha Hb).
      + pose proof (nth_error_In _ _ Ha) as Ia. rewrite (Hold a Ia).
        apply mem_In in Hb. rewrite Hb. apply Htop; exact Ia.
      + exfalso; lia.
      + apply mem_In in Ha, Hb. rewrite Ha, Hb. lia.
    - intros f r x Hw Hx.
      assert (Hx' : (if mem x new then S (L v) else L x) <= S (L v)).
      { destruct (mem x new) eqn:K; [lia|]. apply in_app_iff in Hx as [Hx|Hx]; [auto|]. apply mem_nIn in K; contradiction. }
      destruct q as [|f' q'].
      + cbn in Hw. assert (K : mem f new = true) by (apply mem_In; rewrite Hw; left; reflexivity). rewrite K. lia.
      + cbn in Hw. injection Hw as -> _.
        assert (Hf : In f disc) by (rewrite P1; apply in_app_iff; right; right; left; reflexivity).
        rewrite (Hold f Hf).
        assert (L v <= L f).
        { apply (P3 (length fin) (S (length fin))); [lia| |].
          - rewrite P1, nth_error_app2, Nat.sub_diag by lia. reflexivity.
          - rewrite P1, nth_error_app2 by lia. replace (S (length fin) - length fin) with 1 by lia. reflexivity. }
        lia.
    - intros u x Hu Hx Hn. apply in_app_iff in Hu as [Hu|[<-|[]]].
      + destruct (P5 u x Hu Hx Hn) as [Hd Hl]. split; [apply in_app_iff; auto|].
        assert (Iu : In u disc) by (rewrite P1; apply in_app_iff; auto).
        rewrite (Hold x Hd), (Hold u Iu). exact Hl.
      + rewrite (Hold v Hv). destruct (E3 x Hx) as [K|K].
        * apply in_app_iff in K as [K|K]; [contradiction|]. split; [apply in_app_iff; auto|].
          rewrite (Hold x K). apply Htop; exact K.
        * split; [apply in_app_iff; auto|]. apply mem_In in K. rewrite K. lia.
    - rewrite (Hold s Hs). exact P6.
  Qed.

  (** *** the loops *)
  Definition goes_on (st : tstate) : Prop := stop (t_disc st) (t_fin st) = false.

  Lemma bfs_loop_ok v0 s vs : closed_in out vs -> In s vs ->
    forall fuel st L, inv v0 s st -> levels v0 s L st -> length vs - length (t_fin st) < fuel ->
    exists st' L', bfs_loop out stop fuel v0 st = Ok st' /\ inv v0 s st' /\ levels v0 s L' st' /\
                   (t_work st' = [] \/ stop (t_disc st') (t_fin st') = true).
  Proof.
    intros Hc Hs. induction fuel as [|f IH]; intros st L I LV Hf; [lia|].
    destruct st as [disc fin work]. cbn [bfs_loop t_work t_disc t_fin].
    destruct work as [|v q]; [eexists; exists L; split; [reflexivity|]; auto|].
    destruct (stop disc fin) eqn:Es; [eexists; exists L; split; [reflexivity|]; auto|].
    destruct (levels_step v0 s L disc fin v q LV I) as [L' LV'].
    assert (I' : inv v0 s (mkT (disc ++ expand (v0 ++ disc) (out v)) (fin ++ [v]) (q ++ expand (v0 ++ disc) (out v))))
      by (eapply inv_step; eauto).
    apply (IH _ L' I' LV'). cbn. rewrite app_length; cbn.
    pose proof (inv_fin_bound v0 s vs _ I Hc Hs) as B. cbn in B, Hf. specialize (B ltac:(discriminate)). lia.
  Qed.

  Lemma dfs_loop_ok v0 s vs : closed_in out vs -> In s vs ->
    forall fuel st, inv v0 s st -> length vs - length (t_fin st) < fuel ->
    exists st', dfs_loop out stop fuel v0 st = Ok st' /\ inv v0 s st' /\
                (t_work st' = [] \/ stop (t_disc st') (t_fin st') = true).
  Proof.
    intros Hc Hs. induction fuel as [|f IH]; intros st I Hf; [lia|].
    destruct st as [disc fin work]. cbn [dfs_loop t_work t_disc t_fin].
    destruct work as [|v q]; [eexists; split; [reflexivity|]; auto|].
    destruct (stop disc fin) eqn:Es; [eexists; split; [reflexivity|]; auto|].
    assert (I' : inv v0 s (mkT (disc ++ expand (v0 ++ disc) (rev (out v))) (fin ++ [v])
                               (rev (expand (v0 ++ disc) (rev (out v))) ++ q))).
    { eapply inv_step; [exact I| |reflexivity|].
      - apply Permutation_sym, Permutation_rev.
      - rewrite <- Permutation_rev. apply Permutation_app_comm. }
    apply (IH _ I'). cbn. rewrite app_length; cbn.
    pose proof (inv_fin_bound v0 s vs _ I Hc Hs) as B. cbn in B, Hf. specialize (B ltac:(discriminate)). lia.
  Qed.

  Lemma levels_hops v0 s L st : levels v0 s L st -> t_work st = [] -> In s (t_disc st) ->
    forall v, In v (t_disc st) -> hops out v0 s v (L v).
  Proof.
    intros LV E Hs v Hv. split; [apply (lv_walk _ _ _ _ LV v Hv)|].
    intros k Hk. assert (G : In v (t_disc st) /\ L v <= k); [|tauto]. clear Hv.
    induction Hk as [|k u v Hk IH Hin Ha].
    - rewrite (lv_zero _ _ _ _ LV). auto.
    - destruct IH as [Iu Lu]. rewrite (lv_order _ _ _ _ LV), E, app_nil_r in Iu.
      destruct (lv_edge _ _ _ _ LV u v Iu Hin Ha). split; [assumption|lia].
  Qed.
End Proofs.
