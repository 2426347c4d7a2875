(** C24, C25: comparing a match with the ground truth. *)
From Coq Require Import QArith Lqa Permutation Sorted.
From Verif Require Import Base ListAux Compare CompareProofs Simplify SimplifyProps.
Local Open Scope nat_scope.

Section C24.
  Context {P D : Type}.
  Variable eqp : P -> P -> bool.
  Hypothesis eqp_eq : forall x y, eqp x y = true <-> x = y.
  Notation seg := (P * P)%type.
  Variable dec : forall x y : seg, {x = y} + {x <> y}.
  (** lengths: not negative, and zero only between equal points *)
  Variable len : P -> P -> Q.
  Hypothesis len_pos : forall p q, (0 <= len p q)%Q.
  Hypothesis len_zero : forall p q, (len p q == 0)%Q <-> p = q.
  (** what the spatial index, the distances and the simplification answer *)
  Variable simplify : list seg -> outcome (list seg).
  Variable ltb : D -> D -> bool.
  Variable dist : P -> P -> D.
  Variable near : list P -> P -> list P.
  Variable tol : D.
  Variable as_set : list P -> list P.
  Variable touched splits : P -> seg -> bool.
  Hypothesis near_in : forall l p q, In q (near l p) -> In q l.
  Hypothesis as_set_in : forall l p, In p (as_set l) <-> In p l.
  Hypothesis as_set_canonical : forall l l', (forall p, In p l <-> In p l') -> as_set l = as_set l'.

  Notation prepare := (prepare eqp len simplify ltb dist near tol as_set touched splits).
  Notation compare_segments := (compare_segments eqp len simplify ltb dist near tol as_set touched splits).
  Notation compare_lines := (compare_lines eqp len simplify ltb dist near tol as_set touched splits).
  Notation count l x := (count_occ dec l x).
  (** the length of a list of segments *)
  Fixpoint total (l : list seg) : Q := match l with [] => 0%Q | s :: r => (len (fst s) (snd s) + total r)%Q end.
  (** no segment is followed by the same segment backwards *)
  Definition no_turn (l : list seg) : Prop := forall l1 p q l2, l <> l1 ++ (p, q) :: (q, p) :: l2.

  Lemma no_turn_turns l : no_turn l -> ~ turns l.
  Proof.
    intros N (i & p & q & E1 & E2). apply nth_error_split in E1. destruct E1 as (l1 & l2 & -> & <-).
    rewrite nth_error_app2 in E2 by lia. replace (length l1 + 1 - length l1) with 1 in E2 by lia. cbn in E2. destruct l2 as [|t l2]; [discriminate|].
    cbn in E2. injection E2 as ->. apply (N l1 p q l2). reflexivity.
  Qed.
  Lemma long_pos s : long eqp len s = true -> (0 < len (fst s) (snd s))%Q.
  Proof.
    unfold long, length_of. destruct (eqp (fst s) (snd s)) eqn:E; [discriminate|]. intros H. apply negb_true_iff in H.
    pose proof (len_pos (fst s) (snd s)). apply Qle_lteq in H0. destruct H0 as [H0|H0]; [exact H0|].
    symmetry in H0. apply Qeq_bool_iff in H0. congruence.
  Qed.
  Lemma sum_loop l q : Forall (fun s => long eqp len s = true) l ->
    (fold_left Qplus (map (fun s => match length_of eqp len s with Some q => q | None => 0%Q end) l) q == q + total l)%Q.
  Proof.
    intros H. revert q. induction H as [|s l Hs H IH]; intros q; cbn [map fold_left]; [cbn; ring|]. rewrite IH. unfold length_of. cbn [total].
    unfold long, length_of in Hs. destruct (eqp (fst s) (snd s)); [discriminate|]. ring.
  Qed.
  Lemma filter_long l : Forall (fun s => long eqp len s = true) l -> filter (long eqp len) l = l.
  Proof. intros H. induction H as [|s l Hs H IH]; cbn; [reflexivity|]. rewrite Hs, IH. reflexivity. Qed.
  Lemma sum_up_long l : Forall (fun s => long eqp len s = true) l -> fst (sum_up eqp len l) = l /\ (snd (sum_up eqp len l) == total l)%Q.
  Proof. intros H. unfold sum_up. rewrite filter_long by exact H. cbn. split; [reflexivity|]. rewrite sum_loop by exact H. ring. Qed.
  Lemma total_pos l : Forall (fun s => long eqp len s = true) l -> l <> [] -> (0 < total l)%Q.
  Proof.
    intros H N. destruct H as [|s l Hs H]; [congruence|]. clear N. cbn. apply long_pos in Hs.
    assert (0 <= total l)%Q. { clear Hs. induction H as [|t l Ht H IH]; cbn; [lra|]. apply long_pos in Ht. lra. }
    lra.
  Qed.

  Lemma evaluate_spec a b truth match_ : Forall (fun s => long eqp len s = true) a -> Forall (fun s => long eqp len s = true) b ->
    exists r c d m, evaluate eqp len a b truth match_ = Ok r /\ classify eqp a b = Ok (c, d, m)
      /\ corrects r = c /\ error_adds r = d /\ error_misses r = m
      /\ (correct r == total c)%Q /\ (error_added r == total d)%Q /\ (error_missed r == total m)%Q
      /\ error_fraction r = error_of (error_added r) (error_missed r) truth
      /\ correct_fraction r = Fin (correct_of (correct r) (error_fraction r) truth match_)
      /\ Forall (fun s => long eqp len s = true) c /\ Forall (fun s => long eqp len s = true) d /\ Forall (fun s => long eqp len s = true) m.
  Proof.
    intros La Lb. unfold evaluate. destruct (classify_spec eqp eqp_eq dec a b) as (c & d & m & E & Ca & Cb & _). rewrite E. cbn [bindO].
    assert (Lc : Forall (fun s => long eqp len s = true) c).
    { rewrite Forall_forall in *. intros s H. apply La. apply (count_occ_In dec). apply (count_occ_In dec) in H. specialize (Ca s). lia. }
    assert (Lm : Forall (fun s => long eqp len s = true) m).
    { rewrite Forall_forall in *. intros s H. apply La. apply (count_occ_In dec). apply (count_occ_In dec) in H. specialize (Ca s). lia. }
    assert (Ld : Forall (fun s => long eqp len s = true) d).
    { rewrite Forall_forall in *. intros s H. apply Lb. apply (count_occ_In dec). apply (count_occ_In dec) in H. specialize (Cb s). lia. }
    destruct (sum_up_long c Lc) as [F1 S1]. destruct (sum_up_long d Ld) as [F2 S2]. destruct (sum_up_long m Lm) as [F3 S3].
    destruct (sum_up eqp len c) as [c' good]. destruct (sum_up eqp len d) as [d' added]. destruct (sum_up eqp len m) as [m' missed].
    cbn [fst snd] in *. subst c' d' m'. eexists _, c, d, m. split; [reflexivity|]. cbn [corrects error_adds error_misses correct error_added error_missed error_fraction correct_fraction].
    split; [reflexivity|]. do 3 (split; [reflexivity|]). repeat split; auto.
  Qed.
  Lemma compare_evaluate a b truth match_ a' b' : a <> [] -> b <> [] -> prepare a b = Ok (a', b') ->
    compare_segments a b truth match_ = evaluate eqp len a' b' truth match_.
  Proof. intros Na Nb E. unfold Compare.compare_segments. destruct a; [congruence|]. destruct b; [congruence|]. rewrite E. reflexivity. Qed.

  (** **** C24: for all lists of segments, with [a'] and [b'] the prepared ground truth and match: no segment is used twice, every segment
      of the ground truth is reported as correct or missed, every segment of the match as correct or added, and none is both missed and
      added. *)
  Theorem C24_accounts a b truth match_ a' b' : a <> [] -> b <> [] -> prepare a b = Ok (a', b') ->
    exists r, compare_segments a b truth match_ = Ok r
      /\ (forall x, count (corrects r) x + count (error_misses r) x <= count a' x)
      /\ (forall x, count (corrects r) x + count (error_adds r) x <= count b' x)
      /\ (forall x, In x a' -> In x (corrects r) \/ In x (error_misses r))
      /\ (forall x, In x b' -> In x (corrects r) \/ In x (error_adds r))
      /\ (forall x, In x (error_misses r) -> ~ In x (error_adds r)).
  Proof.
    intros Na Nb E. rewrite (compare_evaluate _ _ _ _ _ _ Na Nb E). apply prepare_long in E. destruct E as [La Lb].
    destruct (evaluate_spec a' b' truth match_ La Lb) as (r & c & d & m & Er & Ec & <- & <- & <- & _). exists r. split; [exact Er|].
    destruct (classify_spec eqp eqp_eq dec a' b') as (c & d & m & Ec' & H1 & H2 & H3 & H4 & H5 & _). rewrite Ec in Ec'. injection Ec' as <- <- <-. auto.
  Qed.
  (** **** C24: the segments reported as correct are exactly those that occur in both. *)
  Theorem C24_correct_in_both a b truth match_ a' b' : a <> [] -> b <> [] -> prepare a b = Ok (a', b') ->
    exists r, compare_segments a b truth match_ = Ok r /\ (forall x, In x (corrects r) <-> In x a' /\ In x b')
      /\ (forall x, In x (error_misses r) -> In x a') /\ (forall x, In x (error_adds r) -> In x b').
  Proof.
    intros Na Nb E. destruct (C24_accounts a b truth match_ a' b' Na Nb E) as (r & Er & H1 & H2 & H3 & H4 & H5). exists r. split; [exact Er|].
    split; [|split].
    - intros x. split.
      + intros H. specialize (H1 x). specialize (H2 x). rewrite (count_occ_In dec) in H |- *. rewrite (count_occ_In dec). lia.
      + intros [Ha Hb]. destruct (H3 x Ha) as [?|Hm]; [assumption|]. destruct (H4 x Hb) as [?|Hd]; [assumption|]. destruct (H5 x Hm Hd).
    - intros x H. specialize (H1 x). rewrite (count_occ_In dec) in H |- *. lia.
    - intros x H. specialize (H2 x). rewrite (count_occ_In dec) in H |- *. lia.
  Qed.
  (** **** C24: if neither line turns back on a segment, the three lists are the intersection and the differences, with multiplicity. *)
  Theorem C24_exact a b truth match_ a' b' : a <> [] -> b <> [] -> prepare a b = Ok (a', b') -> no_turn a' -> no_turn b' ->
    exists r, compare_segments a b truth match_ = Ok r
      /\ (forall x, count (corrects r) x = Nat.min (count a' x) (count b' x))
      /\ (forall x, count (error_misses r) x = count a' x - count b' x)
      /\ (forall x, count (error_adds r) x = count b' x - count a' x).
  Proof.
    intros Na Nb E Ta Tb. rewrite (compare_evaluate _ _ _ _ _ _ Na Nb E). apply prepare_long in E. destruct E as [La Lb].
    destruct (evaluate_spec a' b' truth match_ La Lb) as (r & c & d & m & Er & Ec & <- & <- & <- & _). exists r. split; [exact Er|].
    destruct (classify_spec eqp eqp_eq dec a' b') as (c & d & m & Ec' & _ & _ & _ & _ & H5 & H6 & H7). rewrite Ec in Ec'. injection Ec' as <- <- <-.
    specialize (H6 (no_turn_turns _ Ta)). specialize (H7 (no_turn_turns _ Tb)).
    assert (G : forall x, count (error_misses r) x = 0 \/ count (error_adds r) x = 0).
    { intros x. destruct (count (error_misses r) x) eqn:Em; [auto|]. right. apply (count_occ_not_In dec). apply H5.
      apply (count_occ_In dec). lia. }
    repeat split; intros x; specialize (H6 x); specialize (H7 x); destruct (G x); lia.
  Qed.
  (** **** C24: one of the lines has no segments. *)
  Theorem C24_empty a b truth match_ :
    compare_segments [] [] truth match_ = Ok (mkComparison (Fin 1) (Fin 0) 0 0 0 [] [] [])
    /\ (b <> [] -> exists r, compare_segments [] b truth match_ = Ok r
          /\ corrects r = [] /\ error_misses r = [] /\ error_adds r = b /\ correct_fraction r = Fin 0 /\ error_fraction r = Inf
          /\ correct r = 0%Q /\ error_missed r = 0%Q /\ (match_ = Some (error_added r) \/ match_ = None /\ error_added r = 0%Q))
    /\ (a <> [] -> exists r, compare_segments a [] truth match_ = Ok r
          /\ corrects r = [] /\ error_misses r = a /\ error_adds r = [] /\ correct_fraction r = Fin 0 /\ error_fraction r = Fin 1
          /\ correct r = 0%Q /\ error_added r = 0%Q /\ (truth = Some (error_missed r) \/ truth = None /\ error_missed r = 0%Q)).
  Proof.
    split; [reflexivity|]. split; intros N; [destruct b|destruct a]; try congruence; eexists; (split; [reflexivity|]); cbn;
      repeat (split; [reflexivity|]); [destruct match_|destruct truth]; cbn; auto.
  Qed.
  (** **** C24: the preparation of connected lines gives connected lines, and brings no new points. *)
  Theorem C24_connected a b a1 b1 : simplify a = Ok a1 -> simplify b = Ok b1 -> connected a1 -> connected b1 ->
    exists a' b', prepare a b = Ok (a', b') /\ connected a' /\ connected b'
      /\ (forall s, In s a' \/ In s b' -> exists t u, (In t a1 \/ In t b1) /\ (In u a1 \/ In u b1)
            /\ (fst s = fst t \/ fst s = snd t) /\ (snd s = fst u \/ snd s = snd u))
      /\ (forall s, In s a' \/ In s b' -> fst s <> snd s).
  Proof.
    intros Ea Eb Ca Cb.
    destruct (prepare_connected eqp eqp_eq len ltb dist near tol as_set touched splits near_in as_set_in (fun p q => proj1 (len_zero p q)) simplify a b a1 b1 Ea Eb Ca Cb)
      as (a' & b' & E & Ca' & Cb' & U).
    exists a', b'. split; [exact E|]. split; [exact Ca'|]. split; [exact Cb'|]. split.
    - intros s H. assert (G : forall p, p = fst s \/ p = snd s -> ends a1 p \/ ends b1 p).
      { intros p Hp. apply U. destruct H as [H|H]; [left|right]; exists s; auto. }
      assert (K : forall p, ends a1 p \/ ends b1 p -> exists t, (In t a1 \/ In t b1) /\ (p = fst t \/ p = snd t)).
      { intros p [(t & H1 & H2)|(t & H1 & H2)]; exists t; auto. }
      destruct (K _ (G (fst s) (or_introl eq_refl))) as (t & T1 & T2). destruct (K _ (G (snd s) (or_intror eq_refl))) as (u & U1 & U2).
      exists t, u. auto.
    - intros s H Q. apply prepare_long in E. destruct E as [La Lb]. rewrite Forall_forall in *.
      assert (L : long eqp len s = true) by (destruct H; auto). apply long_pos in L. apply len_zero in Q. lra.
  Qed.

  (** **** C25: the lengths are those of the reported segments; the error is missed plus added length over the length of the ground truth;
      it is 0 exactly if nothing is missed or added, and then the correct fraction is 1. *)
  Theorem C25_error a b truth match_ a' b' : a <> [] -> b <> [] -> prepare a b = Ok (a', b') ->
    exists r, compare_segments a b truth match_ = Ok r
      /\ (correct r == total (corrects r))%Q /\ (error_added r == total (error_adds r))%Q /\ (error_missed r == total (error_misses r))%Q
      /\ (error_adds r = [] /\ error_misses r = [] -> error_fraction r = Fin 0 /\ correct_fraction r = Fin 1)
      /\ (error_adds r <> [] \/ error_misses r <> [] ->
            match truth with
            | Some l => if Qlt_le_dec 0 l then exists e, error_fraction r = Fin e /\ (e * l == total (error_misses r) + total (error_adds r))%Q /\ (0 < e)%Q
                        else error_fraction r = Inf
            | None => error_fraction r = Inf
            end).
  Proof.
    intros Na Nb E. rewrite (compare_evaluate _ _ _ _ _ _ Na Nb E). apply prepare_long in E. destruct E as [La Lb].
    destruct (evaluate_spec a' b' truth match_ La Lb) as (r & c & d & m & Er & Ec & <- & <- & <- & S1 & S2 & S3 & Fe & Fc & L1 & L2 & L3). exists r.
    split; [exact Er|]. split; [exact S1|]. split; [exact S2|]. split; [exact S3|]. split.
    - intros [Ed Em]. rewrite Ed in S2. rewrite Em in S3. cbn in S2, S3. rewrite Fc, Fe. unfold error_of.
      apply Qeq_bool_iff in S2, S3. rewrite S2, S3. cbn. auto.
    - intros H. assert (T : (0 < error_added r + error_missed r)%Q /\ (negb (Qeq_bool (error_added r) 0) || negb (Qeq_bool (error_missed r) 0)) = true).
      { assert (N1 : (0 <= error_added r)%Q). { rewrite S2. destruct (error_adds r) as [|s l] eqn:Ed; [cbn; lra|]. rewrite <- Ed in *. apply Qlt_le_weak, total_pos; [exact L2|congruence]. }
        assert (N2 : (0 <= error_missed r)%Q). { rewrite S3. destruct (error_misses r) as [|s l] eqn:Ed; [cbn; lra|]. rewrite <- Ed in *. apply Qlt_le_weak, total_pos; [exact L3|congruence]. }
        destruct H as [H|H].
        - apply (total_pos _ L2) in H. rewrite <- S2 in H. split; [lra|]. destruct (Qeq_bool (error_added r) 0) eqn:Z; [|reflexivity].
          apply Qeq_bool_iff in Z. lra.
        - apply (total_pos _ L3) in H. rewrite <- S3 in H. split; [lra|]. rewrite orb_comm. destruct (Qeq_bool (error_missed r) 0) eqn:Z; [|reflexivity].
          apply Qeq_bool_iff in Z. lra. }
      destruct T as [T1 T2]. rewrite Fe. unfold error_of. rewrite T2. destruct truth as [l|]; [|reflexivity]. cbn [positive value].
      destruct (Qlt_le_dec 0 l) as [Hl|Hl].
      + assert (Q : Qle_bool l 0 = false). { destruct (Qle_bool l 0) eqn:Z; [|reflexivity]. apply Qle_bool_iff in Z. lra. }
        rewrite Q. cbn [negb]. eexists. split; [reflexivity|]. split.
        * rewrite <- S2, <- S3. field. intros Z. lra.
        * apply Qlt_shift_div_l; [exact Hl|]. lra.
      + apply Qle_bool_iff in Hl. rewrite Hl. reflexivity.
  Qed.
  (** **** C25: the correct fraction is always between 0 and 1; with errors it is the correct length over the longer of both lengths. *)
  Lemma min_max_range q : (0 <= min_q 1 (max_q 0 q) <= 1)%Q.
  Proof.
    unfold min_q, max_q. destruct (Qle_bool q 0) eqn:E.
    - cbn. lra.
    - destruct (Qle_bool 1 q) eqn:F; [lra|]. assert (~ (q <= 0)%Q) by (intros H; apply Qle_bool_iff in H; congruence).
      assert (~ (1 <= q)%Q) by (intros H'; apply Qle_bool_iff in H'; congruence). lra.
  Qed.
  Theorem C25_correct_range a b truth match_ r : compare_segments a b truth match_ = Ok r ->
    exists f, correct_fraction r = Fin f /\ (0 <= f <= 1)%Q.
  Proof.
    unfold Compare.compare_segments. destruct a as [|s a], b as [|t b].
    - intros [= <-]. exists 1%Q. split; [reflexivity|lra].
    - intros [= <-]. exists 0%Q. split; [reflexivity|lra].
    - intros [= <-]. exists 0%Q. split; [reflexivity|lra].
    - destruct (prepare (s :: a) (t :: b)) as [[a' b']| | |]; cbn [bindO fst snd]; try discriminate. unfold evaluate.
      destruct (classify eqp a' b') as [[[c d] m]| | |]; cbn [bindO]; try discriminate.
      destruct (sum_up eqp len c) as [c' g], (sum_up eqp len d) as [d' ad], (sum_up eqp len m) as [m' mi]. intros [= <-].
      eexists. split; [reflexivity|]. unfold correct_of. destruct (is_zero _); [lra|]. apply min_max_range.
  Qed.
  Theorem C25_correct a b l k a' b' : a <> [] -> b <> [] -> prepare a b = Ok (a', b') -> (0 < l)%Q -> (0 < k)%Q ->
    exists r f, compare_segments a b (Some l) (Some k) = Ok r /\ correct_fraction r = Fin f
      /\ (error_adds r <> [] \/ error_misses r <> [] ->
            (total (corrects r) <= l \/ total (corrects r) <= k -> exists longer, (longer == l \/ longer == k) /\ l <= longer /\ k <= longer /\ f * longer == total (corrects r))
            /\ (l < total (corrects r) /\ k < total (corrects r) -> f == 1))%Q.
  Proof.
    intros Na Nb E Hl Hk. destruct (C25_error a b (Some l) (Some k) a' b' Na Nb E) as (r0 & Er0 & S0 & _ & _ & _ & HE).
    rewrite (compare_evaluate _ _ _ _ _ _ Na Nb E) in *. apply prepare_long in E. destruct E as [La Lb].
    destruct (evaluate_spec a' b' (Some l) (Some k) La Lb) as (r & c & d & m & Er & Ec & <- & <- & <- & S1 & S2 & S3 & Fe & Fc & L1 & L2 & L3).
    assert (r0 = r) by congruence. subst r0. exists r. eexists. split; [exact Er|]. split; [exact Fc|]. intros NE. specialize (HE NE).
    destruct (Qlt_le_dec 0 l) as [_|?]; [|lra]. destruct HE as (e & Ee & _ & He). unfold correct_of. rewrite Ee. cbn [is_zero].
    assert (Z : Qeq_bool e 0 = false) by (destruct (Qeq_bool e 0) eqn:Z; [apply Qeq_bool_iff in Z; lra|reflexivity]). rewrite Z.
    assert (Pl : positive (Some l) = true) by (cbn; destruct (Qle_bool l 0) eqn:Q; [apply Qle_bool_iff in Q; lra|reflexivity]).
    assert (Pk : positive (Some k) = true) by (cbn; destruct (Qle_bool k 0) eqn:Q; [apply Qle_bool_iff in Q; lra|reflexivity]).
    rewrite Pl, Pk. cbn [andb value]. set (mx := max_q l k).
    assert (M : ((mx == l \/ mx == k) /\ l <= mx /\ k <= mx)%Q).
    { unfold mx, max_q. destruct (Qle_bool k l) eqn:Q; [apply Qle_bool_iff in Q|]; [split; [left; reflexivity|]; lra|].
      assert (~ (k <= l)%Q) by (intros H; apply Qle_bool_iff in H; congruence). split; [right; reflexivity|]. lra. }
    clearbody mx. destruct M as (M1 & M2 & M3). assert (Hm : (0 < mx)%Q) by lra.
    set (g := correct r) in *. assert (G : (0 <= g)%Q).
    { rewrite S1. destruct (corrects r) as [|s l0] eqn:Ed; [cbn; lra|]. rewrite <- Ed in *. apply Qlt_le_weak, total_pos; [exact L1|congruence]. }
    assert (Q0 : (0 <= g / mx)%Q) by (apply Qle_shift_div_l; [exact Hm|lra]).
    assert (Mx : (max_q 0 (g / mx) == g / mx)%Q).
    { unfold max_q. destruct (Qle_bool (g / mx) 0) eqn:Q; [apply Qle_bool_iff in Q; lra|reflexivity]. }
    split.
    - intros Le. exists mx. split; [exact M1|]. split; [exact M2|]. split; [exact M3|]. rewrite <- S1.
      assert (Q1 : (g / mx <= 1)%Q) by (apply Qle_shift_div_r; [exact Hm|]; rewrite <- S1 in Le; lra).
      assert (R : (min_q 1 (max_q 0 (g / mx)) == g / mx)%Q).
      { unfold min_q. destruct (Qle_bool 1 _) eqn:Q; [apply Qle_bool_iff in Q; lra|exact Mx]. }
      rewrite R. field. intros ?; lra.
    - intros [G1 G2]. rewrite <- S1 in G1, G2.
      assert (Q1 : (1 <= g / mx)%Q). { apply Qle_shift_div_l; [exact Hm|]. destruct M1; lra. }
      unfold min_q. destruct (Qle_bool 1 (max_q 0 (g / mx))) eqn:Q; [reflexivity|].
      assert (1 <= max_q 0 (g / mx))%Q by lra. apply Qle_bool_iff in H. congruence.
  Qed.

  (** **** C25: if ground truth or match have no length (their segments have no extent), a wrong match is correct only if both have none. *)
  Theorem C25_no_length a b truth match_ a' b' : a <> [] -> b <> [] -> prepare a b = Ok (a', b') ->
    let none l := l = None \/ l = Some 0%Q in let some l := exists q, l = Some q /\ (0 < q)%Q in
    exists r f, compare_segments a b truth match_ = Ok r /\ correct_fraction r = Fin f
      /\ (error_adds r <> [] \/ error_misses r <> [] ->
            (none truth -> none match_ -> f = 1%Q) /\ (none truth -> some match_ -> f = 0%Q) /\ (some truth -> none match_ -> f = 0%Q)).
  Proof.
    intros Na Nb E none some. destruct (C25_error a b truth match_ a' b' Na Nb E) as (r0 & Er0 & S0 & _ & _ & _ & HE).
    rewrite (compare_evaluate _ _ _ _ _ _ Na Nb E) in *. apply prepare_long in E. destruct E as [La Lb].
    destruct (evaluate_spec a' b' truth match_ La Lb) as (r & c & d & m & Er & Ec & <- & <- & <- & S1 & S2 & S3 & Fe & Fc & L1 & L2 & L3).
    assert (r0 = r) by congruence. subst r0. exists r. eexists. split; [exact Er|]. split; [exact Fc|]. intros NE. specialize (HE NE).
    assert (Z : is_zero (error_fraction r) = false).
    { destruct truth as [l|]; [destruct (Qlt_le_dec 0 l)|]; try (rewrite HE; reflexivity). destruct HE as (e & -> & _ & He). cbn.
      destruct (Qeq_bool e 0) eqn:Z; [apply Qeq_bool_iff in Z; lra|reflexivity]. }
    unfold correct_of. rewrite Z.
    assert (Pos : forall l, some l -> positive l = true /\ zero l = false).
    { intros l (q & -> & Hq). cbn. split; [destruct (Qle_bool q 0) eqn:Q; [apply Qle_bool_iff in Q; lra|reflexivity]|].
      destruct (Qeq_bool q 0) eqn:Q; [apply Qeq_bool_iff in Q; lra|reflexivity]. }
    assert (Non : forall l, none l -> positive l = false /\ zero l = true) by (intros l [-> | ->]; split; reflexivity).
    split; [|split]; intros T M.
    - destruct (Non _ T) as [-> ->], (Non _ M) as [-> ->]. reflexivity.
    - destruct (Non _ T) as [-> ->], (Pos _ M) as [-> ->]. reflexivity.
    - destruct (Pos _ T) as [-> ->], (Non _ M) as [-> ->]. reflexivity.
  Qed.

  (** **** C25: what is correct and missed is not longer than the prepared ground truth, what is correct and added not longer than the
      prepared match; exactly as long if the line does not turn back on a segment. *)
  Lemma total_app l l' : (total (l ++ l') == total l + total l')%Q.
  Proof. induction l as [|s l IH]; cbn; [ring|]. rewrite IH. ring. Qed.
  Lemma total_perm l l' : Permutation l l' -> (total l == total l')%Q.
  Proof. induction 1; cbn; try lra. Qed.
  Lemma total_nonneg l : (0 <= total l)%Q.
  Proof. induction l as [|s l IH]; cbn; [lra|]. pose proof (len_pos (fst s) (snd s)). lra. Qed.
  Lemma total_count l l' : (forall x, count l x <= count l' x) -> (total l <= total l')%Q.
  Proof.
    revert l'. induction l as [|s l IH]; intros l' H; [apply total_nonneg|].
    assert (I : In s l'). { apply (count_occ_In dec). specialize (H s). cbn in H. destruct (dec s s); [lia|congruence]. }
    apply in_split in I. destruct I as (l1 & l2 & ->).
    assert (Q : (total (l1 ++ s :: l2) == len (fst s) (snd s) + total (l1 ++ l2))%Q) by (rewrite !total_app; cbn; ring).
    rewrite Q. cbn. apply Qplus_le_r. apply IH. intros x. specialize (H x). rewrite !count_occ_app in *. cbn in H. destruct (dec s x); lia.
  Qed.
  Theorem C25_lengths a b truth match_ a' b' : a <> [] -> b <> [] -> prepare a b = Ok (a', b') ->
    exists r, compare_segments a b truth match_ = Ok r
      /\ (correct r + error_missed r <= total a' /\ correct r + error_added r <= total b')%Q
      /\ (no_turn a' -> correct r + error_missed r == total a')%Q /\ (no_turn b' -> correct r + error_added r == total b')%Q.
  Proof.
    intros Na Nb E. rewrite (compare_evaluate _ _ _ _ _ _ Na Nb E). apply prepare_long in E. destruct E as [La Lb].
    destruct (evaluate_spec a' b' truth match_ La Lb) as (r & c & d & m & Er & Ec & <- & <- & <- & S1 & S2 & S3 & _). exists r. split; [exact Er|].
    destruct (classify_spec eqp eqp_eq dec a' b') as (c & d & m & Ec' & H1 & H2 & _ & _ & _ & H6 & H7). rewrite Ec in Ec'. injection Ec' as <- <- <-.
    rewrite S1, S2, S3, <- !total_app. split; [split|split].
    - apply total_count. intros x. rewrite count_occ_app. apply H1.
    - apply total_count. intros x. rewrite count_occ_app. apply H2.
    - intros T. apply total_perm. apply (Permutation_count_occ dec). intros x. rewrite count_occ_app. apply H6, no_turn_turns, T.
    - intros T. apply total_perm. apply (Permutation_count_occ dec). intros x. rewrite count_occ_app. apply H7, no_turn_turns, T.
  Qed.

  (** **** C25: a line compared with itself, when different points of the simplified line are not nearer to each other than the adoption
      tolerance: no error. *)
  Lemma nth_self (l : list seg) i s : nth_error l i = Some s -> skipn i l = s :: skipn (S i) l.
  Proof.
    revert i. induction l as [|t l IH]; intros i; [destruct i; discriminate|]. destruct i as [|i]; cbn [nth_error]; [intros [= ->]; reflexivity|].
    intros E. cbn [skipn]. rewrite (IH i E). reflexivity.
  Qed.
  Lemma sort_same l fuel i x : length l < fuel + i -> i <= length l ->
    sort_loop eqp fuel l l i i x = Ok (length l, length l, mkSorted (s_correct x ++ skipn i l) (s_adds x) (s_misses x) (s_rev_a x) (s_rev_b x)).
  Proof.
    revert i x. induction fuel as [|fuel IH]; intros i x Hf Hi; [lia|]. cbn [sort_loop].
    destruct (Nat.eq_dec i (length l)) as [->|N].
    - rewrite (proj2 (Nat.ltb_ge _ _)) by lia. cbn [andb]. rewrite skipn_all, app_nil_r. destruct x; reflexivity.
    - rewrite (proj2 (Nat.ltb_lt _ _)) by lia. cbn [andb]. destruct (nth_error l i) as [s|] eqn:E; [|apply nth_error_None in E; lia]. cbn [derefO].
      rewrite (proj2 (eqs_eq eqp eqp_eq s s) eq_refl). rewrite IH by lia. cbn [s_correct s_adds s_misses s_rev_a s_rev_b].
      rewrite (nth_self l i s E), <- app_assoc. cbn. replace (i + 1) with (S i) by lia. reflexivity.
  Qed.
  Lemma classify_same l : classify eqp l l = Ok (l, [], []).
  Proof.
    unfold classify, sort_segments. rewrite sort_same by lia. cbn. rewrite skipn_all. reflexivity.
  Qed.
  Theorem C25_identical a truth a1 : simplify a = Ok a1 ->
    (forall s t p q, In s a1 -> In t a1 -> p = fst s \/ p = snd s -> q = fst t \/ q = snd t -> p <> q -> ltb (dist p q) tol = false) ->
    exists r, compare_segments a a truth truth = Ok r /\ correct_fraction r = Fin 1 /\ error_fraction r = Fin 0
      /\ error_misses r = [] /\ error_adds r = [] /\ (error_missed r == 0 /\ error_added r == 0)%Q.
  Proof.
    intros Ea Ap. destruct a as [|s0 a0] eqn:Eq.
    - eexists. split; [reflexivity|]. cbn. repeat split; auto; lra.
    - rewrite <- Eq in *. assert (Na : a <> []) by congruence. clear Eq s0 a0.
      destruct (prepare_same eqp eqp_eq len ltb dist near tol as_set touched splits near_in as_set_in simplify as_set_canonical a a1 Ea) as (a' & E).
      { intros p q (s & Hs & Hp) (t & Ht & Hq) N. apply (Ap s t p q Hs Ht Hp Hq N). }
      destruct (C25_error a a truth truth a' a' Na Na E) as (r & Er & _ & S2 & S3 & HE & _). exists r. split; [exact Er|].
      rewrite (compare_evaluate _ _ _ _ _ _ Na Na E) in Er. apply prepare_long in E. destruct E as [La _].
      destruct (evaluate_spec a' a' truth truth La La) as (r' & c & d & m & Er' & Ec & E1 & E2 & E3 & _).
      assert (r' = r) by congruence. subst r'. rewrite classify_same in Ec. injection Ec as <- <- <-.
      destruct (HE (conj E2 E3)) as [F1 F2]. rewrite E2 in S2. rewrite E3 in S3. cbn in S2, S3. auto 8.
  Qed.
End C24.

(** **** An instance: points on a line. *)
Definition lenZ (p q : Z) : Q := inject_Z (Z.abs (p - q)).
Definition distZ (p q : Z) : Z := Z.abs (p - q).
Fixpoint insertZ (x : Z) (l : list Z) : list Z :=
  match l with [] => [x] | y :: r => if (x <? y)%Z then x :: l else if (x =? y)%Z then l else y :: insertZ x r end.
Definition setZ (l : list Z) : list Z := fold_right insertZ [] l.
Definition nearZ (l : list Z) (p : Z) : list Z := filter (fun q => Z.abs (p - q) <=? 20)%Z l.
Definition betweenZ (p : Z) (s : Z * Z) : bool := ((Z.min (fst s) (snd s) <=? p) && (p <=? Z.max (fst s) (snd s)))%Z.
Definition simplifyZ (l : list (Z * Z)) : outcome (list (Z * Z)) := simplify_rich_segments Z.leb 0%Z dist1 azimuth1 tb1 (length l + 1) l true 1%Z.
Definition compareZ (tol : Z) (truth match_ : list (list Z)) : outcome (comparison (Z * Z)) :=
  compare_lines Z.eqb lenZ simplifyZ Z.ltb distZ nearZ tol setZ betweenZ betweenZ truth match_.

Lemma insertZ_in x l y : In y (insertZ x l) <-> y = x \/ In y l.
Proof.
  induction l as [|z l IH]; cbn; [split; intros [H|H]; auto|]. destruct (Z.ltb_spec x z); cbn; [split; intros [E|E]; auto|].
  destruct (Z.eqb_spec x z); cbn.
  - subst. split; [auto|]. intros [E|E]; auto.
  - rewrite IH. split; [intros [E|[E|E]]|intros [E|[E|E]]]; auto.
Qed.
Lemma setZ_in l y : In y (setZ l) <-> In y l.
Proof. induction l as [|x l IH]; cbn; [tauto|]. rewrite insertZ_in, IH. split; intros [E|E]; auto. Qed.
Lemma setZ_sorted l : StronglySorted Z.lt (setZ l).
Proof.
  induction l as [|x l IH]; cbn; [constructor|]. change (StronglySorted Z.lt (insertZ x (setZ l))). revert IH. generalize (setZ l). clear l. intros l IH. induction IH as [|y r S IH' F]; cbn; [repeat constructor|].
  destruct (Z.ltb_spec x y) as [L|L].
  - constructor; [constructor; auto|]. constructor; [exact L|]. rewrite Forall_forall in *. intros z Hz. specialize (F z Hz). lia.
  - destruct (Z.eqb_spec x y) as [->|N]; [constructor; auto|]. constructor; [exact IH'|]. rewrite Forall_forall in *. intros z Hz.
    apply insertZ_in in Hz. destruct Hz as [->|Hz]; [lia|auto].
Qed.
Lemma sorted_unique l l' : StronglySorted Z.lt l -> StronglySorted Z.lt l' -> (forall p, In p l <-> In p l') -> l = l'.
Proof.
  intros S. revert l'. induction S as [|x l S IH F]; intros l' S' H.
  - destruct l' as [|y l']; [reflexivity|]. destruct (proj2 (H y)); cbn; auto.
  - destruct S' as [|y l' S' F']; [destruct (proj1 (H x)); cbn; auto|]. rewrite Forall_forall in F, F'.
    assert (x = y).
    { destruct (proj1 (H x)) as [E|E]; cbn; auto. destruct (proj2 (H y)) as [E'|E']; cbn; auto. specialize (F _ E'). specialize (F' _ E). lia. }
    subst y. f_equal. apply IH; [exact S'|]. intros p. split; intros Hp.
    + destruct (proj1 (H p)) as [E|E]; cbn; auto. subst. specialize (F _ Hp). lia.
    + destruct (proj2 (H p)) as [E|E]; cbn; auto. subst. specialize (F' _ Hp). lia.
Qed.
Example C24_contracts :
  (forall x y, Z.eqb x y = true <-> x = y)
  /\ (forall p q, (0 <= lenZ p q)%Q) /\ (forall p q, (lenZ p q == 0)%Q <-> p = q)
  /\ (forall l p q, In q (nearZ l p) -> In q l) /\ (forall l p, In p (setZ l) <-> In p l)
  /\ (forall l l', (forall p, In p l <-> In p l') -> setZ l = setZ l').
Proof.
  split; [apply Z.eqb_eq|]. split; [|split; [|split; [|split]]].
  - intros p q. unfold lenZ. change 0%Q with (inject_Z 0). rewrite <- Zle_Qle. lia.
  - intros p q. unfold lenZ. change 0%Q with (inject_Z 0). split.
    + intros H. unfold Qeq in H. cbn in H. lia.
    + intros ->. rewrite Z.sub_diag. reflexivity.
  - intros l p q H. apply filter_In in H. tauto.
  - apply setZ_in.
  - intros l l' H. apply sorted_unique; try apply setZ_sorted. intros p. rewrite !setZ_in. apply H.
Qed.
(** the match goes 5 too far; the ground truth is split there *)
Example C24_demo :
  compareZ 1 [[0; 20; 14]]%Z [[0; 10; 25]]%Z
  = Ok (mkComparison (Fin (20 # 26)) (Fin (11 # 26)) 20 5 6 [(0, 14); (14, 20)]%Z [(20, 25)]%Z [(20, 14)]%Z).
Proof. vm_compute. reflexivity. Qed.
Example C24_demo_prepared :
  prepare Z.eqb lenZ simplifyZ Z.ltb distZ nearZ 1%Z setZ betweenZ betweenZ (segments [0; 20; 14]%Z) (segments [0; 10; 25]%Z)
  = Ok ([(0, 14); (14, 20); (20, 14)]%Z, [(0, 14); (14, 20); (20, 25)]%Z).
Proof. vm_compute. reflexivity. Qed.
Example C24_connected_demo : simplifyZ (segments [0; 20; 14]%Z) = Ok [(0, 20); (20, 14)]%Z /\ connected [(0, 20); (20, 14)]%Z.
Proof. split; [vm_compute; reflexivity|]. exists 0%Z, 14%Z. cbn. auto. Qed.
(** no turns: exact, even with repeated segments (a loop driven twice, in the plane of the points 0, 1, 2) *)
Example C24_no_turn_demo :
  classify Nat.eqb [(0, 1); (1, 2); (2, 0); (0, 1); (1, 2); (2, 0)] [(0, 1); (1, 2); (2, 0)] = Ok ([(0, 1); (1, 2); (2, 0)], [], [(0, 1); (1, 2); (2, 0)]).
Proof. vm_compute. reflexivity. Qed.
Example C25_identical_demo : compareZ 1 [[0; 20; 14]]%Z [[0; 20; 14]]%Z = Ok (mkComparison (Fin 1) (Fin 0) 26 0 0 [(0, 14); (14, 20); (20, 14)]%Z [] []).
Proof. vm_compute. reflexivity. Qed.
(** a ground truth without extent *)
Example C25_no_length_demo : compareZ 1 [[7; 7]]%Z [[0; 20]]%Z = Ok (mkComparison (Fin 0) Inf 0 20 0 [] [(0, 20)]%Z [])
  /\ lengths Z.eqb lenZ (concat (map segments [[7; 7]]%Z)) = None.
Proof. split; vm_compute; reflexivity. Qed.

(** **** What is not true. *)
(** Not everything that is wrong is counted: the ground truth goes back and forth twice before it goes on; the match goes straight.  40 of
    the 60 of the ground truth are not in the match, but only 20 are reported, and correct and missed length do not sum up. *)
Theorem C24_repeated_turns_refuted : exists truth match_ r, compareZ 1 truth match_ = Ok r
  /\ truth = [[0; 10; 0; 10; 0; 20]]%Z /\ match_ = [[0; 20]]%Z
  /\ corrects r = [(0, 10); (10, 20)]%Z /\ error_misses r = [(10, 0); (0, 10)]%Z /\ (correct r == 20)%Q /\ (error_missed r == 20)%Q
  /\ lengths Z.eqb lenZ (concat (map segments truth)) = Some 60%Q.
Proof. eexists _, _, _. split; [|split; [reflexivity|]; split; [reflexivity|]]; vm_compute; [reflexivity|]. auto 8. Qed.
(** The same on the side of the match: 20, 40 or more superfluous kilometres give the same error. *)
Theorem C24_repeated_adds_refuted : exists truth m1 m2 r1 r2, compareZ 1 truth m1 = Ok r1 /\ compareZ 1 truth m2 = Ok r2
  /\ (lengths Z.eqb lenZ (concat (map segments m1)) = Some 40 /\ lengths Z.eqb lenZ (concat (map segments m2)) = Some 80)%Q
  /\ error_added r1 = error_added r2 /\ error_fraction r1 = error_fraction r2.
Proof.
  exists [[0; 20]]%Z, [[0; 10; 0; 20]]%Z, [[0; 10; 0; 10; 0; 10; 0; 20]]%Z. eexists _, _.
  split; [vm_compute; reflexivity|]. split; [vm_compute; reflexivity|]. vm_compute. auto.
Qed.
(** The parts of a match are taken as one line: a gap on a straight road is closed by the simplification, and a match without the middle
    third of the road is completely correct. *)
Theorem C24_gap_refuted : exists truth match_ r, compareZ 1 truth match_ = Ok r
  /\ truth = [[0; 30]]%Z /\ match_ = [[0; 10]; [20; 30]]%Z
  /\ correct_fraction r = Fin 1 /\ error_fraction r = Fin 0 /\ error_misses r = [] /\ (correct r == 30)%Q.
Proof. eexists _, _, _. split; [|split; [reflexivity|]; split; [reflexivity|]]; vm_compute; [reflexivity|]. auto. Qed.
(** Even one and the same line may have an error, if it has points that are nearer to each other than the adoption tolerance (here 10):
    the adoption to the other line finds other points than before. *)
Theorem C25_identical_refuted : exists line r, compareZ 10 [line] [line] = Ok r
  /\ line = [40; 30; 36; 30]%Z /\ corrects r = [] /\ (error_added r == 12)%Q /\ correct_fraction r = Fin 0.
Proof. eexists _, _. split; [|split; [reflexivity|]]; vm_compute; [reflexivity|]. auto. Qed.

Print Assumptions C24_accounts.
Print Assumptions C24_correct_in_both.
Print Assumptions C24_exact.
Print Assumptions C24_empty.
Print Assumptions C24_connected.
Print Assumptions C24_repeated_turns_refuted.
Print Assumptions C24_repeated_adds_refuted.
Print Assumptions C24_gap_refuted.
Print Assumptions C25_error.
Print Assumptions C25_correct_range.
Print Assumptions C25_correct.
Print Assumptions C25_no_length.
Print Assumptions C25_lengths.
Print Assumptions C25_identical.
Print Assumptions C25_identical_refuted.
