(** C35, C36, C37, C39, C40: small utilities. *)
From Coq Require Import ZArith NArith QArith Qabs Lqa Ascii.
From Verif Require Import Base ListAux Utils.
Local Open Scope nat_scope.

(** *** C35 *)
Section C35.
  Local Open Scope Q_scope.
  (** rounding of a floating point format: compatible with equality, monotone, odd, exact at 180 and 360, and exact for
      the difference of two representable numbers within a factor of two of each other (Sterbenz) *)
  Record rounding (rnd : Q -> Q) : Prop := mkRounding {
    rnd_eq : forall x y, x == y -> rnd x == rnd y;
    rnd_mono : forall x y, x <= y -> rnd x <= rnd y;
    rnd_odd : forall x, rnd (- x) == - rnd x;
    rnd_180 : rnd 180 == 180;
    rnd_360 : rnd 360 == 360;
    rnd_sterbenz : forall x, 180 <= rnd x -> rnd x <= 720 -> rnd (rnd x - 360) == rnd x - 360
  }.

  Variable rnd : Q -> Q.
  Hypothesis R : rounding rnd.

  Lemma rnd_zero : rnd 0 == 0.
  Proof. pose proof (rnd_odd _ R 0) as H. pose proof (rnd_eq _ R (-0) 0 ltac:(reflexivity)). lra. Qed.
  Lemma rnd_m360 : rnd (-360) == -360.
  Proof. pose proof (rnd_odd _ R 360) as H. pose proof (rnd_eq _ R (-(360)) (-360) ltac:(reflexivity)). pose proof (rnd_360 _ R). lra. Qed.
  Lemma rnd_m180 : rnd (-180) == -180.
  Proof. pose proof (rnd_odd _ R 180) as H. pose proof (rnd_eq _ R (-(180)) (-180) ltac:(reflexivity)). pose proof (rnd_180 _ R). lra. Qed.

  Definition azimuth (a : Q) : Prop := -180 <= a /\ a <= 180.

  Lemma diff_range a b : azimuth a -> azimuth b -> -360 <= rnd (a - b) /\ rnd (a - b) <= 360.
  Proof.
    intros [A1 A2] [B1 B2]. pose proof rnd_m360. pose proof (rnd_360 _ R).
    pose proof (rnd_mono _ R (-360) (a - b) ltac:(lra)). pose proof (rnd_mono _ R (a - b) 360 ltac:(lra)). lra.
  Qed.

  Lemma sterbenz_neg a b : -720 <= rnd (a - b) -> rnd (a - b) <= -180 -> rnd (rnd (a - b) + 360) == rnd (a - b) + 360.
  Proof.
    intros H1 H2. pose proof (rnd_odd _ R (a - b)) as O. set (d := rnd (a - b)) in *. set (e := rnd (- (a - b))) in *.
    assert (E : rnd (e - 360) == e - 360) by (apply (rnd_sterbenz _ R); fold e; lra).
    pose proof (rnd_odd _ R (e - 360)) as O2. pose proof (rnd_eq _ R (- (e - 360)) (d + 360) ltac:(lra)). lra.
  Qed.

  (** **** C35: the result is in [-180, 180], differs from the rounded difference of the angles by -360, 0 or 360, and
      changes its sign when the angles are exchanged. *)
  Theorem C35_angle_diff a b : azimuth a -> azimuth b ->
    azimuth (angle_diff rnd a b)
    /\ (exists k : Z, (-1 <= k <= 1)%Z /\ angle_diff rnd a b == rnd (a - b) + 360 * inject_Z k)
    /\ angle_diff rnd b a == - angle_diff rnd a b.
  Proof.
    intros A B. pose proof (diff_range a b A B) as [D1 D2].
    assert (Op : rnd (b - a) == - rnd (a - b)).
    { rewrite <- (rnd_odd _ R (a - b)). apply (rnd_eq _ R). lra. }
    unfold angle_diff, azimuth. set (d := rnd (a - b)) in *. set (e := rnd (b - a)) in *.
    pose proof rnd_m180 as E180. pose proof rnd_zero as E0.
    destruct (Qle_bool 180 d) eqn:H1.
    - apply Qle_bool_iff in H1. assert (S1 : rnd (d - 360) == d - 360) by (apply (rnd_sterbenz _ R); fold d; lra).
      assert (H2 : Qle_bool 180 e = false) by (apply not_true_iff_false; rewrite Qle_bool_iff; lra). rewrite H2.
      assert (H3 : Qle_bool e (-180) = true) by (apply Qle_bool_iff; lra). rewrite H3.
      assert (S2 : rnd (e + 360) == e + 360) by (apply sterbenz_neg; fold e; lra).
      split; [lra|]. split; [|lra]. exists (-1)%Z. split; [lia|]. change (inject_Z (-1)) with (-1 # 1). lra.
    - apply not_true_iff_false in H1. rewrite Qle_bool_iff in H1. apply Qnot_le_lt in H1.
      destruct (Qle_bool d (-180)) eqn:H2.
      + apply Qle_bool_iff in H2. assert (S1 : rnd (d + 360) == d + 360) by (apply sterbenz_neg; fold d; lra).
        assert (H3 : Qle_bool 180 e = true) by (apply Qle_bool_iff; lra). rewrite H3.
        assert (S2 : rnd (e - 360) == e - 360) by (apply (rnd_sterbenz _ R); fold e; lra).
        split; [lra|]. split; [|lra]. exists 1%Z. split; [lia|]. change (inject_Z 1) with (1 # 1). lra.
      + apply not_true_iff_false in H2. rewrite Qle_bool_iff in H2. apply Qnot_le_lt in H2.
        assert (H3 : Qle_bool 180 e = false) by (apply not_true_iff_false; rewrite Qle_bool_iff; lra). rewrite H3.
        assert (H4 : Qle_bool e (-180) = false) by (apply not_true_iff_false; rewrite Qle_bool_iff; lra). rewrite H4.
        split; [lra|]. split; [|lra]. exists 0%Z. split; [lia|]. change (inject_Z 0) with (0 # 1). lra.
  Qed.

  (** the smaller of the two ways round *)
  Theorem C35_shortest a b k : azimuth a -> azimuth b ->
    Qabs (angle_diff rnd a b) <= Qabs (rnd (a - b) + 360 * inject_Z k).
  Proof.
    intros A B. destruct (C35_angle_diff a b A B) as ((L & U) & (j & Hj & E) & _).
    set (x := angle_diff rnd a b) in *. set (d := rnd (a - b)) in *.
    assert (Ek : d + 360 * inject_Z k == x + 360 * inject_Z (k - j)).
    { rewrite E. unfold Zminus. rewrite inject_Z_plus, inject_Z_opp. ring. }
    rewrite Ek. destruct (Z.eq_dec (k - j) 0) as [->|Ne].
    - apply Qle_lteq. right. assert (x == x + 360 * inject_Z 0) as <- by (change (inject_Z 0) with (0 # 1); lra). reflexivity.
    - apply Qabs_case; intros _; apply Qle_trans with 180; try lra.
      + destruct (Z.lt_ge_cases (k - j) 0).
        * pose proof (Qle_Qabs (- (x + 360 * inject_Z (k - j)))) as Q1. rewrite Qabs_opp in Q1.
          assert (inject_Z (k - j) <= -1) by (change (-1) with (inject_Z (-1)); rewrite <- Zle_Qle; lia). lra.
        * pose proof (Qle_Qabs (x + 360 * inject_Z (k - j))) as Q1.
          assert (1 <= inject_Z (k - j)) by (change 1 with (inject_Z 1); rewrite <- Zle_Qle; lia). lra.
      + destruct (Z.lt_ge_cases (k - j) 0).
        * pose proof (Qle_Qabs (- (x + 360 * inject_Z (k - j)))) as Q1. rewrite Qabs_opp in Q1.
          assert (inject_Z (k - j) <= -1) by (change (-1) with (inject_Z (-1)); rewrite <- Zle_Qle; lia). lra.
        * pose proof (Qle_Qabs (x + 360 * inject_Z (k - j))) as Q1.
          assert (1 <= inject_Z (k - j)) by (change 1 with (inject_Z 1); rewrite <- Zle_Qle; lia). lra.
  Qed.
End C35.

(** exact arithmetic is an instance of the contract; the demo crosses the cut at 180 degrees *)
Example C35_exact : rounding (fun x => x).
Proof. constructor; intros; try assumption; try reflexivity. Qed.
Example C35_demo : angle_diff (fun x => x) 170 (-170) == -20 /\ angle_diff (fun x => x) (-170) 170 == 20
  /\ azimuth 170 /\ azimuth (-170) /\ angle_diff (fun x => x) 180 0 == -180 /\ angle_diff (fun x => x) 0 180 == 180.
Proof. unfold azimuth. repeat split; vm_compute; first [reflexivity|discriminate]. Qed.
(** another instance, which does round: truncation to whole degrees *)
Definition trunc (x : Q) : Q := inject_Z (Z.quot (Qnum x) (Zpos (Qden x))).
Lemma trunc_neg x : (trunc (- x) == - trunc x)%Q.
Proof. unfold trunc. destruct x as [n d]. cbn [Qopp Qnum Qden]. rewrite Z.quot_opp_l by lia. rewrite inject_Z_opp. reflexivity. Qed.
Lemma trunc_int z : (trunc (inject_Z z) == inject_Z z)%Q.
Proof. unfold trunc. cbn [Qnum Qden inject_Z]. rewrite Z.quot_1_r. reflexivity. Qed.
Lemma quot_mono a b c d : (0 < b)%Z -> (0 < d)%Z -> (a * d <= c * b)%Z -> (Z.quot a b <= Z.quot c d)%Z.
Proof.
  intros Hb Hd H. destruct (Z.le_gt_cases 0 a) as [Ha|Ha].
  - assert (0 <= c)%Z by nia. rewrite !Z.quot_div_nonneg by lia.
    rewrite <- (Z.div_mul_cancel_r a b d), <- (Z.div_mul_cancel_r c d b) by lia.
    rewrite (Z.mul_comm d b). apply Z.div_le_mono; nia.
  - destruct (Z.le_gt_cases 0 c) as [Hc|Hc].
    + assert (Z.quot a b <= 0)%Z.
      { replace a with (- (- a))%Z by lia. rewrite Z.quot_opp_l by lia. pose proof (Z.quot_pos (- a) b). lia. }
      pose proof (Z.quot_pos c d). lia.
    + assert (Ea : Z.quot a b = (- Z.quot (- a) b)%Z) by (rewrite Z.quot_opp_l by lia; lia).
      assert (Ec : Z.quot c d = (- Z.quot (- c) d)%Z) by (rewrite Z.quot_opp_l by lia; lia).
      rewrite Ea, Ec. apply (proj1 (Z.opp_le_mono _ _)). rewrite !Z.quot_div_nonneg by lia.
      rewrite <- (Z.div_mul_cancel_r (- a) b d), <- (Z.div_mul_cancel_r (- c) d b) by lia.
      rewrite (Z.mul_comm d b). apply Z.div_le_mono; nia.
Qed.
Lemma trunc_mono x y : (x <= y)%Q -> (trunc x <= trunc y)%Q.
Proof.
  destruct x as [n d], y as [m e]. unfold trunc. cbn [Qnum Qden]. rewrite <- Zle_Qle. unfold Qle. cbn [Qnum Qden]. intros H. apply quot_mono; lia.
Qed.
Example C35_truncating : rounding trunc.
Proof.
  constructor.
  - intros x y H. apply Qle_antisym; apply trunc_mono; rewrite H; apply Qle_refl.
  - exact trunc_mono.
  - exact trunc_neg.
  - reflexivity.
  - reflexivity.
  - intros x _ _. set (k := Z.quot (Qnum x) (Zpos (Qden x))). change (trunc x) with (inject_Z k).
    assert (E : (inject_Z k - 360 == inject_Z (k - 360))%Q)
      by (unfold Zminus; rewrite inject_Z_plus; change (inject_Z (-360)) with (- (360))%Q; unfold Qminus; reflexivity).
    rewrite E at 2. rewrite <- (trunc_int (k - 360)). apply Qle_antisym; apply trunc_mono; rewrite E; apply Qle_refl.
Qed.
(** outside [-180, 180] the result need not be in range *)
Theorem C35_wide_angles_refuted : exists a b, ~ azimuth (angle_diff (fun x => x) a b).
Proof. exists 600%Q, 0%Q. unfold azimuth. intros [_ H]. vm_compute in H. apply H. reflexivity. Qed.
Local Open Scope nat_scope.

(** *** C36 *)
Section C36.
  Local Open Scope N_scope.

  (** bit [i] of the smeared number: some bit among [i .. i + w - 1] was set *)
  Definition window (x : N) (w : N) (i : N) : Prop := exists d, d < w /\ N.testbit x (i + d) = true.

  Lemma smear_window x y w : (forall i, N.testbit y i = true <-> window x w i) ->
    forall i, N.testbit (smear w y) i = true <-> window x (2 * w) i.
  Proof.
    intros H i. unfold smear. rewrite N.lor_spec, N.shiftr_spec', orb_true_iff, !H. unfold window. split.
    - intros [(d & L & B)|(d & L & B)]; [exists d|exists (w + d)].
      + split; [lia|exact B].
      + split; [lia|]. rewrite <- B. f_equal. lia.
    - intros (d & L & B). destruct (N.lt_ge_cases d w) as [L'|L']; [left; exists d; auto|right].
      exists (d - w). split; [lia|]. rewrite <- B. f_equal. lia.
  Qed.

  Lemma smear_all m :
    forall i, N.testbit (smear 32 (smear 16 (smear 8 (smear 4 (smear 2 (smear 1 m)))))) i = true <-> window m 64 i.
  Proof.
    apply (smear_window m _ 32), (smear_window m _ 16), (smear_window m _ 8), (smear_window m _ 4), (smear_window m _ 2), (smear_window m _ 1).
    intros i. split.
    - intros H. exists 0. split; [lia|]. rewrite N.add_0_r. exact H.
    - intros (d & L & B). replace d with 0 in B by lia. rewrite N.add_0_r in B. exact B.
  Qed.

  Lemma smear_ones m : 0 < m -> m < 2 ^ 64 ->
    smear 32 (smear 16 (smear 8 (smear 4 (smear 2 (smear 1 m))))) = 2 ^ (N.succ (N.log2 m)) - 1.
  Proof.
    intros H1 H2. rewrite N.sub_1_r, <- N.ones_equiv. apply N.bits_inj. intros i.
    assert (L : N.log2 m < 64) by (apply N.log2_lt_pow2; assumption).
    apply Bool.eq_iff_eq_true. rewrite smear_all. rewrite N.ones_spec_iff. unfold window. split.
    - intros (d & Hd & B). destruct (N.lt_ge_cases i (N.succ (N.log2 m))) as [?|Hi]; [assumption|].
      rewrite N.bits_above_log2 in B by lia. discriminate.
    - intros Hi. exists (N.log2 m - i). split; [lia|]. replace (i + (N.log2 m - i)) with (N.log2 m) by lia.
      apply N.bit_log2. lia.
  Qed.

  (** **** C36: [next_pow2] is the least power of two that is not smaller, where one fits into 64 bits. *)
  Theorem C36_next_pow2 x : 1 <= x -> x <= 2 ^ 63 ->
    exists k, next_pow2 x = 2 ^ k /\ x <= 2 ^ k /\ forall j, x <= 2 ^ j -> 2 ^ k <= 2 ^ j.
  Proof.
    intros H1 H2. pose proof (eq_refl : 2 ^ 64 = 18446744073709551616) as P64. pose proof (eq_refl : 2 ^ 63 = 9223372036854775808) as P63. unfold next_pow2, wrap64.
    replace (x + (2 ^ 64 - 1)) with (x - 1 + 1 * 2 ^ 64) by lia. rewrite N.mod_add by discriminate.
    rewrite (N.mod_small (x - 1)) by lia. destruct (N.eq_dec x 1) as [->|Ne].
    - exists 0. split; [vm_compute; reflexivity|]. split; [vm_compute; discriminate|]. intros j H. rewrite N.pow_0_r. exact H.
    - set (m := x - 1). rewrite (smear_ones m) by lia.
      assert (L : N.log2 m < 63) by (apply N.log2_lt_pow2; lia).
      assert (B : 2 ^ N.log2 m <= m /\ m < 2 ^ N.succ (N.log2 m)) by (apply N.log2_spec; lia).
      assert (Pw : 2 ^ N.succ (N.log2 m) <= 2 ^ 63) by (apply N.pow_le_mono_r; lia).
      assert (Pz : 2 ^ N.succ (N.log2 m) <> 0) by (apply N.pow_nonzero; discriminate).
      exists (N.succ (N.log2 m)). rewrite N.sub_add by lia. rewrite N.mod_small by lia.
      split; [reflexivity|]. split; [lia|]. intros j Hj. apply N.pow_le_mono_r; [discriminate|].
      apply N.le_succ_l. apply (N.pow_lt_mono_r_iff 2); lia.
  Qed.
  Theorem C36_overflow x : x = 0 \/ 2 ^ 63 < x /\ x < 2 ^ 64 -> next_pow2 x = 0.
  Proof.
    intros [->|[H1 H2]]; [vm_compute; reflexivity|]. pose proof (eq_refl : 2 ^ 64 = 18446744073709551616) as P64. pose proof (eq_refl : 2 ^ 63 = 9223372036854775808) as P63. unfold next_pow2, wrap64.
    replace (x + (2 ^ 64 - 1)) with (x - 1 + 1 * 2 ^ 64) by lia. rewrite N.mod_add by discriminate.
    rewrite (N.mod_small (x - 1)) by lia. set (m := x - 1). rewrite (smear_ones m) by lia.
    assert (L : N.log2 m = 63).
    { apply N.log2_unique; [lia|]. split; [unfold m; lia|]. change (2 ^ N.succ 63) with (2 ^ 64). lia. }
    rewrite L. vm_compute. reflexivity.
  Qed.
End C36.
Example C36_demo : map next_pow2 [1; 2; 3; 1000; 9223372036854775807]%N = [1; 2; 4; 1024; 9223372036854775808]%N.
Proof. vm_compute. reflexivity. Qed.

(** *** C37 *)
(** escaping: tab, space and backslash are written with a backslash *)
Definition escape1 (c : ascii) : list ascii :=
  if Ascii.eqb c tab then [bsl; "t"%char] else if Ascii.eqb c space then [bsl; "s"%char]
  else if Ascii.eqb c bsl then [bsl; bsl] else [c].
Definition escape (s : list ascii) : list ascii := flat_map escape1 s.

Lemma pd_escape1 out c : fold_left pd_step (escape1 c) (out, false) = (out ++ [c], false).
Proof.
  unfold escape1. destruct (Ascii.eqb_spec c tab) as [->|N1]; [reflexivity|].
  destruct (Ascii.eqb_spec c space) as [->|N2]; [reflexivity|].
  destruct (Ascii.eqb_spec c bsl) as [->|N3]; [reflexivity|]. cbn [fold_left pd_step].
  destruct (Ascii.eqb_spec c bsl); [contradiction|reflexivity].
Qed.
Lemma pd_escape s out : fold_left pd_step (escape s) (out, false) = (out ++ s, false).
Proof.
  revert out. induction s as [|c s IH]; intros out; cbn [escape flat_map fold_left]; [rewrite app_nil_r; reflexivity|].
  rewrite fold_left_app, pd_escape1. fold (escape s). rewrite IH, <- app_assoc. reflexivity.
Qed.
(** **** C37: parsing inverts escaping; a text without backslash is returned as it is *)
Theorem C37_round_trip s : parse_delimiter (escape s) = s.
Proof. unfold parse_delimiter. rewrite pd_escape. reflexivity. Qed.
Theorem C37_plain s : ~ In bsl s -> parse_delimiter s = s.
Proof.
  intros H. unfold parse_delimiter. enough (K : forall out, fold_left pd_step s (out, false) = (out ++ s, false)) by (rewrite K; reflexivity).
  induction s as [|c s IH]; intros out; cbn [fold_left]; [rewrite app_nil_r; reflexivity|].
  cbn [pd_step]. destruct (Ascii.eqb_spec c bsl) as [->|]; [exfalso; apply H; left; reflexivity|].
  rewrite IH by (intros I; apply H; right; exact I). rewrite <- app_assoc. reflexivity.
Qed.
(** every character that is not a backslash gives exactly one delimiter, and so does every pair of a backslash and a
    character; a backslash at the very end is dropped *)
Theorem C37_parse_cases :
  parse_delimiter [] = [] /\ parse_delimiter [bsl] = []
  /\ (forall c s, c <> bsl -> parse_delimiter (c :: s) = c :: parse_delimiter s)
  /\ (forall s, parse_delimiter (bsl :: "t"%char :: s) = tab :: parse_delimiter s)
  /\ (forall s, parse_delimiter (bsl :: "s"%char :: s) = space :: parse_delimiter s)
  /\ (forall c s, c <> "t"%char -> c <> "s"%char -> parse_delimiter (bsl :: c :: s) = c :: parse_delimiter s).
Proof.
  assert (G : forall s out b, fst (fold_left pd_step s (out, b)) = out ++ fst (fold_left pd_step s ([], b))).
  { induction s as [|c s IH]; intros out b; cbn [fold_left fst]; [rewrite app_nil_r; reflexivity|]. cbn [pd_step].
    destruct b; [|destruct (Ascii.eqb c bsl)]; rewrite (IH (_ ++ _)) || rewrite IH.
    - rewrite (IH ([] ++ _)), <- app_assoc. reflexivity.
    - reflexivity.
    - rewrite (IH ([] ++ _)), <- app_assoc. reflexivity. }
  unfold parse_delimiter. split; [reflexivity|]. split; [reflexivity|]. split; [|split; [|split]].
  - intros c s H. cbn [fold_left pd_step]. destruct (Ascii.eqb_spec c bsl); [contradiction|]. rewrite G. reflexivity.
  - intros s. cbn. rewrite G. reflexivity.
  - intros s. cbn. rewrite G. reflexivity.
  - intros c s H1 H2. cbn [fold_left pd_step]. rewrite Ascii.eqb_refl. cbn [fold_left pd_step].
    destruct (Ascii.eqb_spec c "t"); [contradiction|]. destruct (Ascii.eqb_spec c "s"); [contradiction|]. rewrite G. reflexivity.
Qed.
Example C37_demo : parse_delimiter ["\"; "t"; ";"; "\"; "s"; "\"; "\"; "x"]%char = [tab; ";"; space; "\"; "x"]%char.
Proof. reflexivity. Qed.
(** The second, uncalled function of the same name does the same as long as no backslash follows a backslash. *)
Theorem C37_second_parser_cases :
  parse_delimiter2 [] = [] /\ parse_delimiter2 [bsl] = []
  /\ (forall c s, c <> bsl -> parse_delimiter2 (c :: s) = c :: parse_delimiter2 s)
  /\ (forall s, parse_delimiter2 (bsl :: "t"%char :: s) = tab :: parse_delimiter2 s)
  /\ (forall s, parse_delimiter2 (bsl :: "s"%char :: s) = space :: parse_delimiter2 s)
  /\ (forall c s, c <> "t"%char -> c <> "s"%char -> c <> bsl -> parse_delimiter2 (bsl :: c :: s) = c :: parse_delimiter2 s)
  /\ (forall s, parse_delimiter2 (bsl :: bsl :: s) = parse_delimiter2 (bsl :: s)).
Proof.
  assert (G : forall s out b, fst (fold_left pd2_step s (out, b)) = out ++ fst (fold_left pd2_step s ([], b))).
  { induction s as [|c s IH]; intros out b; cbn [fold_left fst]; [rewrite app_nil_r; reflexivity|]. cbn [pd2_step].
    destruct (Ascii.eqb c bsl); [apply IH|]. destruct b; rewrite (IH (_ ++ _)), (IH ([] ++ _)), <- app_assoc; reflexivity. }
  unfold parse_delimiter2. split; [reflexivity|]. split; [reflexivity|]. split; [|split; [|split; [|split]]].
  - intros c s H. cbn [fold_left pd2_step]. destruct (Ascii.eqb_spec c bsl); [contradiction|]. rewrite G. reflexivity.
  - intros s. cbn. rewrite G. reflexivity.
  - intros s. cbn. rewrite G. reflexivity.
  - intros c s H1 H2 H3. cbn [fold_left pd2_step]. rewrite Ascii.eqb_refl. cbn [fold_left pd2_step]. destruct (Ascii.eqb_spec c bsl); [contradiction|].
    destruct (Ascii.eqb_spec c "t"); [contradiction|]. destruct (Ascii.eqb_spec c "s"); [contradiction|]. rewrite G. reflexivity.
  - intros s. reflexivity.
Qed.
(** What counts as a number: at least one character, all of them the digits 0 to 9. *)
Theorem C37_is_number s : is_number s = true <-> s <> [] /\ (forall c, In c s -> In c ["0"; "1"; "2"; "3"; "4"; "5"; "6"; "7"; "8"; "9"]%char).
Proof.
  assert (D : forall c, digit c = true <-> In c ["0"; "1"; "2"; "3"; "4"; "5"; "6"; "7"; "8"; "9"]%char).
  { intros c. destruct c as [[] [] [] [] [] [] [] []]; vm_compute; split; intros H; try discriminate; try reflexivity;
      repeat (destruct H as [H|H]; [try discriminate H|]); try contradiction; tauto. }
  destruct s as [|c s]; cbn [is_number]; [split; [discriminate|intros [H _]; congruence]|]. rewrite forallb_forall. split.
  - intros H. split; [discriminate|]. intros x Hx. apply D, H, Hx.
  - intros [_ H] x Hx. apply D, H, Hx.
Qed.
Example C37_demo_number : is_number ["1"; "0"; "9"]%char = true /\ is_number ["1"; "."]%char = false.
Proof. split; reflexivity. Qed.
(** The second, uncalled function of the same name cannot produce a backslash. *)
Theorem C37_second_parser_refuted : exists s, parse_delimiter2 (escape s) <> s.
Proof. exists [bsl]. discriminate. Qed.

(** *** C39 *)
Section C39.
  Context {A : Type}.
  Implicit Types (l : list A) (pos : Z).

  Lemma read_in l i : (0 <= i < size l)%Z -> exists x, nth_error l (Z.to_nat i) = Some x /\ read_at l i = Ok (Some x).
  Proof.
    intros H. unfold read_at, size in *. destruct (Z.ltb_spec i 0); [lia|].
    destruct (nth_error l (Z.to_nat i)) as [x|] eqn:E; [eauto|]. apply nth_error_None in E. lia.
  Qed.

  (** **** C39: within the range the element is returned, outside an exception is raised; nothing is read outside, unless
      the container is empty and the position 0, or the position is the smallest 64-bit number. *)
  Theorem C39_at l pos : (- 2 ^ 63 < pos)%Z -> l <> [] \/ pos <> 0%Z ->
    (- size l < pos < size l -> exists x, nth_error l (Z.to_nat (if pos <? 0 then size l + pos else pos)) = Some x /\ view_at l pos = Ok (Some x))%Z
    /\ (pos <= - size l \/ size l <= pos -> pos <> 0 -> view_at l pos = Throw None)%Z
    /\ view_at l pos <> UB.
  Proof.
    intros Hmin Hne.
    assert (In : (- size l < pos < size l -> exists x, nth_error l (Z.to_nat (if pos <? 0 then size l + pos else pos)) = Some x /\ view_at l pos = Ok (Some x))%Z).
    { intros H. unfold view_at. destruct (Z.ltb_spec 0 pos) as [Hp|Hp].
      - destruct (Z.ltb_spec pos 0); [lia|]. destruct (Z.leb_spec (size l) pos); [lia|]. apply read_in. lia.
      - destruct (Z.ltb_spec pos 0).
        + destruct (Z.eqb_spec pos (- 2 ^ 63)); [lia|]. destruct (Z.leb_spec (size l) (Z.abs pos)); [lia|].
          replace (size l - Z.abs pos)%Z with (size l + pos)%Z by lia. apply read_in. lia.
        + replace pos with 0%Z by lia. apply read_in. lia. }
    assert (Out : (pos <= - size l \/ size l <= pos -> pos <> 0 -> view_at l pos = Throw None)%Z).
    { intros H Hz. unfold view_at. destruct (Z.ltb_spec 0 pos) as [Hp|Hp].
      - destruct (Z.leb_spec (size l) pos); [reflexivity|]. unfold size in *. lia.
      - destruct (Z.ltb_spec pos 0); [|lia]. destruct (Z.eqb_spec pos (- 2 ^ 63)); [lia|].
        destruct (Z.leb_spec (size l) (Z.abs pos)); [reflexivity|]. unfold size in *. lia. }
    split; [exact In|]. split; [exact Out|].
    destruct (Z.le_gt_cases pos (- size l)) as [H|H].
    - destruct (Z.eq_dec pos 0) as [->|Hz]; [|rewrite Out by auto; discriminate].
      destruct l; [destruct Hne; congruence|]. unfold size in H; cbn in H. lia.
    - destruct (Z.le_gt_cases (size l) pos) as [H'|H'].
      + destruct (Z.eq_dec pos 0) as [->|Hz]; [|rewrite Out by auto; discriminate].
        destruct l; [destruct Hne; congruence|]. unfold size in H'; cbn in H'. lia.
      + destruct (In (conj H H')) as (x & _ & ->). discriminate.
  Qed.

  (** the ends of the container *)
  Theorem C39_ends x (l : list A) y : view_front (x :: l) = Ok (Some x) /\ view_back (l ++ [y]) = Ok (Some y)
    /\ view_front (@nil A) = UB /\ view_back (@nil A) = UB.
  Proof.
    split; [reflexivity|]. split; [|split; reflexivity]. unfold view_back, read_at, size. rewrite app_length. cbn [length].
    destruct (Z.ltb_spec (Z.of_nat (length l + 1) - 1) 0); [lia|]. replace (Z.to_nat (Z.of_nat (length l + 1) - 1)) with (length l) by lia.
    rewrite nth_error_app2, Nat.sub_diag by lia. reflexivity.
  Qed.
  (** a subview is created exactly for a range inside the container, and then its elements are those of the range *)
  Theorem C39_subview l start stop : (0 <= start)%Z -> (0 <= stop)%Z ->
    (subview_make l start stop = Throw None <-> ~ (start <= stop <= size l)%Z)
    /\ ((start <= stop <= size l)%Z -> exists v, subview_make l start stop = Ok (Some v)
         /\ (forall pos, (0 <= pos < stop - start)%Z -> exists x, nth_error l (Z.to_nat (start + pos)) = Some x /\ sub_at v pos = Ok (Some x))
         /\ sub_front v = (if (start =? stop)%Z then Throw None else read_at l start) /\ sub_front v <> UB
         /\ sub_back v = (if (start =? stop)%Z then Throw None else read_at l (stop - 1)) /\ sub_back v <> UB).
  Proof.
    intros H1 H2. unfold subview_make.
    destruct (Z.ltb_spec (size l) start), (Z.ltb_spec (size l) stop), (Z.ltb_spec stop start); cbn [orb];
      (split; [split; [lia || (intros; discriminate)|reflexivity || lia]|intros Hr; try lia]).
    exists (mkSub l start stop). split; [reflexivity|]. split.
      + intros pos Hp. unfold sub_at. cbn [sv_ref sv_start]. destruct (Z.ltb_spec 0 pos); [apply read_in; lia|].
        replace pos with 0%Z by lia. rewrite Z.add_0_r. apply read_in. lia.
      + assert (Em : sub_empty (mkSub l start stop) = (start =? stop)%Z).
        { unfold sub_empty. cbn [sv_ref sv_start sv_stop]. rewrite (Z.eqb_sym stop start). destruct l; [|reflexivity].
          unfold size in *; cbn in *. replace start with 0%Z by lia. replace stop with 0%Z by lia. reflexivity. }
        unfold sub_front, sub_back. rewrite Em. cbn [sv_ref sv_start sv_stop].
        destruct (Z.eqb_spec start stop) as [E|E]; cbn [orb].
        * repeat split; discriminate.
        * destruct (Z.eqb_spec stop 0); [lia|]. split; [reflexivity|].
          destruct (read_in l start) as (x & _ & Ex); [lia|]. destruct (read_in l (stop - 1)) as (y & _ & Ey); [lia|].
          rewrite Ex, Ey. repeat split; discriminate.
  Qed.
End C39.
Example C39_demo : view_at [10; 11; 12] (-1) = Ok (Some 12) /\ view_at [10; 11; 12] 2 = Ok (Some 12) /\ view_at [10; 11; 12] 3 = Throw None
  /\ (exists v, subview_make [10; 11; 12] 1 3 = Ok (Some v) /\ sub_at v 1 = Ok (Some 12)).
Proof. repeat (split; [reflexivity|]). eexists. split; reflexivity. Qed.
(** **** What is not true.  The first element of an empty container is read without a check, *)
Theorem C39_empty_refuted : view_at (@nil nat) 0 = UB.
Proof. reflexivity. Qed.
(** the first element cannot be reached from the end, *)
Theorem C39_last_negative_refuted : exists (l : list nat) pos, (size l + pos)%Z = 0%Z /\ view_at l pos = Throw None /\ l <> [].
Proof. exists [1; 2], (-2)%Z. split; [reflexivity|]. split; [reflexivity|discriminate]. Qed.
(** and a subview neither checks the upper end nor knows negative positions. *)
Theorem C39_subview_unchecked_refuted : exists (l : list nat) v, subview_make l 1 2 = Ok (Some v)
  /\ sub_at v 1 = Ok (Some 12) /\ sub_at v 2 = UB /\ sub_at v (-1) = Ok (Some 11).
Proof. exists [10; 11; 12]. eexists. repeat split. Qed.

(** *** C40 *)
Lemma latched_step t c : tm_reached t = true ->
  tm_reached (fst (tstep t c)) = true /\ tm_current (fst (tstep t c)) = tm_current t /\ snd (tstep t c) <> Some false.
Proof.
  intros H. destruct c; cbn; unfold update_and_has_reached, reached, update; rewrite ?H; cbn; rewrite ?H; repeat split; auto; discriminate.
Qed.
(** **** C40: once reported the limit stays reported, and the recorded time stands still, whatever is called *)
Theorem C40_latch t cs : tm_reached t = true ->
  tm_reached (trun t cs) = true /\ tm_current (trun t cs) = tm_current t
  /\ forall pre c post, cs = pre ++ c :: post -> snd (tstep (trun t pre) c) <> Some false.
Proof.
  assert (G : forall cs t, tm_reached t = true -> tm_reached (trun t cs) = true /\ tm_current (trun t cs) = tm_current t).
  { induction cs0 as [|c cs0 IH]; intros t0 H; [auto|]. destruct (latched_step t0 c H) as (A & B & _).
    destruct (IH _ A) as [C D]. cbn. fold (trun (fst (tstep t0 c)) cs0). rewrite C, D. auto. }
  intros H. destruct (G cs t H) as [A B]. split; [exact A|]. split; [exact B|].
  intros pre c post _. apply latched_step. apply G. exact H.
Qed.
(** a call that answers "reached" latches *)
Theorem C40_answer_latches t c : snd (tstep t c) = Some true -> tm_reached (fst (tstep t c)) = true.
Proof. destruct c; cbn; intros H; try discriminate; injection H; auto. Qed.
(** before that, the answer is exactly whether a positive limit is set and the recorded time is at least the limit after
    the start; asking with update records the clock first *)
Theorem C40_exact t : tm_reached t = false ->
  (snd (tstep t CReached) = Some true <-> 0 < tm_max t /\ tm_max t <= tm_current t - tm_start t)%Z
  /\ (forall now, snd (tstep t (CBoth now)) = Some true <-> 0 < tm_max t /\ tm_max t <= now - tm_start t)%Z
  /\ (forall now, tm_current (fst (tstep t (CBoth now))) = now /\ tm_current (fst (tstep t (CUpdate now))) = now).
Proof.
  intros H. cbn. unfold update_and_has_reached, reached, update, has_max. rewrite ?H. cbn. rewrite ?H. cbn.
  split; [|split; [|auto]].
  - split.
    + intros [= E]. apply andb_true_iff in E as [E1 E2]. apply Z.ltb_lt in E1. apply Z.leb_le in E2. auto.
    + intros [E1 E2]. apply Z.ltb_lt in E1. apply Z.leb_le in E2. unfold has_max in *. rewrite E1, E2. reflexivity.
  - intros now. split.
    + intros [= E]. apply andb_true_iff in E as [E1 E2]. apply Z.ltb_lt in E1. apply Z.leb_le in E2. auto.
    + intros [E1 E2]. apply Z.ltb_lt in E1. apply Z.leb_le in E2. unfold has_max in *. rewrite E1, E2. reflexivity.
Qed.
(** a limit of zero (or less) never triggers *)
Theorem C40_no_limit start max cs :
  (max <= 0)%Z -> (forall m, In (CSetMax m) cs -> (m <= 0)%Z) ->
  tm_reached (trun (timer_make start max) cs) = false
  /\ forall pre c post, cs = pre ++ c :: post -> snd (tstep (trun (timer_make start max) pre) c) <> Some true.
Proof.
  intros Hm Hs.
  assert (S1 : forall t c, (tm_max t <= 0)%Z -> tm_reached t = false -> (forall m, c = CSetMax m -> (m <= 0)%Z) ->
             (tm_max (fst (tstep t c)) <= 0)%Z /\ tm_reached (fst (tstep t c)) = false /\ snd (tstep t c) <> Some true).
  { intros t c M R C. assert (F : has_max t = false) by (unfold has_max; apply Z.ltb_ge; lia).
    destruct c as [now| |now|m]; cbn; unfold update_and_has_reached, reached, update; rewrite ?R; cbn; rewrite ?R; cbn;
      unfold has_max in *; cbn; rewrite ?F; cbn; repeat split; auto; discriminate. }
  assert (G : forall cs t, (tm_max t <= 0)%Z -> tm_reached t = false -> (forall m, In (CSetMax m) cs -> (m <= 0)%Z) ->
              (tm_max (trun t cs) <= 0)%Z /\ tm_reached (trun t cs) = false).
  { induction cs0 as [|c cs0 IH]; intros t M R C; [auto|]. destruct (S1 t c M R) as (A & B & _).
    { intros m ->. apply C. left; reflexivity. }
    apply (IH _ A B). intros m Im. apply C. right; exact Im. }
  destruct (G cs (timer_make start max) Hm eq_refl Hs) as [_ A]. split; [exact A|].
  intros pre c post E. subst cs. destruct (G pre (timer_make start max) Hm eq_refl) as [B C].
  { intros m Im. apply Hs. apply in_app_iff. auto. }
  apply S1; auto. intros m ->. apply Hs. apply in_app_iff. right; left; reflexivity.
Qed.
Example C40_demo : map (fun cs => tm_reached (trun (timer_make 100 10) cs)) [[CBoth 105]; [CBoth 109; CBoth 110]; [CBoth 111; CUpdate 300; CReached]] = [false; true; true]
  /\ tm_current (trun (timer_make 100 10) [CBoth 111; CUpdate 300; CReached]) = 111%Z.
Proof. vm_compute. auto. Qed.

Print Assumptions C35_angle_diff.
Print Assumptions C35_shortest.
Print Assumptions C36_next_pow2.
Print Assumptions C36_overflow.
Print Assumptions C37_round_trip.
Print Assumptions C37_plain.
Print Assumptions C37_parse_cases.
Print Assumptions C37_second_parser_cases.
Print Assumptions C37_is_number.
Print Assumptions C39_at.
Print Assumptions C39_ends.
Print Assumptions C39_subview.
Print Assumptions C40_latch.
Print Assumptions C40_answer_latches.
Print Assumptions C40_exact.
Print Assumptions C40_no_limit.
