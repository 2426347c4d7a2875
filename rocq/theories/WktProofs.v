(** Proofs about the twelve digits of a number and the text of lines. *)
From Coq Require Import ZArith QArith Qround Qabs Qpower Ascii String Lqa Lia.
From Verif Require Import Base ListAux Wkt.
Local Open Scope Z_scope.

Lemma ndig_ok : forall fuel n, 1 <= n -> Z.log2 n <= Z.of_nat fuel ->
  0 <= ndig fuel n /\ 10 ^ ndig fuel n <= n < 10 ^ (ndig fuel n + 1).
Proof.
  induction fuel as [|f IH]; intros n Hn Hf; cbn [ndig].
  - assert (Z.log2 n = 0) by (pose proof (Z.log2_nonneg n); lia).
    assert (n < 2) by (apply Z.log2_null in H; lia). change (10 ^ 0) with 1. change (10 ^ (0 + 1)) with 10. lia.
  - destruct (Z.ltb_spec n 10).
    + change (10 ^ 0) with 1. change (10 ^ (0 + 1)) with 10. lia.
    + assert (D : 1 <= n / 10) by (apply Z.div_le_lower_bound; lia).
      assert (L : Z.log2 (n / 10) <= Z.of_nat f).
      { assert (Z.log2 (n / 10) <= Z.log2 (n / 2)) by (apply Z.log2_le_mono; apply Z.div_le_compat_l; lia).
        rewrite <- Z.div2_div in H0. change (Z.div2 n) with (Z.shiftr n 1) in H0.
        rewrite Z.log2_shiftr in H0 by lia. lia. }
      destruct (IH _ D L) as (P & A & B).
      split; [lia|].
      replace (1 + ndig f (n / 10) + 1) with (Z.succ (ndig f (n / 10) + 1)) by lia.
      replace (1 + ndig f (n / 10)) with (Z.succ (ndig f (n / 10))) by lia.
      rewrite !Z.pow_succ_r by lia.
      pose proof (Z.div_mod n 10 ltac:(lia)). pose proof (Z.mod_pos_bound n 10 ltac:(lia)). nia.
Qed.

Lemma log10_ok n : 1 <= n -> 0 <= log10 n /\ 10 ^ log10 n <= n < 10 ^ (log10 n + 1).
Proof. intro H. apply ndig_ok; [exact H|]. rewrite Z2Nat.id; [lia|apply Z.log2_nonneg]. Qed.

Local Open Scope Q_scope.
Lemma ten_pos k : 0 < ten k.
Proof. apply Qpower_0_lt. reflexivity. Qed.
Lemma ten_plus a b : ten (a + b) == ten a * ten b.
Proof. apply Qpower_plus. discriminate. Qed.
Lemma ten_Z k : (0 <= k)%Z -> ten k == inject_Z (10 ^ k).
Proof.
  intro H. unfold ten. change (10 # 1) with (inject_Z 10). rewrite Zpower_Qpower by exact H. reflexivity.
Qed.
Lemma ten_0 : ten 0 == 1. Proof. reflexivity. Qed.
Lemma ten_inv k : ten k * ten (- k) == 1.
Proof. rewrite <- ten_plus. rewrite Z.add_opp_diag_r. reflexivity. Qed.
Lemma ten_le a b : (a <= b)%Z -> ten a <= ten b.
Proof.
  intro H. replace b with (a + (b - a))%Z by lia. rewrite ten_plus.
  assert (1 <= ten (b - a)).
  { rewrite ten_Z by lia. change 1 with (inject_Z 1). rewrite <- Zle_Qle.
    assert (0 < 10 ^ (b - a))%Z by (apply Z.pow_pos_nonneg; lia). lia. }
  pose proof (ten_pos a). nra.
Qed.

(** the exponent is right *)
Lemma expo_ok x : 0 < x -> ten (expo x) <= x /\ x < ten (expo x + 1).
Proof.
  destruct x as [n d]. intro Hx. unfold Qlt in Hx. cbn in Hx.
  unfold expo. change (QDen (n # d)) with (Zpos d). cbn [Qnum]. set (N := Z.log2_up (Zpos d)).
  assert (HN : (0 <= N)%Z) by apply Z.log2_up_nonneg.
  assert (Hd : (Zpos d <= 10 ^ N)%Z).
  { destruct (Z.eq_dec (Zpos d) 1) as [->|ne]; [assert (0 < 10 ^ N)%Z by (apply Z.pow_pos_nonneg; lia); lia|].
    apply Z.le_trans with (2 ^ N)%Z; [apply Z.log2_up_spec; lia|]. apply Z.pow_le_mono_l; lia. }
  assert (Hy : (1 <= n * 10 ^ N / Zpos d)%Z) by (apply Z.div_le_lower_bound; nia).
  destruct (log10_ok _ Hy) as (P & A & B). set (g := log10 (n * 10 ^ N / Zpos d)) in *.
  assert (E : n # d == inject_Z (n * 10 ^ N) / inject_Z (Zpos d) * ten (- N)).
  { rewrite inject_Z_mult, <- (ten_Z N HN). rewrite Qmake_Qdiv. field_simplify_eq; [|discriminate].
    transitivity (inject_Z n * (ten N * ten (- N))); [rewrite ten_inv; ring|ring]. }
  set (y := inject_Z (n * 10 ^ N) / inject_Z (Zpos d)) in *.
  assert (Y1 : ten g <= y).
  { rewrite ten_Z by exact P. unfold y. apply Qle_shift_div_l; [reflexivity|].
    rewrite <- inject_Z_mult, <- Zle_Qle.
    pose proof (Z.div_mod (n * 10 ^ N) (Zpos d) ltac:(lia)). pose proof (Z.mod_pos_bound (n * 10 ^ N) (Zpos d) ltac:(lia)). nia. }
  assert (Y2 : y < ten (g + 1)).
  { rewrite ten_Z by lia. unfold y. apply Qlt_shift_div_r; [reflexivity|].
    rewrite <- inject_Z_mult, <- Zlt_Qlt.
    pose proof (Z.div_mod (n * 10 ^ N) (Zpos d) ltac:(lia)). pose proof (Z.mod_pos_bound (n * 10 ^ N) (Zpos d) ltac:(lia)). nia. }
  rewrite E. replace (g - N)%Z with (g + - N)%Z by lia. replace (g + - N + 1)%Z with ((g + 1) + - N)%Z by lia.
  rewrite (ten_plus g), (ten_plus (g + 1)). pose proof (ten_pos (- N)).
  split; [apply Qmult_le_compat_r; lra|apply Qmult_lt_compat_r; lra].
Qed.

Lemma rhe_near q (z : Z) : Qabs (inject_Z (rhe q) - q) <= Qabs (inject_Z z - q).
Proof.
  unfold rhe. set (f := Qfloor q).
  assert (F1 : inject_Z f <= q) by apply Qfloor_le.
  assert (F2 : q < inject_Z (f + 1)) by apply Qlt_floor.
  assert (Hz : inject_Z z <= inject_Z f \/ inject_Z (f + 1) <= inject_Z z)
    by (destruct (Z_le_gt_dec z f); [left|right]; rewrite <- Zle_Qle; lia).
  rewrite inject_Z_plus in *. change (inject_Z 1) with 1 in *.
  destruct (Qcompare_spec (q - inject_Z f) (1 # 2)); [destruct (Z.even f)| |]; rewrite ?inject_Z_plus; change (inject_Z 1) with 1;
    apply Qabs_case; intro; apply Qabs_case; intro; destruct Hz; lra.
Qed.
Lemma rhe_half q : Qabs (inject_Z (rhe q) - q) <= 1 # 2.
Proof.
  pose proof (rhe_near q (Qfloor q)) as A. pose proof (rhe_near q (Qfloor q + 1)) as B.
  assert (F1 : inject_Z (Qfloor q) <= q) by apply Qfloor_le.
  assert (F2 : q < inject_Z (Qfloor q + 1)) by apply Qlt_floor.
  rewrite inject_Z_plus in *. change (inject_Z 1) with 1 in *.
  rewrite (Qabs_neg (inject_Z (Qfloor q) - q)) in A by lra.
  rewrite (Qabs_pos (inject_Z (Qfloor q) + 1 - q)) in B by lra. lra.
Qed.

Definition twelve (d : Q) : Prop := exists m k, (Z.abs m < 10 ^ 12)%Z /\ d == inject_Z m * ten k.

(** the scaled number: x is q units, q between 10^11 and 10^12 *)
Lemma scaled x : 0 < x -> exists q u, 0 < u /\ x == q * u /\ inject_Z (10 ^ 11) <= q /\ q < inject_Z (10 ^ 12) /\
  u == ten (expo x - 11) /\ q == x * ten (11 - expo x).
Proof.
  intro H. exists (x * ten (11 - expo x)), (ten (expo x - 11)).
  destruct (expo_ok x H) as (A & B). pose proof (ten_pos (expo x - 11)) as U. pose proof (ten_pos (11 - expo x)) as V.
  assert (I : ten (expo x - 11) * ten (11 - expo x) == 1).
  { replace (11 - expo x)%Z with (- (expo x - 11))%Z by lia. apply ten_inv. }
  rewrite <- (ten_Z 11), <- (ten_Z 12) by lia.
  assert (E1 : ten 11 == ten (expo x) * ten (11 - expo x)) by (rewrite <- ten_plus; replace (expo x + (11 - expo x))%Z with 11%Z by lia; reflexivity).
  assert (E2 : ten 12 == ten (expo x + 1) * ten (11 - expo x)) by (rewrite <- ten_plus; replace (expo x + 1 + (11 - expo x))%Z with 12%Z by lia; reflexivity).
  split; [exact U|]. split; [rewrite <- Qmult_assoc, (Qmult_comm (ten (11 - expo x))), I; ring|].
  rewrite E1, E2. split; [nra|]. split; [nra|]. split; reflexivity.
Qed.

Lemma rhe_comp a b : a == b -> inject_Z (rhe a) == inject_Z (rhe b).
Proof. intro H. unfold rhe. rewrite (Qfloor_comp _ _ H). destruct (Qcompare_spec (a - inject_Z (Qfloor b)) (1#2)), (Qcompare_spec (b - inject_Z (Qfloor b)) (1#2)); try reflexivity; exfalso; lra. Qed.

Lemma digits_pos_value x : 0 < x ->
  value (digits_pos x) == inject_Z (rhe (x * ten (11 - expo x))) * ten (expo x - 11).
Proof.
  intro H. unfold digits_pos. destruct (Z.eqb_spec (rhe (x * ten (11 - expo x))) (10 ^ 12)) as [->|ne]; unfold value; cbn [fst snd]; [|reflexivity].
  replace (expo x - 10)%Z with (1 + (expo x - 11))%Z by lia. rewrite ten_plus.
  change (inject_Z (10 ^ 12)) with (inject_Z (10 ^ 11) * ten 1). ring.
Qed.

Lemma digits_pos_range x : 0 < x -> (10 ^ 11 <= fst (digits_pos x) < 10 ^ 12)%Z.
Proof.
  intro H. destruct (scaled x H) as (q & u & U & X & Q1 & Q2 & Eu & Eq).
  assert (R : (10 ^ 11 <= rhe (x * ten (11 - expo x)) <= 10 ^ 12)%Z).
  { rewrite !Zle_Qle, <- (rhe_comp _ _ Eq). pose proof (rhe_near q (10 ^ 11)) as A. pose proof (rhe_near q (10 ^ 12)) as B.
    rewrite (Qabs_neg (inject_Z (10 ^ 11) - q)) in A by lra. rewrite (Qabs_pos (inject_Z (10 ^ 12) - q)) in B by lra.
    revert A B. apply Qabs_case; intros; lra. }
  unfold digits_pos. destruct (Z.eqb_spec (rhe (x * ten (11 - expo x))) (10 ^ 12)); cbn [fst]; lia.
Qed.

Lemma r12_pos_near x d : 0 < x -> twelve d -> Qabs (value (digits_pos x) - x) <= Qabs (d - x).
Proof.
  intros H (m & k & Hm & Hd). rewrite (digits_pos_value x H).
  destruct (scaled x H) as (q & u & U & X & Q1 & Q2 & Eu & Eq).
  rewrite <- Eu, <- (rhe_comp _ _ Eq).
  assert (S : exists dq, d == dq * u /\ Qabs (inject_Z (rhe q) - q) <= Qabs (dq - q)).
  { destruct (Z_le_gt_dec (expo x - 11) k) as [le|gt].
    - exists (inject_Z (m * 10 ^ (k - (expo x - 11)))). split; [|apply rhe_near].
      rewrite Hd, Eu, inject_Z_mult, <- ten_Z by lia. rewrite <- Qmult_assoc, <- ten_plus.
      replace (k - (expo x - 11) + (expo x - 11))%Z with k by lia. reflexivity.
    - exists (inject_Z m * ten (k - (expo x - 11))). split.
      { rewrite Hd, Eu. rewrite <- Qmult_assoc, <- ten_plus. replace (k - (expo x - 11) + (expo x - 11))%Z with k by lia. reflexivity. }
      apply Qle_trans with (1 := rhe_near q (10 ^ 11)).
      assert (T : ten (k - (expo x - 11)) <= ten (- 1)) by (apply ten_le; lia).
      pose proof (ten_pos (k - (expo x - 11))) as T0. set (t := ten (k - (expo x - 11))) in *.
      change (ten (-1)) with (1 # 10) in T.
      assert (M : inject_Z m <= inject_Z (10 ^ 12)) by (rewrite <- Zle_Qle; lia).
      assert (L : inject_Z m * t <= inject_Z (10 ^ 11)).
      { setoid_replace (inject_Z (10 ^ 11)) with (inject_Z (10 ^ 12) * (1 # 10)) by reflexivity.
        assert (0 < inject_Z (10 ^ 12)) by reflexivity. nra. }
      rewrite (Qabs_neg (inject_Z (10 ^ 11) - q)), (Qabs_neg (inject_Z m * t - q)) by lra. lra. }
  destruct S as (dq & Ed & Hq). rewrite Ed, X.
  setoid_replace (inject_Z (rhe q) * u - q * u) with ((inject_Z (rhe q) - q) * u) by ring.
  setoid_replace (dq * u - q * u) with ((dq - q) * u) by ring.
  rewrite !Qabs_Qmult, (Qabs_pos u) by lra. nra.
Qed.

Lemma r12_pos_error x : 0 < x -> Qabs (value (digits_pos x) - x) <= (5 # 1000000000000) * x.
Proof.
  intros H. rewrite (digits_pos_value x H).
  destruct (scaled x H) as (q & u & U & X & Q1 & Q2 & Eu & Eq).
  rewrite <- Eu, <- (rhe_comp _ _ Eq), X.
  setoid_replace (inject_Z (rhe q) * u - q * u) with ((inject_Z (rhe q) - q) * u) by ring.
  rewrite Qabs_Qmult, (Qabs_pos u) by lra. pose proof (rhe_half q).
  change (inject_Z (10 ^ 11)) with (100000000000 # 1) in Q1.
  assert ((1 # 2) <= (5 # 1000000000000) * q) by lra. nra.
Qed.

Lemma sgn_cases x : (Qnum x = 0%Z /\ x == 0) \/ (Z.sgn (Qnum x) = 1%Z /\ 0 < x) \/ (Z.sgn (Qnum x) = (-1)%Z /\ x < 0).
Proof.
  destruct x as [n d]. cbn. destruct n; [left|right; left|right; right]; split; try reflexivity.
Qed.

Lemma r12_cases x : (x == 0 /\ digits x = (0, 0)%Z) \/
  (0 < x /\ digits x = digits_pos (Qabs x)) \/
  (x < 0 /\ digits x = ((- fst (digits_pos (Qabs x)))%Z, snd (digits_pos (Qabs x)))).
Proof.
  unfold digits. destruct (sgn_cases x) as [(A & B)|[(A & B)|(A & B)]].
  - left. split; [exact B|]. rewrite A. reflexivity.
  - right; left. split; [exact B|]. destruct (Z.eqb_spec (Qnum x) 0) as [e|_]; [rewrite e in A; discriminate|].
    rewrite A. destruct (digits_pos (Qabs x)) as [m k]. rewrite Z.mul_1_l. reflexivity.
  - right; right. split; [exact B|]. destruct (Z.eqb_spec (Qnum x) 0) as [e|_]; [rewrite e in A; discriminate|].
    rewrite A. destruct (digits_pos (Qabs x)) as [m k]. cbn [fst snd]. replace (-1 * m)%Z with (- m)%Z by lia. reflexivity.
Qed.

Lemma value_opp m k : value ((- m)%Z, k) == - value (m, k).
Proof. unfold value. cbn [fst snd]. rewrite inject_Z_opp. ring. Qed.

Lemma twelve_r12 x : twelve (r12 x).
Proof.
  unfold r12. destruct (r12_cases x) as [(A & ->)|[(A & ->)|(A & ->)]].
  - exists 0%Z, 0%Z. split; [reflexivity|]. reflexivity.
  - destruct (digits_pos_range (Qabs x)) as (L & U); [rewrite Qabs_pos; lra|].
    exists (fst (digits_pos (Qabs x))), (snd (digits_pos (Qabs x))). split; [lia|reflexivity].
  - destruct (digits_pos_range (Qabs x)) as (L & U); [rewrite Qabs_neg; lra|].
    exists (- fst (digits_pos (Qabs x)))%Z, (snd (digits_pos (Qabs x))). split; [lia|reflexivity].
Qed.

Lemma r12_near x d : twelve d -> Qabs (r12 x - x) <= Qabs (d - x).
Proof.
  intro H. unfold r12. destruct (r12_cases x) as [(A & ->)|[(A & ->)|(A & ->)]].
  - change (value (0, 0)%Z) with (0 * 1). setoid_replace (0 * 1 - x) with 0 by (rewrite A; ring). apply Qabs_nonneg.
  - assert (P : 0 < Qabs x) by (rewrite Qabs_pos; lra). pose proof (r12_pos_near _ d P H) as L.
    assert (E : Qabs x == x) by (apply Qabs_pos; lra).
    setoid_replace (value (digits_pos (Qabs x)) - x) with (value (digits_pos (Qabs x)) - Qabs x) by (rewrite E at 3; reflexivity).
    setoid_replace (d - x) with (d - Qabs x) by (rewrite E; reflexivity). exact L.
  - assert (P : 0 < Qabs x) by (rewrite Qabs_neg; lra).
    assert (H' : twelve (- d)).
    { destruct H as (m & k & Hm & Hd). exists (- m)%Z, k. split; [lia|]. rewrite Hd, inject_Z_opp. ring. }
    pose proof (r12_pos_near _ (- d) P H') as L.
    assert (E : Qabs x == - x) by (apply Qabs_neg; lra).
    destruct (digits_pos (Qabs x)) as [m k]. cbn [fst snd]. rewrite value_opp.
    rewrite <- (Qabs_opp (- value (m, k) - x)), <- (Qabs_opp (d - x)).
    setoid_replace (- (- value (m, k) - x)) with (value (m, k) - Qabs x) by (rewrite E; ring).
    setoid_replace (- (d - x)) with (- d - Qabs x) by (rewrite E; ring). exact L.
Qed.

Lemma r12_error x : Qabs (r12 x - x) <= (5 # 1000000000000) * Qabs x.
Proof.
  unfold r12. destruct (r12_cases x) as [(A & ->)|[(A & ->)|(A & ->)]].
  - change (value (0, 0)%Z) with (0 * 1). setoid_replace (0 * 1 - x) with 0 by (rewrite A; ring).
    pose proof (Qabs_nonneg x). change (Qabs 0) with 0. lra.
  - assert (P : 0 < Qabs x) by (rewrite Qabs_pos; lra). pose proof (r12_pos_error _ P) as L.
    assert (E : Qabs x == x) by (apply Qabs_pos; lra).
    setoid_replace (value (digits_pos (Qabs x)) - x) with (value (digits_pos (Qabs x)) - Qabs x) by (rewrite E at 3; reflexivity).
    exact L.
  - assert (P : 0 < Qabs x) by (rewrite Qabs_neg; lra). pose proof (r12_pos_error _ P) as L.
    assert (E : Qabs x == - x) by (apply Qabs_neg; lra).
    destruct (digits_pos (Qabs x)) as [m k]. cbn [fst snd]. rewrite value_opp.
    rewrite <- (Qabs_opp (- value (m, k) - x)).
    setoid_replace (- (- value (m, k) - x)) with (value (m, k) - Qabs x) by (rewrite E; ring). exact L.
Qed.

Lemma tri a b c : Qabs (a - c) <= Qabs (a - b) + Qabs (b - c).
Proof. setoid_replace (a - c) with ((a - b) + (b - c)) by ring. apply Qabs_triangle. Qed.

Lemma r12_comp x y : x == y -> r12 x == r12 y.
Proof.
  intro E.
  assert (EX : expo (Qabs x) = expo (Qabs y) \/ x == 0).
  { destruct (Qeq_dec x 0) as [z|nz]; [right; exact z|left].
    assert (PX : 0 < Qabs x) by (apply Qabs_case; intros; [destruct (Qlt_le_dec 0 x) as [?|?]; [lra|exfalso; apply nz; lra]|destruct (Qlt_le_dec 0 (- x)) as [?|?]; [lra|exfalso; apply nz; lra]]).
    assert (EA : Qabs x == Qabs y) by (rewrite E; reflexivity).
    destruct (expo_ok (Qabs x) PX) as (A1 & A2). destruct (expo_ok (Qabs y)) as (B1 & B2); [lra|].
    destruct (Z.lt_trichotomy (expo (Qabs x)) (expo (Qabs y))) as [lt|[eq|gt]]; [|exact eq|]; exfalso.
    - assert (ten (expo (Qabs x) + 1) <= ten (expo (Qabs y))) by (apply ten_le; lia). lra.
    - assert (ten (expo (Qabs y) + 1) <= ten (expo (Qabs x))) by (apply ten_le; lia). lra. }
  unfold r12. destruct (r12_cases x) as [(A & ->)|[(A & ->)|(A & ->)]], (r12_cases y) as [(B & ->)|[(B & ->)|(B & ->)]]; try (exfalso; lra); try reflexivity.
  - assert (PX : 0 < Qabs x) by (rewrite Qabs_pos; lra). assert (PY : 0 < Qabs y) by (rewrite Qabs_pos; lra).
    rewrite (digits_pos_value _ PX), (digits_pos_value _ PY).
    destruct EX as [->|bad]; [|exfalso; lra].
    rewrite (rhe_comp (Qabs x * ten (11 - expo (Qabs y))) (Qabs y * ten (11 - expo (Qabs y)))); [reflexivity|]. rewrite E. reflexivity.
  - assert (PX : 0 < Qabs x) by (rewrite Qabs_neg; lra). assert (PY : 0 < Qabs y) by (rewrite Qabs_neg; lra).
    rewrite !value_opp.
    rewrite <- !surjective_pairing.
    rewrite (digits_pos_value _ PX), (digits_pos_value _ PY).
    destruct EX as [->|bad]; [|exfalso; lra].
    rewrite (rhe_comp (Qabs x * ten (11 - expo (Qabs y))) (Qabs y * ten (11 - expo (Qabs y)))); [reflexivity|]. rewrite E. reflexivity.
Qed.

(** a nearest number is monotone *)
Lemma r12_mono x y : x <= y -> r12 x <= r12 y.
Proof.
  intro H. apply Qnot_lt_le. intro L.
  pose proof (r12_near x (r12 y) (twelve_r12 y)) as A. pose proof (r12_near y (r12 x) (twelve_r12 x)) as B.
  assert (E : x == y).
  { revert A B. apply Qabs_case; intro; apply Qabs_case; intro; apply Qabs_case; intro; apply Qabs_case; intro; intros; lra. }
  pose proof (r12_comp x y E). lra.
Qed.

(** numbers of twelve digits are apart *)
Lemma inject_1 z : z <> 0%Z -> 1 <= Qabs (inject_Z z).
Proof. intro H. change (Qabs (inject_Z z)) with (inject_Z (Z.abs z)). change 1 with (inject_Z 1). rewrite <- Zle_Qle. lia. Qed.

Lemma gap_le m k m' k' : (Z.abs m < 10 ^ 12)%Z -> (k <= k')%Z -> ~ inject_Z m * ten k == inject_Z m' * ten k' ->
  Qabs (inject_Z m * ten k) <= (1000000000000 # 1) * Qabs (inject_Z m * ten k - inject_Z m' * ten k').
Proof.
  intros Hm Hk Hne.
  assert (E : inject_Z m * ten k - inject_Z m' * ten k' == inject_Z (m - m' * 10 ^ (k' - k)) * ten k).
  { unfold Z.sub at 1. rewrite inject_Z_plus, inject_Z_opp, inject_Z_mult, <- ten_Z by lia.
    replace k' with (k' - k + k)%Z at 1 by lia. rewrite (ten_plus (k' - k) k). ring. }
  assert (NZ : (m - m' * 10 ^ (k' - k))%Z <> 0%Z).
  { intro Z0. rewrite Z0 in E. apply Hne. setoid_replace (inject_Z m * ten k) with (inject_Z m * ten k - inject_Z m' * ten k' + inject_Z m' * ten k') by ring. rewrite E. ring. }
  rewrite E, !Qabs_Qmult. pose proof (inject_1 _ NZ) as I. pose proof (ten_pos k) as T. rewrite (Qabs_pos (ten k)) by lra.
  assert (M : Qabs (inject_Z m) <= (1000000000000 # 1)).
  { change (Qabs (inject_Z m)) with (inject_Z (Z.abs m)). change (1000000000000 # 1) with (inject_Z (10 ^ 12)). rewrite <- Zle_Qle. lia. }
  set (a := Qabs (inject_Z m)) in *. set (b := Qabs (inject_Z (m - m' * 10 ^ (k' - k)))) in *.
  rewrite Qmult_assoc. apply Qmult_le_compat_r; [lra|lra].
Qed.

Lemma gap d d' : twelve d -> twelve d' -> ~ d == d' ->
  Qabs d <= (1000000000000 # 1) * Qabs (d - d') \/ Qabs d' <= (1000000000000 # 1) * Qabs (d - d').
Proof.
  intros (m & k & Hm & E) (m' & k' & Hm' & E') Hne. rewrite E, E' in *.
  destruct (Z_le_gt_dec k k') as [le|gt].
  - left. apply gap_le; assumption.
  - right. rewrite Qabs_Qminus. apply gap_le; [assumption|lia|]. intro C. apply Hne. symmetry. exact C.
Qed.

Lemma r12_stable d z : twelve d -> Qabs (z - d) <= (1 # 10000000000000) * Qabs d -> r12 z == d.
Proof.
  intros Hd Hz. destruct (Qeq_dec (r12 z) d) as [e|ne]; [exact e|exfalso].
  pose proof (r12_near z d Hd) as N. rewrite (Qabs_Qminus d z) in N.
  pose proof (tri (r12 z) z d) as T.
  assert (B : Qabs (r12 z - d) <= (1 # 5000000000000) * Qabs d) by lra.
  pose proof (Qabs_nonneg d) as P. pose proof (Qabs_nonneg (r12 z)) as P'.
  assert (Z0 : Qabs d == 0).
  { destruct (gap _ _ Hd (twelve_r12 z) ltac:(intro C; apply ne; symmetry; exact C)) as [G|G]; rewrite (Qabs_Qminus d) in G.
    - lra.
    - pose proof (Qabs_triangle (r12 z) (d - r12 z)) as T2. setoid_replace (r12 z + (d - r12 z)) with d in T2 by ring.
      rewrite (Qabs_Qminus d) in T2. lra. }
  apply ne. assert (Qabs (r12 z - d) <= 0) by lra. pose proof (Qle_Qabs (r12 z - d)).
  pose proof (Qle_Qabs (- (r12 z - d))) as T3. rewrite Qabs_opp in T3. lra.
Qed.

(** the digits are those of the value *)
Definition normal (d : Z * Z) : Prop := d = (0, 0)%Z \/ (10 ^ 11 <= Z.abs (fst d) < 10 ^ 12)%Z.
Lemma digits_normal x : normal (digits x).
Proof.
  destruct (r12_cases x) as [(A & ->)|[(A & ->)|(A & ->)]]; [left; reflexivity|right|right]; cbn [fst].
  - destruct (digits_pos_range (Qabs x)) as (L & U); [rewrite Qabs_pos; lra|lia].
  - destruct (digits_pos_range (Qabs x)) as (L & U); [rewrite Qabs_neg; lra|lia].
Qed.
Lemma normal_lt m k m' k' : (10 ^ 11 <= Z.abs m < 10 ^ 12)%Z -> (10 ^ 11 <= Z.abs m')%Z -> (k < k')%Z ->
  ~ inject_Z m * ten k == inject_Z m' * ten k'.
Proof.
  intros Hm Hm' Hk E. replace k' with (k' - k + k)%Z in E by lia. rewrite ten_plus, Qmult_assoc in E.
  apply Qmult_inj_r in E; [|pose proof (ten_pos k); lra].
  rewrite ten_Z, <- inject_Z_mult in E by lia. apply (inject_Z_injective m (m' * 10 ^ (k' - k))) in E.
  replace (k' - k)%Z with (Z.succ (k' - k - 1)) in E by lia. rewrite Z.pow_succ_r in E by lia.
  assert (1 <= 10 ^ (k' - k - 1))%Z by (assert (0 < 10 ^ (k' - k - 1))%Z by (apply Z.pow_pos_nonneg; lia); lia).
  subst m. rewrite !Z.abs_mul in Hm. rewrite (Z.abs_eq (10 ^ (k' - k - 1))) in Hm by lia. change (Z.abs 10) with 10%Z in Hm. nia.
Qed.
Lemma normal_unique d d' : normal d -> normal d' -> value d == value d' -> d = d'.
Proof.
  destruct d as [m k], d' as [m' k']. unfold normal, value. cbn [fst snd]. intros [N|N] [N'|N'] E.
  - congruence.
  - exfalso. injection N as -> ->. pose proof (ten_pos k') as T. rewrite Qmult_0_l in E.
    symmetry in E. apply Qmult_integral in E. destruct E as [E|E]; [|lra]. apply (inject_Z_injective m' 0) in E. lia.
  - exfalso. injection N' as -> ->. pose proof (ten_pos k) as T. rewrite Qmult_0_l in E.
    apply Qmult_integral in E. destruct E as [E|E]; [|lra]. apply (inject_Z_injective m 0) in E. lia.
  - destruct (Z.lt_trichotomy k k') as [lt|[eq|gt]].
    + exfalso. apply (normal_lt m k m' k'); try assumption; lia.
    + subst k'. apply Qmult_inj_r in E; [|pose proof (ten_pos k); lra]. apply (inject_Z_injective m m') in E. subst m'. reflexivity.
    + exfalso. apply (normal_lt m' k' m k); try assumption; [lia|]. symmetry. exact E.
Qed.
Lemma digits_stable x z : Qabs (z - r12 x) <= (1 # 10000000000000) * Qabs (r12 x) -> digits z = digits x.
Proof.
  intro H. apply normal_unique; [apply digits_normal|apply digits_normal|].
  exact (r12_stable (r12 x) z (twelve_r12 x) H).
Qed.
