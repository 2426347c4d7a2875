(** C62: the scores of the hidden Markov model. *)
From Coq Require Import Lqa.
From Verif Require Import Base ListAux Viterbi ViterbiProofs ViterbiProps HmmScore.
From Verif Require Utils UtilsProps.

Lemma qmax_spec a b : (a <= qmax a b)%Q /\ (b <= qmax a b)%Q /\ (qmax a b = a \/ qmax a b = b).
Proof.
  unfold qmax. destruct (Qle_bool b a) eqn:E; cbn [negb].
  - apply Qle_bool_iff in E. split; [lra|]. split; [lra|auto].
  - assert (~ (b <= a)%Q) by (intros H; apply Qle_bool_iff in H; congruence). split; [lra|]. split; [lra|auto].
Qed.
Lemma tiny_range : (0 < tiny <= 1)%Q. Proof. split; [reflexivity|discriminate]. Qed.
Lemma qmax_tiny x : (x <= 1)%Q -> (0 < qmax tiny x <= 1)%Q.
Proof. intros H. destruct (qmax_spec tiny x) as (A & B & C). pose proof tiny_range. destruct C as [-> | C]; [lra|]. rewrite C in *. lra. Qed.
Lemma lt_bool a b : negb (Qle_bool a b) = true <-> (b < a)%Q.
Proof.
  rewrite negb_true_iff. split; intros H.
  - apply Qnot_le_lt. intros K. apply Qle_bool_iff in K. congruence.
  - destruct (Qle_bool a b) eqn:E; [|reflexivity]. apply Qle_bool_iff in E. lra.
Qed.
Lemma lt_bool_false a b : negb (Qle_bool a b) = false <-> (a <= b)%Q.
Proof. rewrite negb_false_iff. apply Qle_bool_iff. Qed.

(** *** Observations *)
Lemma max_fold l : forall m, (m <= fold_left (fun m d => if negb (Qle_bool d m) then d else m) l m)%Q
  /\ (forall d, In d l -> d <= fold_left (fun m d => if negb (Qle_bool d m) then d else m) l m)%Q.
Proof.
  induction l as [|x l IH]; intros m; cbn [fold_left]; [split; [apply Qle_refl|intros d []]|].
  destruct (negb (Qle_bool x m)) eqn:E; [apply lt_bool in E|apply lt_bool_false in E]; destruct (IH (if negb (Qle_bool x m) then x else m)) as [_ _];
    [destruct (IH x) as [A B]|destruct (IH m) as [A B]]; (split; [lra|]); intros d [<-|Hd]; try apply B, Hd; lra.
Qed.
Lemma max_distance_spec l : Forall (fun d => 0 <= d)%Q l -> exists m, (0 <= m)%Q /\ (forall d, In d l -> (d <= m)%Q) /\ (In m l \/ (m == 0)%Q) /\ (max_distance l == (m + (1 # 100)) * (101 # 100))%Q.
Proof.
  intros H. unfold max_distance. exists (fold_left (fun m d => if negb (Qle_bool d m) then d else m) l 0%Q). destruct (max_fold l 0%Q) as [A B]. split; [exact A|]. split; [exact B|]. split; [|reflexivity].
  clear. assert (K : forall l m, fold_left (fun m d => if negb (Qle_bool d m) then d else m) l m = m \/ In (fold_left (fun m d => if negb (Qle_bool d m) then d else m) l m) l).
  { clear. induction l as [|x l IH]; intros m; cbn [fold_left]; [auto|]. destruct (IH (if negb (Qle_bool x m) then x else m)) as [E|E]; [|right; right; exact E]. rewrite E.
    destruct (negb (Qle_bool x m)); [right; left; reflexivity|auto]. }
  destruct (K l 0%Q) as [-> |E]; [right; reflexivity|left; exact E].
Qed.

(** the share of the greatest distance [m] of the point that is left; the greatest distance itself leaves something *)
Definition share (m d : Q) : Q := (1 - d / ((m + (1 # 100)) * (101 # 100)))%Q.
Lemma share_range m d : (0 <= d <= m)%Q -> (1 # 101 < share m d <= 1)%Q.
Proof.
  intros [D M]. unfold share. set (k := ((m + (1 # 100)) * (101 # 100))%Q). assert (K : (0 < k)%Q) by (unfold k; lra).
  assert (E : (d / k * k == d)%Q) by (field; lra). set (x := (d / k)%Q) in *.
  assert (X0 : (0 <= x)%Q) by (apply Qnot_lt_le; intros H; assert (x * k < 0)%Q by nra; lra).
  split; [|lra]. assert (x < 100 # 101)%Q; [|lra]. apply Qnot_le_lt. intros H. assert ((100 # 101) * k <= x * k)%Q by (apply Qmult_le_compat_r; lra). unfold k in *. lra.
Qed.

(** The probability of an observation is the share, above 1/101, so that it is never cut off; on the first and the last point the
    third power is taken. *)
Theorem C62_observation l near d : Forall (fun d => 0 <= d)%Q l -> In d l ->
  exists m, In m l /\ (forall x, In x l -> (x <= m)%Q)
    /\ (observation_probability l near d == if near then share m d * share m d * share m d else share m d)%Q.
Proof.
  intros H Hd. destruct (max_distance_spec l H) as (m & M0 & MM & Min & Em). rewrite Forall_forall in H.
  assert (G : exists m', In m' l /\ (m' == m)%Q).
  { destruct Min as [Hm|Em0]; [exists m; split; [exact Hm|reflexivity]|]. exists d. split; [exact Hd|]. specialize (MM d Hd). specialize (H d Hd). lra. }
  destruct G as (m' & Hm' & Em'). exists m'. split; [exact Hm'|]. split; [intros x Hx; rewrite Em'; apply MM, Hx|].
  assert (R : (1 # 101 < share m d <= 1)%Q) by (apply share_range; split; [apply H, Hd|apply MM, Hd]).
  assert (Es : (share m' d == share m d)%Q) by (unfold share; rewrite Em'; reflexivity).
  assert (Ep : (qmax tiny ((max_distance l - d) / max_distance l) == share m' d)%Q).
  { assert (E : ((max_distance l - d) / max_distance l == share m d)%Q) by (unfold share; rewrite Em; field; lra).
    destruct (qmax_spec tiny ((max_distance l - d) / max_distance l)%Q) as (A & B & C). rewrite Es. destruct C as [C|C]; [|rewrite C; exact E].
    exfalso. rewrite C in B. assert (tiny < 1 # 101)%Q by reflexivity. lra. }
  unfold observation_probability. destruct near; rewrite Ep; reflexivity.
Qed.
(** Nearer edges are more probable. *)
Theorem C62_nearer l near d d' : Forall (fun d => 0 <= d)%Q l -> In d l -> In d' l -> (d < d')%Q ->
  (0 < observation_probability l near d' < observation_probability l near d)%Q /\ (observation_probability l near d <= 1)%Q.
Proof.
  intros H Hd Hd' Lt. pose proof H as H'. rewrite Forall_forall in H'.
  destruct (C62_observation l near d H Hd) as (m & Hm & M & E). destruct (C62_observation l near d' H Hd') as (m' & Hm' & M' & E').
  assert (Em : (m == m')%Q) by (specialize (M m' Hm'); specialize (M' m Hm); lra).
  rewrite E, E'. assert (S : (share m' d' == share m d')%Q) by (unfold share; rewrite Em; reflexivity).
  assert (R : (1 # 101 < share m d <= 1)%Q) by (apply share_range; split; [apply H', Hd|apply M, Hd]).
  assert (R' : (1 # 101 < share m d' <= 1)%Q) by (apply share_range; split; [apply H', Hd'|apply M, Hd']).
  assert (L : (share m d' < share m d)%Q).
  { unfold share. set (k := ((m + (1 # 100)) * (101 # 100))%Q). assert (K : (0 < k)%Q) by (specialize (H' m Hm); unfold k; lra).
    assert (d / k < d' / k)%Q; [|lra]. apply Qlt_shift_div_l; [exact K|]. setoid_replace (d / k * k)%Q with d by (field; lra). exact Lt. }
  set (a := share m d) in *. set (b := share m d') in *. destruct near; rewrite S; [|lra].
  assert (B2 : (0 < b * b)%Q) by nra. assert (AB : (b * b < a * a)%Q) by nra. assert (b * b * b < a * a * a)%Q by nra. assert (a * a <= 1)%Q by nra. split; [split; nra|nra].
Qed.

(** *** Transitions *)
(** The probability of a length: the ratio of the shorter to the longer, squared, of which one factor is cut off at 1e-20; a hundredth
    of it if the route is more than ten times longer. Without one of the lengths it is 1e-20. *)
Theorem C62_length next route : (0 <= next)%Q -> (0 <= route)%Q -> let p := length_probability next route in
  ((next == 0 \/ route == 0)%Q -> p = tiny)
  /\ (forall short long, (0 < short <= long)%Q -> ((short == next /\ long == route) \/ (short == route /\ long == next))%Q ->
      (p == qmax tiny (short / long) * (short / long) * (if negb (Qle_bool route (10 * next)) then 1 # 100 else 1))%Q)
  /\ (0 < p <= 1)%Q.
Proof.
  intros N R p.
  assert (Z : (next == 0 \/ route == 0)%Q -> p = tiny).
  { intros H. unfold p, length_probability. assert (F : negb (Qle_bool route 0) && negb (Qle_bool next 0) = false).
    { destruct (negb (Qle_bool route 0)) eqn:A; [|reflexivity]. destruct (negb (Qle_bool next 0)) eqn:B; [|reflexivity]. apply lt_bool in A. apply lt_bool in B. lra. }
    rewrite F. destruct (Qeq_bool (qmax next route) 0) eqn:Em; [reflexivity|].
    assert (Nm : ~ (qmax next route == 0)%Q) by (intros K; apply Qeq_bool_iff in K; congruence).
    destruct (qmax_spec next route) as (A & B & C).
    assert (Ed : (Qabs (next - route) == qmax next route)%Q).
    { destruct H as [H|H].
      - assert (route == qmax next route)%Q by (destruct C as [C|C]; rewrite C in *; lra). rewrite <- H0. setoid_replace (next - route)%Q with (- route)%Q by lra. rewrite Qabs_opp, Qabs_pos by exact R. reflexivity.
      - assert (next == qmax next route)%Q by (destruct C as [C|C]; rewrite C in *; lra). rewrite <- H0. setoid_replace (next - route)%Q with next by lra. rewrite Qabs_pos by exact N. reflexivity. }
    assert (E1 : (1 - Qabs (next - route) / qmax next route == 0)%Q) by (rewrite Ed; field; exact Nm).
    unfold qmax at 1. assert (Lb : Qle_bool (1 - Qabs (next - route) / qmax next route) tiny = true); [|rewrite Lb; reflexivity]. apply Qle_bool_iff. rewrite E1. discriminate. }
  assert (S : forall short long, (0 < short <= long)%Q -> ((short == next /\ long == route) \/ (short == route /\ long == next))%Q ->
      (p == qmax tiny (short / long) * (short / long) * (if negb (Qle_bool route (10 * next)) then 1 # 100 else 1))%Q).
  { intros short long Sl Eq. unfold p, length_probability.
    assert (Pn : (0 < next)%Q) by lra. assert (Pr : (0 < route)%Q) by lra.
    assert (F : negb (Qle_bool route 0) && negb (Qle_bool next 0) = true) by (apply andb_true_iff; split; apply lt_bool; assumption). rewrite F. clear F.
    assert (Em : (qmax next route == long)%Q) by (destruct (qmax_spec next route) as (A & B & [C|C]); rewrite C in *; lra).
    assert (F : Qeq_bool (qmax next route) 0 = false).
    { destruct (Qeq_bool (qmax next route) 0) eqn:E; [|reflexivity]. apply Qeq_bool_iff in E. lra. } rewrite F. clear F.
    assert (Ed : (1 - Qabs (next - route) / qmax next route == short / long)%Q).
    { rewrite Em. assert (Ea : (Qabs (next - route) == long - short)%Q).
      { destruct Eq as [[E1 E2]|[E1 E2]]; rewrite E1, E2; [setoid_replace (next - route)%Q with (- (route - next))%Q by ring; rewrite Qabs_opp|]; apply Qabs_pos; lra. }
      rewrite Ea. field. lra. }
    assert (Eq1 : (qmax tiny (1 - Qabs (next - route) / qmax next route) == qmax tiny (short / long))%Q).
    { set (u := (1 - Qabs (next - route) / qmax next route)%Q) in *. set (v := (short / long)%Q) in *.
      destruct (qmax_spec tiny u) as (A & B & C). destruct (qmax_spec tiny v) as (A' & B' & C'). destruct C as [C|C], C' as [C'|C']; rewrite C, C' in *; lra. }
    assert (Ef : ((if negb (Qle_bool (route / next) 1) then 1 / (route / next) else route / next) == short / long)%Q).
    { destruct (negb (Qle_bool (route / next) 1)) eqn:B.
      - apply lt_bool in B. assert (next < route)%Q. { apply Qnot_le_lt. intros K. assert (route / next <= 1)%Q; [|lra]. apply Qle_shift_div_r; lra. }
        destruct Eq as [[E1 E2]|[E1 E2]]; [rewrite E1, E2; field; lra|lra].
      - apply lt_bool_false in B. assert (route <= next)%Q. { apply Qnot_lt_le. intros K. assert (1 < route / next)%Q; [|lra]. apply Qlt_shift_div_l; lra. }
        destruct Eq as [[E1 E2]|[E1 E2]]; [assert (Ex : (short == long)%Q) by lra; rewrite Ex, <- E1, <- E2, Ex; reflexivity|rewrite E1, E2; reflexivity]. }
    assert (Et : negb (Qle_bool (route / next) 10) = negb (Qle_bool route (10 * next))).
    { f_equal. destruct (Qle_bool (route / next) 10) eqn:A.
      - apply Qle_bool_iff in A. symmetry. apply Qle_bool_iff. assert (route == route / next * next)%Q by (field; lra). rewrite H. apply Qmult_le_compat_r; lra.
      - symmetry. destruct (Qle_bool route (10 * next)) eqn:B; [|reflexivity]. apply Qle_bool_iff in B. assert (route / next <= 10)%Q by (apply Qle_shift_div_r; [exact Pn|exact B]). apply Qle_bool_iff in H. congruence. }
    rewrite Et. destruct (negb (Qle_bool route (10 * next))); rewrite Ef, Eq1; ring. }
  split; [exact Z|]. split; [exact S|].
  destruct (Qlt_le_dec 0 next) as [Pn|Pn]; [|assert (E : p = tiny) by (apply Z; lra); rewrite E; exact tiny_range].
  destruct (Qlt_le_dec 0 route) as [Pr|Pr]; [|assert (E : p = tiny) by (apply Z; lra); rewrite E; exact tiny_range].
  assert (B : forall short long, (0 < short <= long)%Q -> (0 < short / long <= 1)%Q).
  { intros short long K. split; [apply Qlt_shift_div_l; lra|apply Qle_shift_div_r; lra]. }
  assert (Fin : forall x y, (0 < x <= 1)%Q -> (y = 1 # 100 \/ y = 1)%Q -> (0 < qmax tiny x * x * y <= 1)%Q).
  { intros x y X Y. destruct (qmax_tiny x) as [Q1 Q2]; [lra|]. set (q := qmax tiny x) in *. assert (0 < q * x <= 1)%Q by (split; nra). destruct Y as [-> | ->]; lra. }
  assert (Y : (let y := if negb (Qle_bool route (10 * next)) then 1 # 100 else 1 in y = 1 # 100 \/ y = 1)%Q) by (destruct (negb (Qle_bool route (10 * next))); auto).
  destruct (Qlt_le_dec route next) as [L|L].
  - rewrite (S route next) by (try lra; right; split; reflexivity). apply Fin; [apply B; lra|exact Y].
  - rewrite (S next route) by (try lra; left; split; reflexivity). apply Fin; [apply B; lra|exact Y].
Qed.

Lemma angle_range a b : UtilsProps.azimuth a -> UtilsProps.azimuth b -> UtilsProps.azimuth (angle_diff a b).
Proof. intros A B. apply (UtilsProps.C35_angle_diff (fun x => x) UtilsProps.C35_exact a b A B). Qed.
Lemma angle_abs a b : UtilsProps.azimuth a -> UtilsProps.azimuth b -> (0 <= Qabs (angle_diff a b) <= 180)%Q.
Proof. intros A B. destruct (angle_range a b A B) as [L U]. split; [apply Qabs_nonneg|]. apply Qabs_Qle_condition. split; assumption. Qed.

(** The probabilities of azimuths, turns and directions fall with the difference, and are cut off at 1e-20. *)
Theorem C62_angles a b d : UtilsProps.azimuth a -> UtilsProps.azimuth b -> (0 <= d)%Q ->
  (0 < azimuth_probability a b <= 1)%Q /\ (azimuth_probability a b == qmax tiny (1 - Qabs (angle_diff a b) / 180))%Q
  /\ (turn_probability a b == 1 - Qabs (angle_diff a b) / 360)%Q /\ (1 # 2 <= turn_probability a b <= 1)%Q
  /\ (0 < directions_probability d <= 1)%Q /\ ((360 <= d)%Q -> directions_probability d = tiny).
Proof.
  intros A B D. pose proof (angle_abs a b A B) as X. set (x := Qabs (angle_diff a b)) in *.
  assert (E1 : ((180 - x) / 180 == 1 - x / 180)%Q) by field. assert (E2 : ((360 - x) / 360 == 1 - x / 360)%Q) by field.
  assert (X1 : (x / 180 == x * (1 # 180))%Q) by reflexivity. assert (X2 : (x / 360 == x * (1 # 360))%Q) by reflexivity.
  assert (X3 : ((360 - d) / 360 == (360 - d) * (1 # 360))%Q) by reflexivity.
  split; [unfold azimuth_probability; fold x; apply qmax_tiny; lra|]. split.
  { unfold azimuth_probability. fold x. destruct (qmax_spec tiny ((180 - x) / 180)%Q) as (P & Q & [R|R]), (qmax_spec tiny (1 - x / 180)%Q) as (P' & Q' & [R'|R']); rewrite R, R' in *; lra. }
  assert (Et : (turn_probability a b == 1 - x / 360)%Q).
  { unfold turn_probability. fold x. destruct (qmax_spec tiny ((360 - x) / 360)%Q) as (P & Q & [R|R]); [|rewrite R; exact E2]. exfalso. rewrite R in Q.
    assert (tiny < 1 # 2)%Q by reflexivity. lra. }
  split; [exact Et|]. split; [lra|]. split; [apply qmax_tiny; lra|].
  intros L. unfold directions_probability, qmax. assert (F : Qle_bool ((360 - d) / 360) tiny = true); [|rewrite F; reflexivity]. apply Qle_bool_iff. pose proof tiny_range. lra.
Qed.

(** what is known of logarithms of powers: a probability in (0, 1] has a finite logarithm, not positive, and 1 has 0 *)
Record log_laws (logpow : Q -> Q -> Q) : Prop := mkLog {
  log_neg : forall p f, (0 < p <= 1)%Q -> (0 <= f)%Q -> (logpow p f <= 0)%Q;
  log_one : forall p f, (p == 1)%Q -> (logpow p f == 0)%Q;
  log_mono : forall p q f, (0 < p <= q)%Q -> (q <= 1)%Q -> (0 <= f)%Q -> (logpow p f <= logpow q f)%Q }.

Section Scores.
  Variable logpow : Q -> Q -> Q.
  Variable f_distance f_length f_azimuth f_turn f_direction : Q.
  Variable seg_length seg_azimuth turn : nat -> option Q.
  Variable next_equal : nat -> bool.
  Variable distances : list (list Q).
  Variable route : nat -> nat -> nat -> route_info.
  Notation observation := (observation logpow f_distance distances).
  Notation transition := (transition logpow f_length f_azimuth f_turn f_direction seg_length seg_azimuth turn next_equal route).

  Definition nonneg (x : option Q) : Prop := match x with Some q => (0 <= q)%Q | None => True end.
  Definition angle (x : option Q) : Prop := match x with Some q => UtilsProps.azimuth q | None => True end.
  (** what the measures of tracks and routes are *)
  Record measured : Prop := mkMeasured {
    me_length : forall i, nonneg (seg_length i); me_azimuth : forall i, angle (seg_azimuth i); me_turn : forall i, angle (turn i);
    me_rlength : forall t x y, nonneg (r_length (route t x y)); me_razimuth : forall t x y, angle (r_azimuth (route t x y));
    me_rturns : forall t x y, nonneg (r_turns (route t x y)) }.

  (** Every candidate edge has a finite observation score, not positive; a nearer edge of the point has no lower score. *)
  Theorem C62_observation_score c l : log_laws logpow -> (0 <= f_distance)%Q -> nth_error distances c = Some l -> Forall (fun d => 0 <= d)%Q l ->
    forall e d, nth_error l e = Some d -> exists s, observation c e = Some s /\ (s <= 0)%Q
      /\ forall e' d', nth_error l e' = Some d' -> (d' < d)%Q -> exists s', observation c e' = Some s' /\ (s <= s')%Q.
  Proof.
    intros L F Hc H e d Hd. unfold observation. rewrite Hc, Hd. set (near := (c =? 0) || (length distances <=? c + 1)).
    assert (R : forall x, In x l -> (0 < observation_probability l near x <= 1)%Q).
    { intros x Hx. destruct (C62_observation l near x H Hx) as (m & Hm & M & E). rewrite Forall_forall in H.
      assert (S : (1 # 101 < share m x <= 1)%Q) by (apply share_range; split; [apply H, Hx|apply M, Hx]). set (a := share m x) in *.
      destruct near; rewrite E; [|lra]. assert (0 < a * a <= 1)%Q by (split; nra). split; nra. }
    eexists. split; [reflexivity|]. split; [apply (log_neg _ L); [apply R, (nth_error_In _ _ Hd)|exact F]|].
    intros e' d' Hd' Lt. rewrite Hd'. eexists. split; [reflexivity|].
    destruct (C62_nearer l near d' d H (nth_error_In _ _ Hd') (nth_error_In _ _ Hd) Lt) as [[A B] C]. apply (log_mono _ L); [split; lra|exact C|exact F].
  Qed.

  (** The third power is taken on the first and on the last point, and on no other one. *)
  Theorem C62_ends c l e d : nth_error distances c = Some l -> Forall (fun d => 0 <= d)%Q l -> nth_error l e = Some d ->
    exists m p, In m l /\ (forall x, In x l -> (x <= m)%Q) /\ observation c e = Some (logpow p f_distance)
      /\ (c = 0 \/ c = length distances - 1 -> (p == share m d * share m d * share m d)%Q)
      /\ (c <> 0 -> c <> length distances - 1 -> (p == share m d)%Q).
  Proof.
    intros Hc H Hd. unfold observation. rewrite Hc, Hd. set (near := (c =? 0) || (length distances <=? c + 1)).
    destruct (C62_observation l near d H (nth_error_In _ _ Hd)) as (m & Hm & M & E). exists m, (observation_probability l near d).
    split; [exact Hm|]. split; [exact M|]. split; [reflexivity|].
    assert (Lc : c < length distances) by (apply nth_error_Some; congruence).
    assert (Nr : near = true <-> c = 0 \/ c = length distances - 1) by (unfold near; rewrite orb_true_iff, Nat.eqb_eq, Nat.leb_le; lia).
    split.
    - intros K. apply Nr in K. rewrite K in E |- *. exact E.
    - intros K1 K2. destruct near; [|exact E]. exfalso. destruct (proj1 Nr eq_refl); contradiction.
  Qed.

  (** A transition is impossible exactly along an invalid route; all other scores are finite and not positive. *)
  Theorem C62_transition to target source : log_laws logpow -> measured ->
    (0 <= f_length)%Q -> (0 <= f_azimuth)%Q -> (0 <= f_turn)%Q -> (0 <= f_direction)%Q ->
    if r_invalid (route to target source) then transition to target source = None
    else exists s, transition to target source = Some s /\ (s <= 0)%Q.
  Proof.
    intros L ME Fl Fa Ft Fd. unfold transition. set (r := route to target source).
    destruct (r_invalid r); [reflexivity|].
    destruct (next_equal (to - 1) && match r_length r with None => true | Some _ => false end); [eexists; split; [reflexivity|lra]|].
    pose proof (me_rlength ME to target source) as Hl. pose proof (me_razimuth ME to target source) as Ha. pose proof (me_rturns ME to target source) as Ht. fold r in Hl, Ha, Ht.
    assert (Ln : (0 <= or_else (seg_length (to - 1)) 1)%Q) by (pose proof (me_length ME (to - 1)) as K; destruct (seg_length (to - 1)); [exact K|cbn; lra]).
    assert (Lr : (0 <= or_else (r_length r) 1)%Q) by (destruct (r_length r); [exact Hl|cbn; lra]).
    pose proof (log_neg _ L _ f_length (proj2 (proj2 (C62_length _ _ Ln Lr))) Fl) as S1.
    set (x1 := logpow (length_probability _ _) f_length) in *. clearbody x1.
    assert (D : forall d, r_turns r = Some d -> (logpow (directions_probability d) f_direction <= 0)%Q).
    { intros d Ed. rewrite Ed in Ht. apply (log_neg _ L); [|exact Fd]. assert (Z0 : UtilsProps.azimuth 0) by (split; discriminate). apply (C62_angles 0 0 d Z0 Z0 Ht). }
    assert (A : forall a b, UtilsProps.azimuth a -> UtilsProps.azimuth b -> (logpow (azimuth_probability a b) f_azimuth <= 0 /\ logpow (turn_probability a b) f_turn <= 0)%Q).
    { intros a b Xa Xb. destruct (C62_angles a b 0 Xa Xb) as (A1 & _ & _ & A2 & _); [lra|]. split; apply (log_neg _ L); try assumption. lra. }
    destruct (r_azimuth r) as [ra|].
    - assert (An : UtilsProps.azimuth (or_else (seg_azimuth (to - 1)) ra)) by (pose proof (me_azimuth ME (to - 1)) as K; destruct (seg_azimuth (to - 1)); [exact K|exact Ha]).
      pose proof (proj1 (A _ _ An Ha)) as S2. set (x2 := logpow (azimuth_probability _ _) f_azimuth) in *. clearbody x2.
      pose proof (me_azimuth ME (to - 2)) as Hs. pose proof (me_turn ME (to - 2)) as Hn.
      destruct ((1 <=? to - 1) && (2 <=? to)); [destruct (seg_azimuth (to - 2)) as [ca|]; [destruct (turn (to - 2)) as [nt|]|]|].
      all: try (pose proof (proj2 (A nt (angle_diff ca ra) Hn (angle_range ca ra Hs Ha))) as S3; set (x3 := logpow (turn_probability _ _) f_turn) in *; clearbody x3).
      all: destruct (r_turns r) as [d|]; (eexists; split; [reflexivity|]); try pose proof (D d eq_refl); lra.
    - destruct (r_turns r) as [d|]; (eexists; split; [reflexivity|]); try pose proof (D d eq_refl); lra.
  Qed.

  (** The score is 0, the best one, for a route that follows the track: of the same positive length, in the direction of the track, and
      without turns of its own. *)
  Theorem C62_exact to target source x : log_laws logpow -> r_invalid (route to target source) = false ->
    (0 < x)%Q -> seg_length (to - 1) = Some x -> r_length (route to target source) = Some x ->
    (forall a, r_azimuth (route to target source) = Some a -> UtilsProps.azimuth a /\ seg_azimuth (to - 1) = Some a
      /\ forall c n, seg_azimuth (to - 2) = Some c -> turn (to - 2) = Some n -> UtilsProps.azimuth c /\ n = angle_diff c a) ->
    (forall d, r_turns (route to target source) = Some d -> d = 0%Q) ->
    exists s, transition to target source = Some s /\ (s == 0)%Q.
  Proof.
    intros L V X Sx Rx Az Tu. unfold transition. set (r := route to target source) in *. rewrite V, Sx, Rx. rewrite andb_false_r. cbn [or_else].
    assert (Q1 : forall y, (y == 1)%Q -> (qmax tiny y == 1)%Q).
    { intros y Y. destruct (qmax_spec tiny y) as (A & B & [C|C]); rewrite C in *; [assert (tiny < 1)%Q by reflexivity; lra|exact Y]. }
    assert (E1 : (length_probability x x == 1)%Q).
    { destruct (C62_length x x) as (_ & S & _); [lra|lra|]. rewrite (S x x) by (try lra; left; split; reflexivity). assert (D : (x / x == 1)%Q) by (field; lra). rewrite (Q1 _ D), D.
      assert (G : negb (Qle_bool x (10 * x)) = false) by (apply lt_bool_false; lra). rewrite G. reflexivity. }
    assert (Dd : forall a, UtilsProps.azimuth a -> (Qabs (angle_diff a a) == 0)%Q).
    { intros a Ha. pose proof (UtilsProps.C35_shortest (fun x => x) UtilsProps.C35_exact a a 0%Z Ha Ha) as K. fold (angle_diff a a) in K.
      assert (Z0 : (a - a + 360 * inject_Z 0 == 0)%Q) by (change (inject_Z 0) with (0 # 1); ring). rewrite Z0 in K. pose proof (Qabs_nonneg (angle_diff a a)). change (Qabs 0) with 0%Q in K. lra. }
    assert (Ea : forall a, UtilsProps.azimuth a -> (azimuth_probability a a == 1)%Q) by (intros a Ha; apply Q1; rewrite (Dd a Ha); reflexivity).
    assert (Et : forall a, UtilsProps.azimuth a -> (turn_probability a a == 1)%Q) by (intros a Ha; apply Q1; rewrite (Dd a Ha); reflexivity).
    assert (Ed : (directions_probability 0 == 1)%Q) by (apply Q1; reflexivity).
    pose proof (log_one _ L _ f_length E1) as S1. set (x1 := logpow (length_probability x x) f_length) in *. clearbody x1.
    pose proof (log_one _ L _ f_direction Ed) as S4.
    destruct (r_azimuth r) as [ra|].
    - destruct (Az ra eq_refl) as (Ha & Sa & Tn). rewrite Sa. cbn [or_else]. pose proof (log_one _ L _ f_azimuth (Ea ra Ha)) as S2. set (x2 := logpow (azimuth_probability ra ra) f_azimuth) in *. clearbody x2.
      destruct ((1 <=? to - 1) && (2 <=? to)); [destruct (seg_azimuth (to - 2)) as [ca|]; [destruct (turn (to - 2)) as [nt|]|]|].
      1: destruct (Tn ca nt eq_refl eq_refl) as [Hc ->]; pose proof (log_one _ L _ f_turn (Et (angle_diff ca ra) (angle_range ca ra Hc Ha))) as S3.
      all: destruct (r_turns r) as [d|]; (eexists; split; [reflexivity|]); try (rewrite (Tu d eq_refl)); lra.
    - destruct (r_turns r) as [d|]; (eexists; split; [reflexivity|]); try (rewrite (Tu d eq_refl)); lra.
  Qed.

  (** What the score of a valid route adds up: the length against the segment before the point [to]; the azimuth against that of the same
      segment; from the third point on, the turn from the segment before against the turn of the track there; and the turns of the route. A measure
      that the route does not have adds nothing; a missing length counts as 1 on both sides, a missing azimuth of the track as agreement. *)
  Theorem C62_parts i target source : let r := route (S i) target source in
    r_invalid r = false -> (next_equal i = false \/ r_length r <> None) ->
    exists s la az tu di, transition (S i) target source = Some s /\ (s == la + az + tu + di)%Q
      /\ la = logpow (length_probability (or_else (seg_length i) 1) (or_else (r_length r) 1)) f_length
      /\ (r_azimuth r = None -> az = 0%Q /\ tu = 0%Q)
      /\ (forall a, r_azimuth r = Some a -> az = logpow (azimuth_probability (or_else (seg_azimuth i) a) a) f_azimuth)
      /\ (forall a before n, r_azimuth r = Some a -> 0 < i -> seg_azimuth (i - 1) = Some before -> turn (i - 1) = Some n ->
           tu = logpow (turn_probability n (angle_diff before a)) f_turn)
      /\ (i = 0 \/ seg_azimuth (i - 1) = None \/ turn (i - 1) = None -> tu = 0%Q)
      /\ (r_turns r = None -> di = 0%Q) /\ (forall d, r_turns r = Some d -> di = logpow (directions_probability d) f_direction).
  Proof.
    intros r V N. unfold transition. fold r. rewrite V. replace (S i - 1) with i by lia. replace (S i - 2) with (i - 1) by lia.
    assert (F : next_equal i && match r_length r with None => true | Some _ => false end = false).
    { destruct N as [-> |N]; [reflexivity|]. destruct (r_length r); [apply andb_false_r|congruence]. }
    rewrite F. clear F.
    set (tu := if 1 <=? i then match r_azimuth r, seg_azimuth (i - 1), turn (i - 1) with Some a, Some c, Some n => logpow (turn_probability n (angle_diff c a)) f_turn | _, _, _ => 0%Q end else 0%Q).
    eexists. exists (logpow (length_probability (or_else (seg_length i) 1) (or_else (r_length r) 1)) f_length),
      (match r_azimuth r with Some a => logpow (azimuth_probability (or_else (seg_azimuth i) a) a) f_azimuth | None => 0%Q end), tu,
      (match r_turns r with Some d => logpow (directions_probability d) f_direction | None => 0%Q end).
    split; [reflexivity|]. split; [|split; [reflexivity|split; [|split; [|split; [|split; [|split]]]]]].
    - unfold tu. replace ((1 <=? i) && (2 <=? S i)) with (1 <=? i) by (destruct i as [|i]; [reflexivity|cbn; rewrite ?andb_diag; reflexivity]).
      destruct (r_azimuth r), (r_turns r); destruct (1 <=? i); try (destruct (seg_azimuth (i - 1)); [destruct (turn (i - 1))|]); lra.
    - intros H. rewrite H. split; [reflexivity|]. unfold tu. rewrite H. destruct (1 <=? i); reflexivity.
    - intros a ->. reflexivity.
    - intros a b n Ha Hi Hb Hn. unfold tu. rewrite Ha, Hb, Hn. destruct (Nat.leb_spec 1 i); [reflexivity|lia].
    - unfold tu. intros [-> | [-> | ->]]; [reflexivity| |]; destruct (1 <=? i), (r_azimuth r); try reflexivity. destruct (seg_azimuth (i - 1)); reflexivity.
    - intros ->. reflexivity.
    - intros d ->. reflexivity.
  Qed.
  (** two equal points of the track and no route to go: 0 *)
  Theorem C62_stay i target source : r_invalid (route (S i) target source) = false -> next_equal i = true -> r_length (route (S i) target source) = None ->
    exists s, transition (S i) target source = Some s /\ (s == 0)%Q.
  Proof. intros V E N. unfold transition. rewrite V, N. replace (S i - 1) with i by lia. rewrite E. eexists. split; [reflexivity|lra]. Qed.

  (** *** The policy *)
  Definition qadd (a b : option Q) : option Q := match a, b with Some x, Some y => Some (x + y)%Q | _, _ => None end.
  Definition qltb (a b : option Q) : bool := match a, b with _, None => false | None, Some _ => true | Some x, Some y => negb (Qle_bool y x) end.
  Lemma q_laws : score_laws None qadd qltb.
  Proof.
    constructor; unfold below.
    - intros [a|]; cbn; [apply lt_bool_false; lra|reflexivity].
    - intros [a|] [b|] [c|]; cbn; try discriminate; try reflexivity. rewrite !lt_bool_false. lra.
    - intros [a|] [b|]; cbn; auto. rewrite !lt_bool_false. lra.
    - intros [a|]; reflexivity.
    - intros [a|] [b|] [c|]; cbn; try discriminate; try reflexivity. rewrite !lt_bool_false. lra.
    - intros [c|]; reflexivity.
  Qed.

  Variable log_inv : nat -> Q.
  Notation tables := (hmm_tables (fun n => Some (log_inv n)) observation transition distances).

  (** one candidate edge of every point, with valid routes between them *)
  Definition edge_chain (cs : list nat) : Prop :=
    length cs = length distances
    /\ (forall i c, nth_error cs i = Some c -> c < length (nth i distances []))
    /\ (forall i s t, nth_error cs i = Some s -> nth_error cs (S i) = Some t -> r_invalid (route (S i) t s) = false).
  (** the sum of the scores along it *)
  Fixpoint chain_value (t prev : nat) (cs : list nat) : Q :=
    match cs with
    | [] => 0%Q
    | c :: r => (or_else (transition t c prev) 0 + or_else (observation t c) 0 + chain_value (S t) c r)%Q
    end.
  Definition value (cs : list nat) : Q := match cs with [] => 0%Q | c :: r => (or_else (observation 0 c) 0 + chain_value 1 c r)%Q end.

  Lemma emit_obs t g : g < length (nth t distances []) -> emit None tables t g = observation t g.
  Proof.
    intros H. unfold emit, hmm_tables. cbn [observations]. rewrite nth_map_seq. destruct (t <? length distances) eqn:E.
    - rewrite nth_map_seq. apply Nat.ltb_lt in H. rewrite H. reflexivity.
    - apply Nat.ltb_ge in E. rewrite nth_overflow in H by exact E. cbn in H. lia.
  Qed.
  Lemma trans_tr t g s : g < length (nth (S t) distances []) -> s < length (nth t distances []) -> trans None tables (S t) g s = transition (S t) g s.
  Proof.
    intros H Hs. unfold trans, hmm_tables. cbn [transitions]. rewrite nth_map_seq. destruct (S t <? length distances) eqn:E.
    - rewrite nth_map_seq. apply Nat.ltb_lt in H. rewrite H. rewrite nth_map_seq. apply Nat.ltb_lt in Hs. rewrite Hs. reflexivity.
    - apply Nat.ltb_ge in E. rewrite nth_overflow in H by exact E. cbn in H. lia.
  Qed.
  Lemma trans_first g : g < length (nth 0 distances []) -> trans None tables 0 g 0 = Some (log_inv (length (nth 0 distances []))).
  Proof.
    intros H. unfold trans, hmm_tables. cbn [transitions]. rewrite nth_map_seq. destruct (0 <? length distances) eqn:E.
    - rewrite (nth_map_seq (fun _ => [Some (log_inv (length (nth 0 distances [])))])). apply Nat.ltb_lt in H. rewrite H. reflexivity.
    - apply Nat.ltb_ge in E. rewrite nth_overflow in H by exact E. cbn in H. lia.
  Qed.

  Hypothesis L : log_laws logpow.
  Hypothesis ME : measured.
  Hypothesis F0 : (0 <= f_distance)%Q.
  Hypothesis F1 : (0 <= f_length)%Q.
  Hypothesis F2 : (0 <= f_azimuth)%Q.
  Hypothesis F3 : (0 <= f_turn)%Q.
  Hypothesis F4 : (0 <= f_direction)%Q.
  Hypothesis D : Forall (fun l => l <> [] /\ Forall (fun d => 0 <= d)%Q l) distances.

  Lemma obs_some t g : g < length (nth t distances []) -> exists s, observation t g = Some s.
  Proof.
    intros H. destruct (nth_error distances t) as [l|] eqn:E.
    - rewrite (nth_error_nth _ _ _ E) in H. destruct (nth_error l g) as [d|] eqn:G; [|apply nth_error_None in G; lia]. rewrite Forall_forall in D. destruct (D l (nth_error_In _ _ E)) as [_ N].
      destruct (C62_observation_score t l L F0 E N g d G) as (s & Hs & _). eauto.
    - apply nth_error_None in E. rewrite nth_overflow in H by exact E. cbn in H. lia.
  Qed.
  Lemma extend_none cs : forall t prev, extend None qadd tables None t prev cs = None.
  Proof. induction cs as [|c r IH]; intros t prev; cbn [extend qadd]; [reflexivity|apply IH]. Qed.
  (** the score of the decoder is the sum, or minus infinity if some route is invalid *)
  Lemma extend_value cs : forall x t prev, prev < length (nth t distances []) -> Forall2 (fun t c => c < length (nth t distances [])) (seq (S t) (length cs)) cs ->
    let ok := forall i s c, nth_error (prev :: cs) i = Some s -> nth_error cs i = Some c -> r_invalid (route (S t + i) c s) = false in
    (ok /\ exists y, extend None qadd tables (Some x) (S t) prev cs = Some y /\ (y == x + chain_value (S t) prev cs)%Q)
    \/ (~ ok /\ extend None qadd tables (Some x) (S t) prev cs = None).
  Proof.
    induction cs as [|c r IH]; intros x t prev Hp H; cbn [length seq extend chain_value].
    - left. split; [intros [|i] s c _ K; discriminate K|]. exists x. split; [reflexivity|lra].
    - apply Forall2_cons_inv in H as [Hc H] || (inversion H as [|? ? ? ? Hc H']; subst; clear H; rename H' into H).
      rewrite emit_obs, trans_tr by assumption. destruct (obs_some (S t) c Hc) as [o Ho].
      pose proof (C62_transition (S t) c prev L ME F1 F2 F3 F4) as T.
      destruct (r_invalid (route (S t) c prev)) eqn:V.
      + rewrite T. cbn [qadd]. right. split; [|apply extend_none]. intros K. specialize (K 0 prev c eq_refl eq_refl). rewrite Nat.add_0_r in K. congruence.
      + destruct T as (s & Es & _). rewrite Es, Ho. cbn [qadd or_else].
        destruct (IH (x + s + o)%Q (S t) c Hc H) as [[K (y & Ey & Vy)]|[K Ey]].
        * left. split; [|exists y; split; [exact Ey|lra]]. intros [|i] a b Ea Eb.
          -- cbn in Ea, Eb. injection Ea as <-. injection Eb as <-. rewrite Nat.add_0_r. exact V.
          -- replace (S t + S i) with (S (S t) + i) by lia. apply K; assumption.
        * right. split; [|exact Ey]. intros N. apply K. intros i a b Ea Eb. replace (S (S t) + i) with (S t + S i) by lia. apply N; assumption.
  Qed.

  Lemma first_zero : distances <> [] -> first_step tables 0.
  Proof.
    intros N. split; [|split; [|intros t K; lia]].
    - unfold steps, hmm_tables. cbn [observations]. rewrite map_length, seq_length. destruct distances; [congruence|cbn; lia].
    - rewrite hmm_width. destruct distances as [|l r]; [congruence|]. apply Forall_inv in D. destruct D as [K _]. destruct l; [congruence|cbn; lia].
  Qed.
  Lemma steps_len : steps tables = length distances.
  Proof. unfold steps, hmm_tables. cbn [observations]. rewrite map_length, seq_length. reflexivity. Qed.
  Lemma choices_chain t cs : choices tables t cs <-> forall i c, nth_error cs i = Some c -> c < length (nth (t + i) distances []).
  Proof.
    unfold choices. revert t. induction cs as [|x r IH]; intros t; cbn [length seq].
    - split; [intros _ [|i] c K; discriminate K|constructor].
    - split.
      + intros H. inversion H as [|? ? ? ? Hc H']; subst. rewrite hmm_width in Hc. intros [|i] c E; [injection E as <-; rewrite Nat.add_0_r; exact Hc|].
        replace (t + S i) with (S t + i) by lia. apply IH; assumption.
      + intros H. constructor; [rewrite hmm_width; specialize (H 0 x eq_refl); rewrite Nat.add_0_r in H; exact H|]. apply IH. intros i c E. replace (S t + i) with (t + S i) by lia. apply H, E.
  Qed.
  Lemma score_value cs : distances <> [] -> complete tables 0 cs ->
    (edge_chain cs /\ exists y, score None qadd (fun n => Some (log_inv n)) tables 0 cs = Some y /\ (y == log_inv (length (nth 0 distances [])) + value cs)%Q)
    \/ (~ edge_chain cs /\ score None qadd (fun n => Some (log_inv n)) tables 0 cs = None).
  Proof.
    intros N (_ & Len & Ch). rewrite steps_len, Nat.sub_0_r in Len. rewrite choices_chain in Ch.
    destruct cs as [|c r]; [destruct distances; [congruence|discriminate Len]|].
    assert (H0 : c < length (nth 0 distances [])) by (apply (Ch 0 c eq_refl)).
    cbn [score]. unfold start. rewrite trans_first, emit_obs by exact H0. destruct (obs_some 0 c H0) as [o Ho]. rewrite Ho. cbn [qadd].
    assert (H : Forall2 (fun t c => c < length (nth t distances [])) (seq 1 (length r)) r).
    { assert (K : choices tables 1 r) by (apply choices_chain; intros i x E; apply (Ch (S i) x E)). unfold choices in K.
      clear - K. induction K as [|a b l l' Hab K IH]; constructor; [rewrite hmm_width in Hab; exact Hab|exact IH]. }
    destruct (extend_value r (log_inv (length (nth 0 distances [])) + o)%Q 0 c H0 H) as [[K (y & Ey & Vy)]|[K Ey]].
    - left. split; [|exists y; split; [exact Ey|cbn [value]; rewrite Ho; cbn [or_else]; lra]]. split; [exact Len|]. split; [exact Ch|]. intros i s t Es Et. apply (K i s t Es Et).
    - right. split; [|exact Ey]. intros (_ & _ & V). apply K. intros i s x Es Ex. apply (V i s x Es Ex).
  Qed.

  (** The decoder run on these scores: without candidates chained by valid routes the policy is empty; else it takes for every point
      one candidate edge such that all the routes between them are valid, and no other such choice has a greater sum of scores. *)
  Theorem C62_policy : distances <> [] ->
    exists pol, viterbi None qadd qltb (fun n => Some (log_inv n)) tables never = Ok pol
      /\ ((pol = [] /\ forall cs, ~ edge_chain cs)
          \/ exists cs, pol = combine (seq 0 (length cs)) cs /\ edge_chain cs /\ forall cs', edge_chain cs' -> (value cs' <= value cs)%Q).
  Proof.
    intros N. destruct (C14_viterbi_optimal None qadd qltb (fun n => Some (log_inv n)) tables q_laws (hmm_shaped _ _ _ _)) as (pol & E & R).
    exists pol. split; [exact E|].
    assert (Cm : forall cs, edge_chain cs -> complete tables 0 cs).
    { intros cs (Len & Ch & _). split; [apply first_zero, N|]. split; [rewrite steps_len, Nat.sub_0_r; exact Len|]. apply choices_chain. exact Ch. }
    destruct R as [(t0 & cs & C & Ep & Pos & Best)|[Ep Bad]].
    - right. assert (t0 = 0) as -> by (apply (first_unique _ _ _ (proj1 C) (first_zero N))). exists cs.
      destruct (score_value cs N C) as [[K (y & Ey & Vy)]|[_ Ey]]; [|rewrite Ey in Pos; discriminate Pos].
      split; [exact Ep|]. split; [exact K|]. intros cs' K'. specialize (Best 0 cs' (Cm cs' K')).
      destruct (score_value cs' N (Cm cs' K')) as [[_ (y' & Ey' & Vy')]|[Kn _]]; [|contradiction].
      unfold below in Best. rewrite Ey, Ey' in Best. cbn in Best. apply lt_bool_false in Best. lra.
    - left. split; [exact Ep|]. intros cs K. specialize (Bad 0 cs (Cm cs K)). destruct (score_value cs N (Cm cs K)) as [[_ (y & Ey & _)]|[Kn _]]; [|contradiction].
      rewrite Ey in Bad. discriminate Bad.
  Qed.
End Scores.

(** three points; the nearest edge of the second point is not reachable from the only edge of the first one, its other edge is *)
Definition demo_logpow (p f : Q) : Q := (f * (p - 1))%Q.
Example demo_log : log_laws demo_logpow.
Proof. unfold demo_logpow. constructor; [intros; nra|intros p f E; rewrite E; ring|intros; nra]. Qed.
Definition demo_distances : list (list Q) := [[(3)]; [(0); (8)]; [(2); (1)]]%Q.
Definition demo_route (to target source : nat) : route_info :=
  match to, target, source with
  | 1, 0, _ => mkInfo true None None None
  | 1, _, _ => mkInfo false (Some 12)%Q (Some 45)%Q None
  | _, 0, _ => mkInfo false (Some 30)%Q (Some (-170))%Q (Some 90)%Q
  | _, _, _ => mkInfo false (Some 9)%Q (Some 100)%Q (Some 0)%Q
  end.
Definition demo_seg (i : nat) : option Q := match i with 0 => Some 10%Q | _ => Some 11%Q end.
Definition demo_azi (i : nat) : option Q := match i with 0 => Some 30%Q | _ => Some 90%Q end.
Definition demo_turn (i : nat) : option Q := Some 60%Q.
Example demo_measured : measured demo_seg demo_azi demo_turn demo_route.
Proof.
  constructor; intros.
  - destruct i; discriminate.
  - destruct i; split; discriminate.
  - split; discriminate.
  - destruct t as [|[|t]], x; cbn; solve [discriminate|exact I].
  - destruct t as [|[|t]], x; cbn; try exact I; split; discriminate.
  - destruct t as [|[|t]], x; cbn; solve [discriminate|exact I].
Qed.
Example demo_hmm : viterbi None qadd qltb (fun n => Some (1 - inject_Z (Z.of_nat n))%Q)
  (hmm_tables (fun n => Some (1 - inject_Z (Z.of_nat n))%Q) (observation demo_logpow 1 demo_distances)
     (transition demo_logpow 1 1 1 1 demo_seg demo_azi demo_turn (fun _ => false) demo_route) demo_distances) never = Ok [(0, 0); (1, 1); (2, 1)].
Proof. vm_compute. reflexivity. Qed.
Example demo_chain : edge_chain demo_distances demo_route [0; 1; 1] /\ edge_chain demo_distances demo_route [0; 1; 0] /\ ~ edge_chain demo_distances demo_route [0; 0; 1].
Proof.
  split; [|split].
  - split; [reflexivity|]. split; [intros [|[|[|[|i]]]] c E; injection E as <- || discriminate E; cbn; lia|]. intros [|[|[|[|i]]]] s t E E'; try discriminate E'; injection E as <-; injection E' as <-; reflexivity.
  - split; [reflexivity|]. split; [intros [|[|[|[|i]]]] c E; injection E as <- || discriminate E; cbn; lia|]. intros [|[|[|[|i]]]] s t E E'; try discriminate E'; injection E as <-; injection E' as <-; reflexivity.
  - intros (_ & _ & H). specialize (H 0 0 0 eq_refl eq_refl). discriminate H.
Qed.
(** a route along the track, and one more than ten times as long *)
Example demo_length : (length_probability 10 10 == 1 /\ length_probability 10 20 == 1 # 4 /\ length_probability 20 10 == 1 # 4
  /\ length_probability 10 200 == (1 # 400) * (1 # 100) /\ length_probability 10 100 == 1 # 100)%Q.
Proof. repeat split; vm_compute; reflexivity. Qed.

(** A longer route is not always less probable than a shorter one that is as far from the length of the track. *)
Theorem C62_same_difference_refuted : exists next d : Q, (0 < d < next)%Q /\ (length_probability next (next - d) < length_probability next (next + d))%Q.
Proof. exists 10%Q, 5%Q. split; [split; reflexivity|vm_compute; reflexivity]. Qed.

(** Without a candidate edge at a point in the middle there is no policy at all. *)
Theorem C62_gap_refuted : exists distances : list (list Q), distances <> [] /\ nth 0 distances [] <> [] /\
  viterbi None qadd qltb (fun _ => Some 0%Q)
    (hmm_tables (fun _ => Some 0%Q) (observation demo_logpow 1 distances)
       (transition demo_logpow 1 1 1 1 (fun _ => None) (fun _ => None) (fun _ => None) (fun _ => false) (fun _ _ _ => mkInfo false (Some 1%Q) None None)) distances) never = Ok [].
Proof. exists [[1%Q]; []; [1%Q]]. split; [discriminate|]. split; [discriminate|]. vm_compute. reflexivity. Qed.

Print Assumptions C62_observation.
Print Assumptions C62_nearer.
Print Assumptions C62_length.
Print Assumptions C62_angles.
Print Assumptions C62_observation_score.
Print Assumptions C62_transition.
Print Assumptions C62_exact.
Print Assumptions C62_ends.
Print Assumptions C62_parts.
Print Assumptions C62_stay.
Print Assumptions C62_policy.
Print Assumptions C62_same_difference_refuted.
Print Assumptions C62_gap_refuted.
