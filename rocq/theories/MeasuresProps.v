(** C86: turning angles and lengths of lines and segments. *)
From Coq Require Import ZArith QArith Qabs Lqa Lia.
From Verif Require Import Base ListAux Utils UtilsProps Measures.
Local Open Scope Q_scope.

(** The segments of a line, and connected segments. *)
Fixpoint segments_of {P} (line : list P) : list (P * P) :=
  match line with
  | a :: ((b :: _) as rest) => (a, b) :: segments_of rest
  | _ => []
  end.
Fixpoint connected {P} (l : list (P * P)) : Prop :=
  match l with
  | a :: ((b :: _) as rest) => snd a = fst b /\ connected rest
  | _ => True
  end.
Fixpoint sumQ (l : list Q) : Q := match l with [] => 0 | x :: l' => x + sumQ l' end.
(** The sum with rounding, from the left. *)
Definition rsum (rnd : Q -> Q) (l : list Q) : Q := fold_left (fun s d => rnd (s + d)) l 0.

Section C86.
  Variable P : Type.
  Variable az : P -> P -> Q.
  Hypothesis az_range : forall a b, azimuth (az a b).

  (** *** With rounding *)
  Section Rounded.
    Variable rnd : Q -> Q.

    (** The sums over a line are the sums of the turns between its segments, whether the azimuths are given or not. *)
    Theorem C86_line line :
      directions P rnd az line = rsum rnd (dirs P rnd az (segments_of line) [])
      /\ absolute_directions P rnd az line = rsum rnd (map Qabs (dirs P rnd az (segments_of line) []))
      /\ combined_directions P rnd az line = (directions P rnd az line, absolute_directions P rnd az line).
    Proof.
      unfold directions, absolute_directions, combined_directions, rsum.
      assert (G : forall s t,
        directions_from P rnd az s line
          = fold_left (fun s d => rnd (s + d)) (dirs P rnd az (segments_of line) []) s
        /\ absolute_from P rnd az t line
          = fold_left (fun s d => rnd (s + d)) (map Qabs (dirs P rnd az (segments_of line) [])) t
        /\ combined_from P rnd az (s, t) line = (directions_from P rnd az s line, absolute_from P rnd az t line));
        [|apply G].
      induction line as [|a line IH]; intros s t; [repeat split|].
      destruct line as [|b [|c line]]; [repeat split | repeat split |].
      destruct (IH (rnd (s + direction P rnd az a b c)) (rnd (t + Qabs (direction P rnd az a b c)))) as (H1 & H2 & H3).
      repeat split; [exact H1 | exact H2 | exact H3].
    Qed.

    (** For connected segments it makes no difference whether their azimuths are handed over; there is one turn fewer
        than segments, each the difference of two neighbouring azimuths. *)
    Theorem C86_segments segments : connected segments ->
      dirs P rnd az segments [] = dirs P rnd az segments (segments_azimuths P az segments)
      /\ length (dirs P rnd az segments []) = (length segments - 1)%nat
      /\ forall i a b, nth_error segments i = Some a -> nth_error segments (S i) = Some b ->
           nth_error (dirs P rnd az segments []) i
           = Some (angle_diff rnd (az (fst a) (snd a)) (az (fst b) (snd b))).
    Proof.
      intros H.
      assert (E : dirs_segments P rnd az segments = dirs_azimuths rnd (segments_azimuths P az segments)).
      { induction segments as [|a [|b l] IH]; [reflexivity | reflexivity |]. destruct H as [H1 H2].
        change (dirs_segments P rnd az (a :: b :: l))
          with (direction P rnd az (fst a) (snd a) (snd b) :: dirs_segments P rnd az (b :: l)).
        rewrite (IH H2). cbn. unfold direction, direction_az, azimuth_segment. rewrite <- H1. reflexivity. }
      split; [|split].
      - unfold dirs. destruct segments; [reflexivity|]. exact E.
      - clear E H. cbn. induction segments as [|a [|b l] IH]; [reflexivity | reflexivity |].
        change (dirs_segments P rnd az (a :: b :: l))
          with (direction P rnd az (fst a) (snd a) (snd b) :: dirs_segments P rnd az (b :: l)).
        cbn [length] in *. rewrite IH. lia.
      - cbn. clear E. revert H. induction segments as [|u l IH]; intros H i a b Ha Hb; [destruct i; discriminate Ha|].
        destruct l as [|v l]; [destruct i as [|[|i]]; discriminate Hb|]. destruct H as [H1 H2].
        destruct i as [|i].
        + cbn in Ha, Hb |- *. injection Ha as <-. injection Hb as <-. unfold direction. rewrite <- H1. reflexivity.
        + exact (IH H2 i a b Ha Hb).
    Qed.

    (** A vector of no segments throws, every other call returns; the three functions return the turns, their absolute
        values, and both. *)
    Theorem C86_calls r segments azimuths :
      (segments <> [] \/ r = false ->
       segments_directions P rnd az r segments azimuths = Ok (dirs P rnd az segments azimuths)
       /\ segments_absolute_directions P rnd az r segments azimuths = Ok (map Qabs (dirs P rnd az segments azimuths))
       /\ segments_combined_directions P rnd az r segments azimuths
          = Ok (dirs P rnd az segments azimuths, map Qabs (dirs P rnd az segments azimuths)))
      /\ (segments = [] -> r = true ->
          (exists x, segments_directions P rnd az r segments azimuths = Throw x)
          /\ (exists x, segments_absolute_directions P rnd az r segments azimuths = Throw x)
          /\ exists x, segments_combined_directions P rnd az r segments azimuths = Throw x).
    Proof.
      unfold segments_directions, segments_absolute_directions, segments_combined_directions, reserved. split.
      - intros H. destruct segments; [|auto]. destruct H as [H | ->]; [congruence|auto].
      - intros -> ->. repeat split; eexists; reflexivity.
    Qed.

    (** Every turn is at most half a circle. *)
    Theorem C86_turns segments : rounding rnd -> connected segments ->
      Forall azimuth (dirs P rnd az segments []).
    Proof.
      intros R _. cbn. induction segments as [|a [|b l] IH]; [constructor | constructor |].
      constructor; [|exact IH]. apply (C35_angle_diff rnd R); apply az_range.
    Qed.
  End Rounded.

  (** *** With exact numbers *)
  Notation exact := (fun x : Q => x).

  Lemma exact_rounding : rounding exact.
  Proof. constructor; intros; try assumption; try reflexivity. Qed.

  Lemma rsum_sum l : rsum exact l == sumQ l.
  Proof.
    unfold rsum. assert (G : forall s, fold_left (fun s d => s + d) l s == s + sumQ l).
    { induction l as [|x l IH]; intros s; cbn; [ring|]. rewrite IH. ring. }
    rewrite G. ring.
  Qed.

  Lemma direction_range a b c : azimuth (direction P exact az a b c).
  Proof. apply (C35_angle_diff _ exact_rounding); apply az_range. Qed.

  Lemma seg_dirs_cons a b c line :
    dirs P exact az (segments_of (a :: b :: c :: line)) []
    = direction P exact az a b c :: dirs P exact az (segments_of (b :: c :: line)) [].
  Proof. reflexivity. Qed.

  (** The turns left and right together are at most the absolute ones, and these at most half a circle per turn. *)
  Theorem C86_bounds line :
    Qabs (directions P exact az line) <= absolute_directions P exact az line
    /\ absolute_directions P exact az line <= 180 * inject_Z (Z.of_nat (length line - 2)).
  Proof.
    destruct (C86_line exact line) as (H1 & H2 & _). rewrite H1, H2, !rsum_sum. clear H1 H2.
    induction line as [|a line IH]; [vm_compute; split; discriminate|].
    destruct line as [|b [|c line]]; [vm_compute; split; discriminate | vm_compute; split; discriminate |].
    rewrite seg_dirs_cons. cbn [sumQ map].
    pose proof (direction_range a b c) as [R1 R2]. set (d := direction P exact az a b c) in *.
    set (l := dirs P exact az (segments_of (b :: c :: line)) []) in *. destruct IH as [I1 I2]. split.
    - pose proof (Qabs_triangle d (sumQ l)). lra.
    - cbn [length Nat.sub] in I2 |- *. rewrite Nat.sub_0_r in I2. rewrite Nat2Z.inj_succ. unfold Z.succ.
      rewrite inject_Z_plus. change (inject_Z 1) with 1.
      assert (Qabs d <= 180) by (apply Qabs_Qle_condition; lra). lra.
  Qed.

  Lemma last_default (l : list P) d d' : l <> [] -> last l d = last l d'.
  Proof. induction l as [|x [|y l] IH]; intros H; [congruence | reflexivity | apply IH; discriminate]. Qed.

  (** The turns of a line add up to the angle between its first and its last segment, up to full circles. *)
  Theorem C86_total a b line y z : last (a :: b :: line) a = z -> last (removelast (a :: b :: line)) a = y ->
    exists k : Z, directions P exact az (a :: b :: line) == az a b - az y z + 360 * inject_Z k.
  Proof.
    destruct (C86_line exact (a :: b :: line)) as (H1 & _). intros Z' Y'.
    cut (exists k : Z, sumQ (dirs P exact az (segments_of (a :: b :: line)) []) == az a b - az y z + 360 * inject_Z k).
    { intros (k & E). exists k. rewrite H1, rsum_sum. exact E. }
    clear H1. revert a b Z' Y'. induction line as [|c line IH]; intros a b Z' Y'.
    - cbn in Z', Y'. subst. exists 0%Z. cbn. ring.
    - destruct (IH b c) as (k & E).
      { rewrite <- Z'. apply (last_default (c :: line) b a). discriminate. }
      { rewrite <- Y'. apply (last_default (b :: removelast (c :: line)) b a). discriminate. }
      destruct (C35_angle_diff _ exact_rounding (az a b) (az b c) (az_range a b) (az_range b c)) as (_ & (j & _ & Ej) & _).
      exists (j + k)%Z. rewrite seg_dirs_cons. cbn [sumQ]. rewrite E. unfold direction. rewrite Ej.
      rewrite inject_Z_plus. ring.
  Qed.

  (** *** Walking back turns by the same angles, if no two neighbouring points are the same. *)
  Hypothesis az_back : forall a b, a <> b -> exists k : Z, az b a == az a b + 180 + 360 * inject_Z k.

  Lemma same_turn x y k : azimuth x -> azimuth y -> x == y + 360 * inject_Z k -> Qabs x == Qabs y.
  Proof.
    intros [X1 X2] [Y1 Y2] E.
    assert (H : (k = 0 \/ k = 1 \/ k = -1)%Z).
    { assert (A : (-2 < k)%Z). { rewrite Zlt_Qlt. change (inject_Z (-2)) with (-2). lra. }
      assert (B : (k < 2)%Z). { rewrite Zlt_Qlt. change (inject_Z 2) with 2. lra. } lia. }
    destruct H as [-> | [-> | ->]].
    - change (inject_Z 0) with 0 in E. apply Qabs_wd. lra.
    - change (inject_Z 1) with 1 in E. assert (x == 180) by lra. assert (y == -180) by lra.
      rewrite (Qabs_wd _ _ H), (Qabs_wd _ _ H0). reflexivity.
    - change (inject_Z (-1)) with (-1) in E. assert (x == -180) by lra. assert (y == 180) by lra.
      rewrite (Qabs_wd _ _ H), (Qabs_wd _ _ H0). reflexivity.
  Qed.

  Lemma direction_back a b c : a <> b -> b <> c -> Qabs (direction P exact az c b a) == Qabs (direction P exact az a b c).
  Proof.
    intros Nab Nbc. rewrite <- (Qabs_opp (direction P exact az a b c)). unfold direction.
    destruct (C35_angle_diff _ exact_rounding (az a b) (az b c) (az_range a b) (az_range b c)) as (R1 & (j & _ & Ej) & _).
    destruct (C35_angle_diff _ exact_rounding (az c b) (az b a) (az_range c b) (az_range b a)) as (R2 & (i & _ & Ei) & _).
    destruct (az_back b c Nbc) as (k & Ek). destruct (az_back a b Nab) as (l & El).
    apply (same_turn _ _ (i + j + k - l)); [exact R2 | destruct R1; split; lra |].
    rewrite Ei, Ej, Ek, El. unfold Z.sub. rewrite !inject_Z_plus, inject_Z_opp. ring.
  Qed.

  Fixpoint abs_sum (line : list P) : Q :=
    match line with
    | a :: ((b :: c :: _) as rest) => Qabs (direction P exact az a b c) + abs_sum rest
    | _ => 0
    end.
  Lemma abs_sum_spec line : absolute_directions P exact az line == abs_sum line.
  Proof.
    destruct (C86_line exact line) as (_ & -> & _). rewrite rsum_sum.
    induction line as [|a [|b [|c line]] IH]; try reflexivity.
    rewrite seg_dirs_cons. cbn [map sumQ abs_sum] in *. rewrite IH. reflexivity.
  Qed.
  Lemma abs_sum_app line a b c :
    abs_sum (line ++ [a; b; c]) == abs_sum (line ++ [a; b]) + Qabs (direction P exact az a b c).
  Proof.
    induction line as [|x [|y [|z line]] IH]; cbn [app abs_sum] in *; try (rewrite IH; ring); try ring.
  Qed.

  Theorem C86_reverse line : (forall s, In s (segments_of line) -> fst s <> snd s) ->
    absolute_directions P exact az (rev line) == absolute_directions P exact az line.
  Proof.
    rewrite !abs_sum_spec. induction line as [|a line IH]; intros N; [reflexivity|].
    destruct line as [|b [|c line]]; [reflexivity | reflexivity |].
    assert (E : rev (a :: b :: c :: line) = rev line ++ [c; b; a]).
    { cbn. rewrite <- !app_assoc. reflexivity. }
    rewrite E, abs_sum_app, direction_back;
      [| apply (N (a, b)); left; reflexivity | apply (N (b, c)); right; left; reflexivity].
    assert (E2 : rev line ++ [c; b] = rev (b :: c :: line)).
    { cbn. rewrite <- !app_assoc. reflexivity. }
    rewrite E2, IH; [cbn [abs_sum]; ring|]. intros s I. apply N. right. exact I.
  Qed.

  (** *** Lengths.  On the plane the length of a line is the sum of the lengths of its segments; on the sphere the sum is
      a thousand times the length, which is in kilometres whereas the segments are in metres. *)
  Variable ud : P -> P -> Q.
  Theorem C86_length spherical line :
    sumQ (segments_lengths P ud spherical (segments_of line))
    == (if spherical then 1000 else 1) * line_length P ud spherical line.
  Proof.
    induction line as [|a line IH]; [destruct spherical; cbn; ring|].
    destruct line as [|b line]; [destruct spherical; cbn; ring|].
    change (segments_of (a :: b :: line)) with ((a, b) :: segments_of (b :: line)).
    cbn [segments_lengths map sumQ]. fold (segments_lengths P ud spherical (segments_of (b :: line))). rewrite IH.
    unfold line_length, length_segment, distance. cbn [fst snd].
    change (unit_length P ud (a :: b :: line)) with (ud a b + unit_length P ud (b :: line)).
    destruct spherical; ring.
  Qed.

  (** So on the sphere the two agree only for lines without length. *)
  Theorem C86_length_refuted a b : 0 < ud a b ->
    ~ line_length P ud true [a; b] == length_segment P ud true (a, b)
    /\ line_length P ud false [a; b] == length_segment P ud false (a, b).
  Proof. intros H. unfold line_length, length_segment, distance. cbn. split; intros; lra. Qed.

  (** The azimuth of a line looks at its two ends only. *)
  Theorem C86_azimuth_line line :
    (forall a z, length line >= 2 -> hd_error line = Some a -> last line a = z -> azimuth_line P az line = az a z)%nat
    /\ ((length line < 2)%nat -> azimuth_line P az line = 0).
  Proof.
    split.
    - intros a z L H1 H2. destruct line as [|x [|y line]]; cbn in L; try lia. injection H1 as ->.
      unfold azimuth_line. rewrite H2. reflexivity.
    - intros L. destruct line as [|x [|y line]]; cbn in L; try lia; reflexivity.
  Qed.
End C86.

(** *** Segments that are not connected, which only a debug build refuses: the turn depends on whether the azimuths are
    handed over. *)
Definition az_ex (a b : Z * Z) : Q :=
  let dx := (fst b - fst a)%Z in let dy := (snd b - snd a)%Z in
  if (dx =? 0)%Z then (if (dy <? 0)%Z then 180 else 0) else if (dx >? 0)%Z then 90 else -90.
Theorem C86_disconnected_refuted : exists segments,
  ~ connected segments
  /\ ~ Forall2 Qeq (dirs (Z * Z) (fun x => x) az_ex segments [])
                   (dirs (Z * Z) (fun x => x) az_ex segments (segments_azimuths (Z * Z) az_ex segments)).
Proof.
  exists [((0, 0), (0, 5)); ((3, 5), (3, 9))]%Z. split; [cbn; intros [H _]; discriminate H|].
  vm_compute. intros H. inversion H as [|? ? ? ? E]. discriminate E.
Qed.

(** With the same point twice the way back may turn where the way forth does not. *)
Theorem C86_reverse_refuted : exists line,
  absolute_directions (Z * Z) (fun x => x) az_ex line == 0
  /\ absolute_directions (Z * Z) (fun x => x) az_ex (rev line) == 180.
Proof. exists [(0, 0); (0, 0); (0, 5)]%Z. split; reflexivity. Qed.

(** The number of azimuths decides, not the number of segments. *)
Theorem C86_azimuths_count_refuted : exists segments azimuths,
  length (dirs (Z * Z) (fun x => x) az_ex segments azimuths) <> (length segments - 1)%nat.
Proof. exists [((0, 0), (0, 5))]%Z, [10; 20; 30]. vm_compute. discriminate. Qed.

(** *** Examples: a staircase of four points *)
Example ex_measures_line :
  directions (Z * Z) (fun x => x) az_ex [(0, 0); (0, 5); (3, 5); (3, 9)]%Z == 0
  /\ absolute_directions (Z * Z) (fun x => x) az_ex [(0, 0); (0, 5); (3, 5); (3, 9)]%Z == 180
  /\ directions (Z * Z) (fun x => x) az_ex [(0, 0); (0, 5); (-3, 5); (-3, 2)]%Z == 180.
Proof. repeat split. Qed.
Example ex_az_range : forall a b, azimuth (az_ex a b).
Proof.
  intros a b. unfold azimuth, az_ex. destruct (_ =? 0)%Z; [destruct (_ <? 0)%Z | destruct (_ >? 0)%Z]; split; lra.
Qed.
(** On the points of one axis the azimuth back is the opposite one. *)
Definition az_line (a b : Z) : Q := if (a <=? b)%Z then 90 else -90.
Example ex_az_back : forall a b, (a <> b)%Z -> exists k : Z, az_line b a == az_line a b + 180 + 360 * inject_Z k.
Proof.
  intros a b H. unfold az_line. destruct (Z.leb_spec a b), (Z.leb_spec b a); try lia.
  - exists (-1)%Z. reflexivity.
  - exists 0%Z. reflexivity.
Qed.
Example ex_measures_connected : connected (segments_of [(0, 0); (0, 5); (3, 5); (3, 9)]%Z).
Proof. cbn. auto. Qed.
Example ex_measures_calls :
  segments_directions (Z * Z) (fun x => x) az_ex true [] [] = Throw []
  /\ segments_directions (Z * Z) (fun x => x) az_ex false [] [] = Ok [].
Proof. split; reflexivity. Qed.
Example ex_measures_length :
  line_length Z (fun a b => inject_Z (Z.abs (b - a))) true [0; 2; 5]%Z == 31855
  /\ sumQ (segments_lengths Z (fun a b => inject_Z (Z.abs (b - a))) true (segments_of [0; 2; 5]%Z)) == 31855000.
Proof. split; reflexivity. Qed.

Print Assumptions C86_line.
Print Assumptions C86_segments.
Print Assumptions C86_calls.
Print Assumptions C86_turns.
Print Assumptions C86_bounds.
Print Assumptions C86_total.
Print Assumptions C86_reverse.
Print Assumptions C86_reverse_refuted.
Print Assumptions C86_length.
Print Assumptions C86_length_refuted.
Print Assumptions C86_azimuth_line.
Print Assumptions C86_disconnected_refuted.
Print Assumptions C86_azimuths_count_refuted.
