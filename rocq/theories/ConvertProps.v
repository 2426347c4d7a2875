(** C43: conversions of lines and the reversal test. *)
From Coq Require Import ZArith.
From Verif Require Import Base ListAux Convert.
Local Open Scope nat_scope.

Section C43.
  Context {P : Type}.

  Lemma mapO_nth {B C} (f : B -> outcome C) (g : B -> C) : forall l, (forall x, In x l -> f x = Ok (g x)) -> mapO f l = Ok (map g l).
  Proof.
    induction l as [|x l IH]; intros H; [reflexivity|]. cbn [mapO map]. rewrite (H x) by (left; reflexivity). cbn [bindO].
    rewrite IH by (intros; apply H; right; assumption). reflexivity.
  Qed.

  (** **** C43: splitting gives the consecutive pairs of points *)
  Theorem C43_split (line : list P) : exists segs, line2segments line = Ok segs /\ length segs = length line - 1
    /\ forall i s, nth_error segs i = Some s <-> nth_error line i = Some (fst s) /\ nth_error line (i + 1) = Some (snd s).
  Proof.
    unfold line2segments. destruct (Nat.leb_spec 2 (length line)) as [G|G].
    - destruct line as [|p line]; [cbn in G; lia|]. set (l := p :: line) in *.
      exists (map (fun i => (nth i l p, nth (i + 1) l p)) (seq 0 (length l - 1))).
      assert (N : forall i, i < length l -> nth_error l i = Some (nth i l p)) by (intros; apply nth_error_nth'; assumption).
      split; [|split].
      + apply mapO_nth. intros i Hi. apply in_seq in Hi. rewrite !N by lia. reflexivity.
      + rewrite map_length, seq_length. reflexivity.
      + intros i s. rewrite nth_error_map. destruct (Nat.ltb_spec i (length l - 1)) as [Hi|Hi].
        * rewrite (nth_error_nth' (seq 0 (length l - 1)) 0) by (rewrite seq_length; exact Hi). rewrite seq_nth by exact Hi. cbn [option_map Nat.add].
          rewrite !N by lia. destruct s as [a b]. cbn [fst snd]. split; [intros E; injection E as <- <-; auto|intros [E1 E2]; congruence].
        * assert (E : nth_error (seq 0 (length l - 1)) i = None) by (apply nth_error_None; rewrite seq_length; exact Hi). rewrite E. cbn.
          split; [discriminate|]. intros [_ E2]. assert (i + 1 < length l) by (apply nth_error_Some; congruence). lia.
    - exists []. split; [reflexivity|]. split; [cbn; lia|]. intros i s. split; [destruct i; discriminate|].
      intros [_ E2]. assert (i + 1 < length line) by (apply nth_error_Some; congruence). lia.
  Qed.

  Lemma join_app (segs : list (P * P)) : forall line, line <> [] ->
    fold_left (fun line s => (match line with [] => [fst s] | _ => line end) ++ [snd s]) segs line = line ++ map snd segs.
  Proof.
    induction segs as [|s segs IH]; intros line Ne; [cbn; rewrite app_nil_r; reflexivity|]. cbn [fold_left].
    destruct line as [|p line]; [congruence|]. rewrite IH by (intros E; apply app_eq_nil in E as [_ E]; discriminate).
    cbn [map]. rewrite <- app_assoc. reflexivity.
  Qed.
  Lemma join_eq (segs : list (P * P)) : segments2line segs = match segs with [] => [] | s :: r => fst s :: snd s :: map snd r end.
  Proof. unfold segments2line. destruct segs as [|s r]; [reflexivity|]. cbn [fold_left]. rewrite join_app by discriminate. reflexivity. Qed.

  Lemma list_ext (l m : list P) : (forall i, nth_error l i = nth_error m i) -> l = m.
  Proof.
    revert m. induction l as [|x l IH]; intros [|y m] H; [reflexivity|specialize (H 0); discriminate|specialize (H 0); discriminate|].
    pose proof (H 0) as H0. cbn in H0. injection H0 as ->. f_equal. apply IH. intros i. exact (H (S i)).
  Qed.
  Lemma nth_error_ext2 {T} (l m : list T) : (forall i x, nth_error l i = Some x <-> nth_error m i = Some x) -> l = m.
  Proof.
    revert m. induction l as [|x l IH]; intros [|y m] H; [reflexivity| | |].
    - specialize (proj2 (H 0 y) eq_refl). discriminate.
    - specialize (proj1 (H 0 x) eq_refl). discriminate.
    - pose proof (proj1 (H 0 x) eq_refl) as H0. cbn in H0. injection H0 as ->. f_equal. apply IH. intros i. exact (H (S i)).
  Qed.

  (** **** C43: a line with at least two points survives being split and joined *)
  Theorem C43_round_trip (line : list P) : 2 <= length line -> exists segs, line2segments line = Ok segs /\ segments2line segs = line.
  Proof.
    intros G. destruct (C43_split line) as (segs & E & Len & N). exists segs. split; [exact E|]. rewrite join_eq.
    destruct segs as [|s r]; [cbn in Len; lia|]. pose proof (proj1 (N 0 s) eq_refl) as [N0 N1].
    assert (M : forall i, nth_error (map snd (s :: r)) i = nth_error line (S i)).
    { intros i. rewrite nth_error_map. destruct (nth_error (s :: r) i) as [t|] eqn:Ei.
      - apply N in Ei as [_ Ei]. rewrite Nat.add_1_r in Ei. rewrite Ei. reflexivity.
      - apply nth_error_None in Ei. cbn [option_map]. symmetry. apply nth_error_None. cbn [length] in *. lia. }
    change (snd s :: map snd r) with (map snd (s :: r)). apply list_ext. intros [|i]; [cbn; symmetry; exact N0|apply M].
  Qed.

  (** **** C43: and segments of which each begins where the one before ends survive being joined and split *)
  Theorem C43_join (segs : list (P * P)) : (forall i s t, nth_error segs i = Some s -> nth_error segs (i + 1) = Some t -> fst t = snd s) ->
    line2segments (segments2line segs) = Ok segs.
  Proof.
    intros C. destruct segs as [|s r]; [reflexivity|]. destruct (C43_split (segments2line (s :: r))) as (segs & E & Len & N). rewrite E. f_equal.
    rewrite join_eq in N, Len. change (fst s :: snd s :: map snd r) with (fst s :: map snd (s :: r)) in *. set (l := s :: r) in *.
    assert (F : forall i t, nth_error l i = Some t -> nth_error (fst s :: map snd l) i = Some (fst t)).
    { intros [|i] t Ht; [injection Ht as <-; reflexivity|]. cbn [nth_error]. rewrite nth_error_map.
      destruct (nth_error l i) as [u|] eqn:Eu; [|apply nth_error_None in Eu; assert (S i < length l) by (apply nth_error_Some; congruence); lia].
      cbn. rewrite (C i u t Eu) by (rewrite Nat.add_1_r; exact Ht). reflexivity. }
    apply nth_error_ext2. intros i t. rewrite N. rewrite Nat.add_1_r. change (nth_error (fst s :: map snd l) (S i)) with (nth_error (map snd l) i). rewrite nth_error_map.
    split.
    - intros [H1 H2]. destruct (nth_error l i) as [u|] eqn:Eu; [|discriminate]. cbn in H2. rewrite (F _ _ Eu) in H1. destruct u, t; cbn in *; congruence.
    - intros H. rewrite H, (F _ _ H). auto.
  Qed.

  (** **** C43: measurements keep the points and are numbered from zero *)
  Theorem C43_measurements (line : list P) : measurements2line snd (line2measurements line) = line
    /\ forall i m, nth_error (line2measurements line) i = Some m -> fst m = Z.of_nat i.
  Proof.
    assert (G : forall l n acc, snd (fold_left (fun st (p : P) => ((fst st + 1)%Z, snd st ++ [(fst st, p)])) l (n, acc)) = acc ++ combine (map (fun k => (n + Z.of_nat k)%Z) (seq 0 (length l))) l).
    { induction l as [|p l IH]; intros n acc; [cbn; rewrite app_nil_r; reflexivity|]. cbn [fold_left fst snd]. rewrite IH, <- app_assoc. f_equal. cbn [length seq map combine app]. f_equal; [f_equal; lia|].
      rewrite <- seq_shift, map_map. f_equal. apply map_ext. intros k. lia. }
    unfold line2measurements, measurements2line. rewrite G. cbn [app]. split.
    - generalize (fun k => (0 + Z.of_nat k)%Z). generalize 0. induction line as [|p l IH]; intros n g; [reflexivity|]. cbn. rewrite IH. reflexivity.
    - intros i m H. assert (K : forall (g : nat -> Z) (l : list P) n i m, nth_error (combine (map g (seq n (length l))) l) i = Some m -> fst m = g (n + i)).
      { induction l as [|p l IH]; intros n j x E; [destruct j; discriminate|]. destruct j as [|j]; [injection E as <-; cbn; f_equal; lia|].
        cbn [length seq map combine nth_error] in E. rewrite (IH _ _ _ E). f_equal. lia. }
      rewrite (K _ _ _ _ _ H). cbn. lia.
  Qed.

  (** **** C43: the reversal test *)
  Variable eqp : P -> P -> bool.

  Lemma reversed_loop_spec a b : length a = length b -> forall n i, i + n = length a -> 1 <= i ->
    exists r, reversed_loop eqp a b n i (Z.of_nat (length b) - 1 - Z.of_nat i) = Ok r
      /\ (r = true <-> forall k p q, i <= k -> nth_error a k = Some p -> nth_error b (length b - 1 - k) = Some q -> eqp p q = true).
  Proof.
    intros Len. induction n as [|n IH]; intros i Hi H1.
    - exists true. split; [reflexivity|]. split; [|reflexivity]. intros _ k p q Hk E _. assert (k < length a) by (apply nth_error_Some; congruence). lia.
    - cbn [reversed_loop]. assert (Ha : nth_error a i <> None) by (apply nth_error_Some; lia). destruct (nth_error a i) as [p|] eqn:Ep; [|congruence]. clear Ha.
      replace (Z.of_nat (length b) - 1 - Z.of_nat i <? 0)%Z with false by (symmetry; apply Z.ltb_ge; lia).
      replace (Z.to_nat (Z.of_nat (length b) - 1 - Z.of_nat i)) with (length b - 1 - i) by lia.
      assert (Hb : nth_error b (length b - 1 - i) <> None) by (apply nth_error_Some; lia). destruct (nth_error b (length b - 1 - i)) as [q|] eqn:Eq; [|congruence]. clear Hb.
      destruct (eqp p q) eqn:E.
      + destruct (IH (i + 1)) as (r & R & S); [lia|lia|]. exists r. replace (Z.of_nat (length b) - 1 - Z.of_nat i - 1)%Z with (Z.of_nat (length b) - 1 - Z.of_nat (i + 1))%Z by lia.
        split; [exact R|]. rewrite S. split.
        * intros H k p' q' Hk E1 E2. destruct (Nat.eq_dec k i) as [->|]; [congruence|]. apply (H k); auto. lia.
        * intros H k p' q' Hk. apply H. lia.
      + exists false. split; [reflexivity|]. split; [discriminate|]. intros H. rewrite (H i p q) in E; auto.
  Qed.
  Lemma last_nth (l : list P) d : l <> [] -> nth_error l (length l - 1) = Some (last l d).
  Proof.
    intros Ne. destruct (exists_last Ne) as (u & z & ->). rewrite last_last, app_length, nth_error_app2 by (cbn; lia).
    replace (length u + length [z] - 1 - length u) with 0 by (cbn; lia). reflexivity.
  Qed.

  Theorem C43_reversed a b : exists r, lines_are_reversed eqp a b = Ok r
    /\ (r = true <-> a <> [] /\ length a = length b
                     /\ forall i p q, nth_error a i = Some p -> nth_error b (length b - 1 - i) = Some q -> eqp p q = true).
  Proof.
    destruct a as [|a0 a'], b as [|b0 b'].
    1-3: exists false; split; [reflexivity|]; split; [discriminate|intros (N & L & _); cbn in L; congruence].
    set (a := a0 :: a') in *. set (b := b0 :: b') in *. change (lines_are_reversed eqp a b) with
      (if negb (length a =? length b) then Ok false else if negb (eqp a0 (last b b0) && eqp (last a a0) b0) then Ok false
       else reversed_loop eqp a b (length a - 1) 1 (Z.of_nat (length b) - 2)).
    destruct (Nat.eqb_spec (length a) (length b)) as [Len|Len]; cbn [negb]; [|exists false; split; [reflexivity|]; split; [discriminate|tauto]].
    pose proof (last_nth b b0 ltac:(discriminate)) as Lb. pose proof (last_nth a a0 ltac:(discriminate)) as La.
    destruct (eqp a0 (last b b0)) eqn:E1; cbn [andb negb].
    2:{ exists false. split; [reflexivity|]. split; [discriminate|]. intros (_ & _ & H). rewrite (H 0 a0 (last b b0)) in E1; [discriminate|reflexivity|].
        rewrite Nat.sub_0_r. exact Lb. }
    destruct (eqp (last a a0) b0) eqn:E2; cbn [andb negb].
    2:{ exists false. split; [reflexivity|]. split; [discriminate|]. intros (_ & _ & H). rewrite (H _ (last a a0) b0 La) in E2; [discriminate|].
        rewrite Len. replace (length b - 1 - (length b - 1)) with 0 by lia. reflexivity. }
    destruct (reversed_loop_spec a b Len (length a - 1) 1) as (r & R & So); [cbn; lia|lia|].
    replace (Z.of_nat (length b) - 1 - Z.of_nat 1)%Z with (Z.of_nat (length b) - 2)%Z in R by lia. exists r. split; [exact R|]. rewrite So. split.
    - intros H. split; [discriminate|]. split; [exact Len|]. intros i p q Ei Eq. destruct i as [|i]; [|apply (H (S i)); auto; lia].
      rewrite Nat.sub_0_r in Eq. rewrite Lb in Eq. injection Eq as <-. injection Ei as <-. exact E1.
    - intros (_ & _ & H) k p q _. apply H.
  Qed.
  (** with an equality that decides identity, this is list reversal *)
  Corollary C43_reversed_rev a b : (forall p q, eqp p q = true <-> p = q) -> a <> [] -> (lines_are_reversed eqp a b = Ok true <-> a = rev b).
  Proof.
    intros D Ne. destruct (C43_reversed a b) as (r & R & S). rewrite R.
    assert (X : r = true <-> a = rev b).
    { rewrite S. split.
      - intros (_ & Len & H). apply list_ext. intros i. destruct (Nat.ltb_spec i (length a)) as [Hi|Hi].
        + assert (Na : nth_error a i <> None) by (apply nth_error_Some; exact Hi). destruct (nth_error a i) as [p|] eqn:Ep; [|congruence].
          assert (Nb : nth_error b (length b - 1 - i) <> None) by (apply nth_error_Some; lia). destruct (nth_error b (length b - 1 - i)) as [q|] eqn:Eq; [|congruence].
          rewrite (proj1 (D p q) (H i p q Ep Eq)). symmetry. rewrite (nth_error_nth' (rev b) p) by (rewrite rev_length; lia). rewrite rev_nth by lia.
          f_equal. apply nth_error_nth. rewrite <- Eq. f_equal. lia.
        + assert (nth_error a i = None) as -> by (apply nth_error_None; exact Hi). symmetry. apply nth_error_None. rewrite rev_length. lia.
      - intros ->. rewrite rev_length. split; [exact Ne|]. split; [reflexivity|]. intros i p q Ep Eq. apply D.
        assert (Hi : i < length b) by (rewrite <- rev_length; apply nth_error_Some; congruence).
        rewrite (nth_error_nth' (rev b) p) in Ep by (rewrite rev_length; exact Hi). rewrite rev_nth in Ep by exact Hi. injection Ep as Ep.
        rewrite <- Ep. apply nth_error_nth. rewrite <- Eq. f_equal. lia. }
    split; [intros E; injection E as E; tauto|]. intros E. apply X in E. congruence.
  Qed.
End C43.

Example C43_demo : line2segments [1; 2; 3]%Z = Ok [(1, 2); (2, 3)]%Z /\ segments2line [(1, 2); (2, 3)]%Z = [1; 2; 3]%Z
  /\ lines_are_reversed Z.eqb [1; 2; 3]%Z [3; 2; 1]%Z = Ok true /\ lines_are_reversed Z.eqb [1; 2; 4; 3]%Z [3; 2; 4; 1]%Z = Ok false
  /\ lines_are_reversed Z.eqb [5]%Z [5]%Z = Ok true /\ line2measurements [7; 7]%Z = [(0, 7); (1, 7)]%Z.
Proof. vm_compute. auto 10. Qed.
(** What is not true: a line with a single point does not survive, and two empty lines are not reported as reversed. *)
Theorem C43_short_refuted : exists line : list Z, line <> [] /\ forall segs, line2segments line = Ok segs -> segments2line segs <> line.
Proof. exists [1%Z]. split; [discriminate|]. intros segs E. injection E as <-. discriminate. Qed.
Theorem C43_empty_refuted : exists a b : list Z, a = rev b /\ lines_are_reversed Z.eqb a b = Ok false.
Proof. exists [], []. split; reflexivity. Qed.

Print Assumptions C43_split.
Print Assumptions C43_round_trip.
Print Assumptions C43_join.
Print Assumptions C43_measurements.
Print Assumptions C43_reversed.
Print Assumptions C43_reversed_rev.
