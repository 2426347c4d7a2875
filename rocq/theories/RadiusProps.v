(** C45: the search radius. *)
From Coq Require Import QArith Qminmax Qround Lqa.
From Verif Require Import Base ListAux Radius.
Local Open Scope nat_scope.

Section C45.
  Context {E : Type}.
  Variable box : Q -> list E.
  Variable nearest : list E.
  Variable dist : E -> Q.
  Notation radius_loop := (radius_loop box dist).

  Lemma Qltb_lt a b : Qltb a b = true <-> (a < b)%Q.
  Proof.
    unfold Qltb. rewrite negb_true_iff. split; intros H.
    - destruct (Qlt_le_dec a b) as [L|L]; [exact L|]. apply Qle_bool_iff in L. congruence.
    - destruct (Qle_bool b a) eqn:L; [|reflexivity]. apply Qle_bool_iff in L. lra.
  Qed.
  Lemma Qltb_ge a b : Qltb a b = false <-> (b <= a)%Q.
  Proof. unfold Qltb. rewrite negb_false_iff. apply Qle_bool_iff. Qed.
  Lemma minQ_cases a b : (minQ a b = a /\ (a <= b)%Q) \/ (minQ a b = b /\ (b < a)%Q).
  Proof. unfold minQ. destruct (Qltb b a) eqn:H; [right; apply Qltb_lt in H|left; apply Qltb_ge in H]; auto. Qed.

  (** the radius of the first round *)
  Definition start (s : settings) : Q := clamp s (adaptive s) (radius s).
  (** the radius [n] doublings later *)
  Fixpoint doubled (n : nat) (c : Q) : Q := match n with 0 => c | S k => (2 * doubled k c)%Q end.

  Lemma doubled_inner n : forall c, (doubled n (c * 2) == 2 * doubled n c)%Q.
  Proof. induction n as [|n IH]; intros c; cbn [doubled]; [ring|]. rewrite IH. ring. Qed.
  Lemma doubled_pos n c : (0 < c)%Q -> (0 < doubled n c)%Q.
  Proof. intros H. induction n as [|n IH]; cbn [doubled]; lra. Qed.
  Lemma doubled_grows n c : (0 < c)%Q -> (inject_Z (Z.of_nat n) * c <= doubled n c)%Q.
  Proof.
    intros H. induction n as [|n IH]; [change (inject_Z (Z.of_nat 0)) with 0%Q; cbn [doubled]; lra|]. cbn [doubled].
    destruct n as [|n]; [change (inject_Z (Z.of_nat 1)) with 1%Q; cbn [doubled]; lra|]. remember (S n) as m eqn:Em.
    assert (Hm : (1 <= inject_Z (Z.of_nat m))%Q) by (subst; change 1%Q with (inject_Z 1); rewrite <- Zle_Qle; lia).
    rewrite Nat2Z.inj_succ. unfold Z.succ. rewrite inject_Z_plus. change (inject_Z 1) with 1%Q. nra.
  Qed.
  Lemma doubled_reaches c u : (0 < c)%Q -> exists n, (u <= doubled n c)%Q.
  Proof.
    intros H. exists (Z.to_nat (Qceiling (u / c))).
    destruct (Qlt_le_dec 0 u) as [Hu|Hu]; [|pose proof (doubled_pos (Z.to_nat (Qceiling (u / c))) c H); lra].
    apply Qle_trans with (2 := doubled_grows _ _ H).
    assert (Hd : (0 < u / c)%Q) by (apply Qlt_shift_div_l; lra).
    pose proof (Qle_ceiling (u / c)) as Hc.
    rewrite Z2Nat.id by (rewrite Zle_Qle; change (inject_Z 0) with 0%Q; lra).
    assert (X : (u == u / c * c)%Q) by (field; lra). rewrite X at 1. apply Qmult_le_compat_r; lra.
  Qed.

  (** more fuel does not change an answer *)
  Lemma loop_more s : forall fuel adapt c r x, radius_loop fuel s adapt c r = Ok x -> forall more, fuel <= more -> radius_loop more s adapt c r = Ok x.
  Proof.
    induction fuel as [|fuel IH]; intros adapt c r x H more Hm; [discriminate|]. destruct more as [|more]; [lia|].
    cbn [Radius.radius_loop] in *. destruct (queries s && _); [discriminate|]. destruct (filter _ _); [|exact H]. destruct (Qltb _ _); [|exact H]. apply (IH _ _ _ _ H). lia.
  Qed.

  Lemma not_refused s c : (0 < c)%Q -> queries s && Qle_bool c 0 = false.
  Proof. intros H. apply andb_false_iff. right. destruct (Qle_bool c 0) eqn:L; [|reflexivity]. apply Qle_bool_iff in L. lra. Qed.
  Lemma loop_ends s : forall n c r, (0 < c)%Q -> (0 < upper s)%Q \/ queries s = false -> (upper s <= doubled n c)%Q -> exists x, radius_loop (S n) s false c r = Ok x.
  Proof.
    intros n c r Hc Hq.
    assert (G : forall c, (0 < c)%Q -> queries s && Qle_bool (minQ c (upper s)) 0 = false).
    { intros d Hd. destruct Hq as [Hq|Hq]; [apply not_refused; destruct (minQ_cases d (upper s)) as [[-> ?]|[-> ?]]; lra|rewrite Hq; reflexivity]. }
    revert c r Hc. induction n as [|n IH]; intros c r Hc Hu; cbn [Radius.radius_loop]; unfold clamp; rewrite (G c Hc).
    - cbn [doubled] in Hu. assert (Ex : Qltb (minQ c (upper s)) (upper s) = false).
      { apply Qltb_ge. destruct (minQ_cases c (upper s)) as [[-> ?]|[-> ?]]; lra. }
      rewrite Ex. destruct (filter _ _); eauto.
    - destruct (filter _ _); [|eauto]. destruct (Qltb (minQ c (upper s)) (upper s)) eqn:L; [|eauto]. apply Qltb_lt in L.
      assert (Em : minQ c (upper s) = c) by (destruct (minQ_cases c (upper s)) as [[-> ?]|[-> ?]]; [reflexivity|exfalso; destruct (minQ_cases c (upper s)) as [[Ex ?]|[Ex ?]]; rewrite Ex in L; lra]).
      rewrite Em. apply IH; [lra|]. rewrite doubled_inner. exact Hu.
  Qed.

  (** **** C45: the loop ends, in all search modes and for all answers of the index, when the first radius is positive
      (or, without a question to the index, already at the upper limit). *)
  Theorem C45_terminates s r : (0 < start s)%Q \/ (search s <> Circle /\ upper s <= start s)%Q ->
    exists n x, forall fuel, n <= fuel -> radius_loop fuel s (adaptive s) (radius s) r = Ok x.
  Proof.
    intros H. enough (T : exists n x, radius_loop n s (adaptive s) (radius s) r = Ok x).
    { destruct T as (n & x & T). exists n, x. intros fuel Hf. apply (loop_more _ _ _ _ _ _ T). exact Hf. }
    destruct (Qlt_le_dec (start s) (upper s)) as [L|L].
    - assert (H0 : (0 < start s)%Q) by (destruct H as [H|[_ H]]; lra). assert (Hs : (0 < start s * 2)%Q) by lra. destruct (doubled_reaches (start s * 2) (upper s) Hs) as (n & Hn).
      exists (S (S n)). remember (S n) as m. cbn [Radius.radius_loop]. fold (start s). rewrite (not_refused s _ H0). destruct (filter _ _); [|eauto].
      assert (Hu : (0 < upper s)%Q) by lra. apply Qltb_lt in L. rewrite L. subst m. apply loop_ends; auto.
    - exists 1. cbn [Radius.radius_loop]. fold (start s).
      assert (G : queries s && Qle_bool (start s) 0 = false).
      { destruct H as [H|[H _]]; [apply not_refused; exact H|]. unfold queries. destruct (search s); [congruence|reflexivity..]. }
      rewrite G. apply Qltb_ge in L. rewrite L. destruct (filter _ _); eauto.
  Qed.
  (** **** C45: in CIRCLE mode a radius that is not positive cannot be searched at all *)
  Theorem C45_circle_throws s fuel r : search s = Circle -> (start s <= 0)%Q -> 0 < fuel ->
    radius_loop fuel s (adaptive s) (radius s) r = Throw (start s, r).
  Proof.
    intros Sm H Hf. destruct fuel as [|fuel]; [lia|]. cbn [Radius.radius_loop]. fold (start s). unfold queries at 1. rewrite Sm.
    apply Qle_bool_iff in H. rewrite H. reflexivity.
  Qed.
  (** sufficient for the first radius to be positive: positive settings and no repeated point without lower limit *)
  Theorem C45_start_positive s : (0 < radius s)%Q -> (0 < upper s)%Q ->
    (forall l, before s = Some l \/ after s = Some l -> (0 < l)%Q) \/ (0 < lower s)%Q -> (0 < start s)%Q.
  Proof.
    intros H1 H2 H3. unfold start, clamp.
    assert (M : forall a b, (0 < a)%Q -> (0 < b)%Q -> (0 < minQ a b)%Q) by (intros a b Ha Hb; destruct (minQ_cases a b) as [[-> ?]|[-> ?]]; lra).
    apply M; [|exact H2]. destruct (adaptive s); [|exact H1].
    destruct (Qltb _ (lower s)) eqn:L.
    - destruct H3 as [H3|H3]; [|exact H3]. apply Qltb_lt in L. eapply Qlt_trans; [|exact L].
      unfold min_opt. destruct (before s) as [b|] eqn:B, (after s) as [a|] eqn:A; repeat apply M; auto.
    - destruct H3 as [H3|H3]; [|apply Qltb_ge in L; lra].
      unfold min_opt. destruct (before s) as [b|] eqn:B, (after s) as [a|] eqn:A; repeat apply M; auto.
  Qed.

  (** **** C45: in CIRCLE mode the result is everything within the final radius; the final radius is reached from the
      first one by doublings (cut at the upper limit), only past radii without any edge, and it is the upper limit
      if nothing has been found. *)
  Section Circle.
    Variable indexed : E -> Prop.
    Hypothesis box_contains : forall r e, (0 < r)%Q -> indexed e -> (dist e <= r)%Q -> In e (box r).
    Hypothesis box_indexed : forall r e, In e (box r) -> indexed e.

    Lemma kept_spec c e : (0 < c)%Q -> In e (filter (fun e => negb (Qltb c (dist e))) (box c)) <-> indexed e /\ (dist e <= c)%Q.
    Proof.
      intros Hc. rewrite filter_In, negb_true_iff, Qltb_ge. split; [intros [H1 H2]; split; [apply (box_indexed c); exact H1|exact H2]|].
      intros [H1 H2]. split; [apply box_contains; assumption|exact H2].
    Qed.
    Lemma circle_loop s : search s = Circle -> forall fuel adapt c0 r c kept,
      (0 < clamp s adapt c0)%Q ->
      radius_loop fuel s adapt c0 r = Ok (c, kept) ->
      exists k, (c == Qmin (doubled k (clamp s adapt c0)) (upper s))%Q
        /\ (forall e, In e kept <-> indexed e /\ (dist e <= c)%Q)
        /\ (kept <> [] \/ (c == upper s)%Q)
        /\ (forall j e, j < k -> indexed e -> (doubled j (clamp s adapt c0) < dist e)%Q).
    Proof.
      intros Sm. induction fuel as [|fuel IH]; intros adapt c0 r c kept Hst H; [discriminate|]. cbn [Radius.radius_loop] in H.
      rewrite (not_refused s _ Hst) in H.
      unfold queries in H. rewrite Sm in H. set (c1 := clamp s adapt c0) in *.
      assert (Le : (c1 <= upper s)%Q).
      { unfold c1, clamp. match goal with |- (minQ ?a ?b <= _)%Q => destruct (minQ_cases a b) as [[-> ?]|[-> ?]]; lra end. }
      destruct (filter (fun e => negb (Qltb c1 (dist e))) (box c1)) as [|e0 rest] eqn:F.
      - assert (None1 : forall e, indexed e -> (c1 < dist e)%Q).
        { intros e He. destruct (Qlt_le_dec c1 (dist e)) as [L|L]; [exact L|]. exfalso.
          assert (X : In e []) by (rewrite <- F; apply (kept_spec _ _ Hst); auto). exact X. }
        destruct (Qltb c1 (upper s)) eqn:L.
        + apply Qltb_lt in L. pose proof Hst as P1.
          assert (Cl : clamp s false (c1 * 2) = minQ (c1 * 2) (upper s)) by reflexivity.
          assert (P2 : (0 < clamp s false (c1 * 2))%Q) by (rewrite Cl; destruct (minQ_cases (c1 * 2) (upper s)) as [[-> ?]|[-> ?]]; lra).
          destruct (IH false (c1 * 2)%Q [] c kept) as (k & K1 & K2 & K3 & K4); [exact P2|exact H|].
          rewrite Cl in K1, K4. destruct (minQ_cases (c1 * 2) (upper s)) as [[Em Hm]|[Em Hm]]; rewrite Em in K1, K4.
          * exists (S k). split; [|split; [exact K2|split; [exact K3|]]].
            -- cbn [doubled]. rewrite <- doubled_inner. exact K1.
            -- intros [|j] e Hj He; [apply None1; exact He|]. specialize (K4 j e ltac:(lia) He). cbn [doubled]. rewrite <- doubled_inner. exact K4.
          * (* the limit lies below the next doubling *)
            exists 1. assert (Cu : (c == upper s)%Q).
            { rewrite K1. apply Q.min_r. assert (G : forall k', (upper s <= doubled k' (upper s))%Q) by (induction k'; cbn [doubled]; lra). apply G. }
            split; [|split; [exact K2|split; [exact K3|]]].
            -- cbn [doubled]. rewrite Cu. symmetry. apply Q.min_r. lra.
            -- intros j e Hj He. replace j with 0 by lia. apply None1. exact He.
        + injection H as <- <-. apply Qltb_ge in L. exists 0. split; [|split; [|split]].
          * cbn [doubled]. symmetry. apply Q.min_l. exact Le.
          * intros e. rewrite <- (kept_spec _ _ Hst), F. reflexivity.
          * right. lra.
          * intros j e Hj. lia.
      - injection H as <- <-. exists 0. split; [|split; [|split]].
        + cbn [doubled]. symmetry. apply Q.min_l. exact Le.
        + intros e. rewrite <- (kept_spec _ _ Hst), F. reflexivity.
        + left. discriminate.
        + intros j e Hj. lia.
    Qed.

    Theorem C45_circle s fuel c kept : search s = Circle -> (0 < start s)%Q ->
      radius_loop fuel s (adaptive s) (radius s) [] = Ok (c, kept) ->
      exists k, (c == Qmin (doubled k (start s)) (upper s))%Q
        /\ (forall e, In e kept <-> indexed e /\ (dist e <= c)%Q)
        /\ (kept <> [] \/ (c == upper s)%Q)
        /\ (forall j e, j < k -> indexed e -> (doubled j (start s) < dist e)%Q).
    Proof. intros Sm Hs H. eapply circle_loop; eauto. Qed.

    (** hence a point without candidates is farther from every edge than the upper limit *)
    Corollary C45_none s fuel : search s = Circle -> (0 < start s)%Q ->
      forall l, search_edges box nearest dist fuel s = Ok l -> (l = [] <-> forall e, indexed e -> (upper s < dist e)%Q).
    Proof.
      intros Sm Hs l H. unfold search_edges in H. rewrite Sm in H.
      destruct (radius_loop fuel s (adaptive s) (radius s) []) as [[c kept]| | |] eqn:R; try discriminate. cbn in H. injection H as <-.
      destruct (C45_circle _ _ _ _ Sm Hs R) as (k & K1 & K2 & K3 & K4). split.
      - intros -> e He. destruct K3 as [K3|K3]; [congruence|]. rewrite <- K3. destruct (Qlt_le_dec c (dist e)) as [L|L]; [exact L|].
        exfalso. apply (K2 e). auto.
      - intros F. destruct kept as [|e r]; [reflexivity|]. destruct (proj1 (K2 e) (or_introl eq_refl)) as [I1 I2]. specialize (F e I1).
        assert ((c <= upper s)%Q) by (rewrite K1; apply Q.le_min_r). lra.
    Qed.
  End Circle.

  (** **** C45: in COMBINED mode the candidates are the nearest edges within the final radius, and the search ends as well. *)
  Theorem C45_combined s : search s = Combined -> forall fuel adapt c0 r c kept,
    radius_loop fuel s adapt c0 r = Ok (c, kept) -> (kept <> [] \/ (c == upper s)%Q) /\ forall e, In e kept -> In e r /\ (dist e <= c)%Q.
  Proof.
    intros Sm. induction fuel as [|fuel IH]; intros adapt c0 r c kept H; [discriminate|]. cbn [Radius.radius_loop] in H.
    unfold queries in H. rewrite Sm in H. cbn [andb] in H. set (c1 := clamp s adapt c0) in *.
    assert (Le : (c1 <= upper s)%Q).
    { unfold c1, clamp. match goal with |- (minQ ?a ?b <= _)%Q => destruct (minQ_cases a b) as [[-> ?]|[-> ?]]; lra end. }
    destruct (filter _ r) as [|e0 rest] eqn:F.
    - destruct (Qltb c1 (upper s)) eqn:L.
      + apply IH in H as [H1 H2]. split; [exact H1|]. intros e He. destruct (proj1 (H2 e He)).
      + injection H as <- <-. apply Qltb_ge in L. split; [right; lra|intros e []].
    - injection H as <- <-. split; [left; discriminate|]. intros e He. rewrite <- F in He. apply filter_In in He as [H1 H2].
      apply negb_true_iff, Qltb_ge in H2. auto.
  Qed.
End C45.

(** an instance: edges are given by their distances 7 and 30, the index returns those within the box *)
Definition demo_box (r : Q) : list Q := filter (fun d => Qle_bool d r) [7; 30]%Q.
Definition demo_settings (m : mode) : settings := mkSettings 1 1 100 true m (Some 3%Q) None.
Example C45_instance : (forall r e, (0 < r)%Q -> In e [7; 30]%Q -> (e <= r)%Q -> In e (demo_box r)) /\ (forall r e, In e (demo_box r) -> In e [7; 30]%Q).
Proof.
  split; intros r e; unfold demo_box; rewrite filter_In.
  - intros _ H1 H2. split; [exact H1|]. apply Qle_bool_iff. exact H2.
  - tauto.
Qed.
Example C45_demo : search_edges demo_box [] (fun d => d) 10 (demo_settings Circle) = Ok [7%Q] /\ (0 < start (demo_settings Circle))%Q.
Proof. split; vm_compute; reflexivity. Qed.

(** What is not true: in COMBINED mode enlarging the radius never finds anything, because the index is not asked again. *)
Theorem C45_combined_refuted : exists s (near : list Q), search s = Combined /\ (exists e, In e near /\ (e <= upper s)%Q)
  /\ forall fuel, 10 <= fuel -> search_edges demo_box near (fun d => d) fuel s = Ok [].
Proof.
  exists (demo_settings Combined), [7%Q]. split; [reflexivity|]. split; [exists 7%Q; split; [left; reflexivity|vm_compute; discriminate]|].
  intros fuel H. unfold search_edges. cbn [search demo_settings]. 
  rewrite (loop_more demo_box (fun d => d) _ 10 _ _ _ (100%Q, [])); [reflexivity| |exact H]. vm_compute. reflexivity.
Qed.
(** A radius of zero is doubled forever where the index is not asked. *)
Theorem C45_zero_radius_refuted : exists s near, search s = Combined /\ radius s = 0%Q /\ adaptive s = false /\ (0 < upper s)%Q
  /\ forall fuel, radius_loop demo_box (fun d => d) fuel s (adaptive s) (radius s) near = Fuel.
Proof.
  exists (mkSettings 0 0 100 false Combined None None), [7%Q]. do 4 (split; [reflexivity|]).
  cbn [radius adaptive]. destruct fuel as [|fuel]; [reflexivity|]. change (radius_loop demo_box (fun d => d) fuel (mkSettings 0 0 100 false Combined None None) false 0 [] = Fuel).
  induction fuel as [|fuel IH]; [reflexivity|]. exact IH.
Qed.
(** Two measurements at the same place and no lower limit: the search around them is left by an exception. *)
Example C45_demo_throws : search_edges demo_box [] (fun d => d) 10 (mkSettings 1 0 100 true Circle (Some 0%Q) None) = Throw [].
Proof. reflexivity. Qed.

Print Assumptions C45_circle_throws.
Print Assumptions C45_terminates.
Print Assumptions C45_start_positive.
Print Assumptions C45_circle.
Print Assumptions C45_none.
Print Assumptions C45_combined.
