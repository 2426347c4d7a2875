(** Lemmas about putting routes together, used in [AssembleProps.v]. *)
From Coq Require Import NArith.
From Verif Require Import Base ListAux RichLine Route RouteProofs RouteProps Assemble.

Section Proofs.
  Context {P : Type}.
  Variable eqp : P -> P -> bool.
  Hypothesis eqp_eq : forall a b, eqp a b = true <-> a = b.
  Variable opposite : P * P -> P * P -> bool.
  Notation dd := (dd eqp).
  Notation poly := (poly eqp).

  (** *** more fuel does not change a result *)
  Lemma run_mono step ls p : forall f f' pos, f <= f' -> run eqp step ls f pos p <> Fuel -> run eqp step ls f' pos p = run eqp step ls f pos p.
  Proof.
    induction f as [|f IH]; intros f' pos H N; [cbn in N; congruence|]. destruct f' as [|f']; [lia|]. cbn [run] in *. destruct (step pos) as [q|]; [|reflexivity].
    destruct (at_pos ls q) as [x|]; cbn [derefO] in *; [|reflexivity]. destruct (eqp x p); [|reflexivity]. apply IH; [lia|exact N].
  Qed.
  Lemma traverse_mono la lb : forall f f' a b res, f <= f' -> traverse eqp la lb f a b res <> Fuel -> traverse eqp la lb f' a b res = traverse eqp la lb f a b res.
  Proof.
    induction f as [|f IH]; intros f' a b res H N; [cbn in N; congruence|]. destruct f' as [|f']; [lia|]. cbn [traverse] in *.
    destruct (at_pos la a) as [pa|]; cbn [derefO] in *; [|reflexivity]. destruct (at_pos lb b) as [pb|]; cbn [derefO] in *; [|reflexivity].
    destruct (eqp pa pb); [|reflexivity].
    rewrite (run_mono _ la pa f f' a ltac:(lia)) by (intros E; rewrite E in N; cbn [bindO] in N; congruence).
    destruct (run eqp (prev_pos la) la f a pa) as [[s [a'|]]| | |]; cbn [bindO] in *; try reflexivity.
    rewrite (run_mono _ lb pb f f' b ltac:(lia)) by (intros E; rewrite E in N; cbn [bindO] in N; congruence).
    destruct (run eqp (next_pos lb) lb f b pb) as [[e [b'|]]| | |]; cbn [bindO] in *; try reflexivity.
    apply IH; [lia|exact N].
  Qed.
  Lemma find_mono f f' r o : f <= f' -> find_return_line eqp f r o <> Fuel -> find_return_line eqp f' r o = find_return_line eqp f r o.
  Proof.
    intros H N. unfold find_return_line in *. destruct (lines r) as [|r0 rl]; [reflexivity|]. destruct (lines o) as [|o0 ol]; [reflexivity|].
    destruct (negb (route_attaches eqp r o)); [reflexivity|]. destruct (skip_back (r0 :: rl) _) as [i|]; [|reflexivity]. destruct (skip_forward (o0 :: ol) 0) as [k|]; [|reflexivity].
    apply traverse_mono; assumption.
  Qed.
  Lemma trim_mono f f' r o : f <= f' -> trim_merge eqp opposite f r o <> Fuel -> trim_merge eqp opposite f' r o = trim_merge eqp opposite f r o.
  Proof.
    intros H N. unfold trim_merge in *. rewrite (find_mono f f' r o H); [reflexivity|]. intros E. rewrite E in N. apply N. reflexivity.
  Qed.

  (** *** leaving out ways there and back *)
  Inductive shorter : list P -> list P -> Prop :=
  | sh_same l : shorter l l
  | sh_spur X s R1 R2 Y l : dd (s :: R1) = rev (dd (R2 ++ [s])) -> shorter (dd (X ++ s :: Y)) l -> shorter (dd (X ++ s :: R1 ++ R2 ++ s :: Y)) l
  | sh_spike U w s z V l : opposite (w, s) (s, z) = true -> w <> s -> z <> s -> shorter (dd (U ++ [w; z] ++ V)) l -> shorter (dd (U ++ [w; s; z] ++ V)) l.
  Lemma shorter_trans a b c : shorter a b -> shorter b c -> shorter a c.
  Proof. intros H. induction H; intros K; [exact K|econstructor; eauto|econstructor 3; eauto]. Qed.
  Lemma shorter_context a b c : shorter a b -> shorter (dd (a ++ c)) (dd (b ++ c)).
  Proof.
    intros H. induction H as [l|X s R1 R2 Y l E H IH|U w s z V l O N1 N2 H IH].
    - constructor.
    - rewrite (dd_dd_app eqp eqp_eq) in *. rewrite <- !app_assoc in *. cbn [app] in *. rewrite <- !app_assoc in *. cbn [app] in *. constructor; assumption.
    - rewrite (dd_dd_app eqp eqp_eq) in *. rewrite <- !app_assoc in *. constructor 3; assumption.
  Qed.
  Lemma trim_shorter r o p m q fuel : invalid r = false -> invalid o = false -> lines r <> [] -> lines o <> [] -> path p (lines r) m -> path m (lines o) q ->
    length (concat (lines r)) + length (concat (lines o)) <= fuel ->
    exists t, trim_merge eqp opposite fuel r o = Ok t /\ invalid t = false /\ path p (lines t) q /\ shorter (poly p (lines r ++ lines o)) (poly p (lines t)).
  Proof.
    intros Ir Io Nr No Hr Ho Hf. destruct (trim_spec eqp eqp_eq opposite r o p m q fuel Ir Io Nr No Hr Ho Hf) as (X & s & R1 & R2 & Y & t & EX & EY & D & _ & T1 & T2 & T3 & T4).
    exists t. repeat (split; [assumption|]).
    assert (Hp : path p (lines r ++ lines o) q) by (apply path_app; eauto).
    rewrite (poly_concat eqp eqp_eq p _ q Hp) by (destruct (lines r); [congruence|discriminate]).
    rewrite concat_app, EX, EY, <- app_assoc. cbn [app]. constructor; [exact D|].
    destruct T4 as [->|(U & w & z & V & O & N1 & N2 & E & ->)]; [constructor|]. rewrite <- (dd_idem eqp eqp_eq (X ++ s :: Y)), E. constructor 3; auto. constructor.
  Qed.

  (** *** the three routes between two candidates *)
  Lemma merge_attached routes p q : routes <> [] -> (forall r, In r routes -> invalid r = false) -> path p (concat (map lines routes)) q ->
    exists t, caught (merge eqp routes false true) = Ok t /\ invalid t = false /\ path p (lines t) q /\ poly p (lines t) = poly p (concat (map lines routes)).
  Proof.
    intros N V H. destruct (C48_merge_attached (L := unit) eqp eqp_eq (fun _ _ => tt) opposite routes p q N V H) as (t & _ & T2 & T3 & T4 & T5). exists t. rewrite T2. auto.
  Qed.
  Lemma path_ne (p : P) l q : path p [l] q -> l <> [].
  Proof. intros H. inversion H. discriminate. Qed.
  Lemma trim_none fuel (r o : @route P) : lines r = [] \/ lines o = [] -> trim_merge eqp opposite fuel r o = Ok (flagged true).
  Proof.
    intros H. unfold trim_merge, find_return_line. destruct (lines r) as [|r0 rl]; [reflexivity|]. destruct (lines o) as [|o0 ol]; [reflexivity|]. destruct H; discriminate.
  Qed.
  Lemma three_spec turns s mid e p a b q : invalid mid = false -> path p [s] a -> path a (lines mid) b -> path b [e] q ->
    exists n t, (forall fuel, n <= fuel -> three eqp opposite fuel turns (of_lines [s]) mid (of_lines [e]) = Ok t) /\ invalid t = false /\ path p (lines t) q
      /\ (turns = false -> poly p (lines t) = dd (s ++ concat (lines mid) ++ e))
      /\ shorter (dd (s ++ concat (lines mid) ++ e)) (poly p (lines t)).
  Proof.
    intros Im Hs Hm He.
    assert (All : path p (concat (map lines [of_lines [s]; mid; of_lines [e]])) q).
    { cbn [map concat lines of_lines app]. change (s :: lines mid ++ [e]) with ([s] ++ lines mid ++ [e]). apply path_app. exists a. split; [exact Hs|]. apply path_app. eauto. }
    assert (Pa : poly p (concat (map lines [of_lines [s]; mid; of_lines [e]])) = dd (s ++ concat (lines mid) ++ e)).
    { rewrite (poly_concat eqp eqp_eq p _ q All) by (cbn; discriminate). cbn [map concat lines of_lines app]. rewrite concat_app. cbn [concat]. rewrite app_nil_r. reflexivity. }
    assert (Iv : forall r, In r [of_lines [s]; mid; of_lines [e]] -> invalid r = false).
    { intros r [<-|[<-|[<-|[]]]]; [reflexivity|exact Im|reflexivity]. }
    destruct (merge_attached [of_lines [s]; mid; of_lines [e]] p q ltac:(discriminate) Iv All) as (t0 & M1 & M2 & M3 & M4). rewrite Pa in M4.
    assert (Plain : forall fuel, turns = false \/ (trim_merge eqp opposite fuel (of_lines [s]) mid = Ok (flagged true) /\ trim_merge eqp opposite fuel mid (of_lines [e]) = Ok (flagged true)) ->
              three eqp opposite fuel turns (of_lines [s]) mid (of_lines [e]) = Ok t0).
    { intros fuel [->|[E1 E2]]; unfold three; [exact M1|]. destruct turns; [|exact M1]. rewrite E1. cbn [bindO invalid flagged negb]. rewrite E2. exact M1. }
    destruct turns; [|exists 0, t0; split; [intros; apply Plain; auto|]; rewrite M4; repeat split; auto; constructor].
    destruct (lines mid) as [|m0 ml] eqn:Lm.
    { exists 0, t0. split; [intros fuel _; apply Plain; right; split; apply trim_none; auto|]. rewrite M4. repeat split; auto. constructor. }
    rewrite <- Lm in *.
    set (n1 := length (concat [s]) + length (concat (lines mid))).
    destruct (trim_shorter (of_lines [s]) mid p a b n1 eq_refl Im ltac:(discriminate) ltac:(rewrite Lm; discriminate) Hs Hm ltac:(unfold n1; cbn [lines of_lines]; lia)) as (t1 & T1 & T2 & T3 & T4).
    assert (T1' : forall fuel, n1 <= fuel -> trim_merge eqp opposite fuel (of_lines [s]) mid = Ok t1) by (intros fuel Hf; rewrite (trim_mono n1 fuel); [exact T1|exact Hf|rewrite T1; discriminate]).
    assert (Sh1 : shorter (dd (s ++ concat (lines mid) ++ e)) (poly p (lines t1 ++ [e]))).
    { apply (shorter_context _ _ e) in T4. unfold RouteProofs.poly in T4 |- *. rewrite !(dd_dd_app eqp eqp_eq) in T4. rewrite concat_app in *. cbn [concat lines of_lines] in *. rewrite !app_nil_r in *.
      assert (E : dd (s ++ concat (lines mid) ++ e) = dd ((p :: s ++ concat (lines mid)) ++ e)).
      { inversion Hs; subst. cbn [app]. rewrite <- app_assoc, dd_cons, (proj2 (eqp_eq p p) eq_refl). reflexivity. }
      rewrite E. exact T4. }
    destruct (lines t1) as [|l1 ls1] eqn:L1.
    - destruct (merge_attached [t1; of_lines [e]] p q) as (t2 & Q1 & Q2 & Q3 & Q4); [discriminate|intros r [<-|[<-|[]]]; auto|cbn; rewrite L1; cbn; inversion T3; subst; exact He|].
      exists n1, t2. split; [|repeat split; auto; [discriminate|]].
      + intros fuel Hf. unfold three. rewrite (T1' fuel Hf). cbn [bindO]. rewrite T2. cbn [negb]. rewrite (trim_none fuel t1 (of_lines [e])) by auto. cbn [bindO invalid flagged negb]. exact Q1.
      + rewrite Q4. cbn [map concat lines of_lines]. rewrite L1. exact Sh1.
    - rewrite <- L1 in *. set (n2 := length (concat (lines t1)) + length (concat [e])).
      destruct (trim_shorter t1 (of_lines [e]) p b q n2 T2 eq_refl ltac:(rewrite L1; discriminate) ltac:(discriminate) T3 He ltac:(unfold n2; cbn [lines of_lines]; lia)) as (t2 & U1 & U2 & U3 & U4).
      exists (Nat.max n1 n2), t2. split; [|repeat split; auto; [discriminate|]].
      + intros fuel Hf. unfold three. rewrite (T1' fuel) by lia. cbn [bindO]. rewrite T2. cbn [negb]. rewrite (trim_mono n2 fuel) by (try lia; rewrite U1; discriminate). rewrite U1. cbn [bindO]. rewrite U2. reflexivity.
      + eapply shorter_trans; [exact Sh1|]. exact U4.
  Qed.

  (** a line from [p] to [q]; nowhere from [p], it may also be empty *)
  Definition leads (p : P) (l : list P) (q : P) : Prop := (l = [] /\ p = q) \/ path p [l] q.
  Lemma merge_blank_first r rs : invalid r = false -> merge eqp (of_lines [[]] :: r :: rs) false true = merge eqp (r :: rs) false true.
  Proof. intros I. unfold merge. cbn [forallb]. rewrite I. reflexivity. Qed.
  Lemma merge_blank_last r rs : invalid r = false -> merge eqp ((r :: rs) ++ [of_lines [[]]]) false true = merge eqp (r :: rs) false true.
  Proof.
    intros I. unfold merge. cbn [app forallb]. rewrite I. cbn [andb].
    assert (G : forall l acc, foldO (merge_one eqp false true) (l ++ [of_lines [[]]]) acc = foldO (merge_one eqp false true) l acc).
    { induction l as [|x l IH]; intros acc; [reflexivity|]. cbn [app foldO]. destruct (merge_one eqp false true acc x); cbn [bindO]; auto. }
    change (r :: rs ++ [of_lines [[]]]) with ((r :: rs) ++ [of_lines [[]]]). rewrite G. reflexivity.
  Qed.
  Lemma trim_blank fuel (r : @route P) : trim_merge eqp opposite fuel (of_lines [[]]) r = Ok (flagged true) /\ trim_merge eqp opposite fuel r (of_lines [[]]) = Ok (flagged true).
  Proof.
    unfold trim_merge, find_return_line. cbn [lines of_lines]. split.
    - destruct (lines r); [reflexivity|]. destruct (negb _); [reflexivity|]. reflexivity.
    - destruct (lines r) as [|l ls]; [reflexivity|]. destruct (negb _); [reflexivity|]. destruct (skip_back _ _); reflexivity.
  Qed.
  Lemma three_leads turns s mid e p a b q : invalid mid = false -> leads p s a -> path a (lines mid) b -> leads b e q ->
    exists n t, (forall fuel, n <= fuel -> three eqp opposite fuel turns (of_lines [s]) mid (of_lines [e]) = Ok t) /\ invalid t = false /\ path p (lines t) q
      /\ (turns = false -> poly p (lines t) = poly p ([s] ++ lines mid ++ [e]))
      /\ shorter (poly p ([s] ++ lines mid ++ [e])) (poly p (lines t)).
  Proof.
    intros Im [[-> <-]|Hs] Hm [[-> <-]|He].
    - assert (E : poly p ([[]] ++ lines mid ++ [[]]) = poly p (lines mid)) by (unfold RouteProofs.poly; rewrite !concat_app; cbn; rewrite app_nil_r; reflexivity). rewrite E.
      destruct (merge_attached [mid] p b) as (t & T1 & T2 & T3 & T4); [discriminate|intros r [<-|[]]; exact Im|cbn; rewrite app_nil_r; exact Hm|]. cbn [map concat] in T4. rewrite app_nil_r in T4.
      exists 0, t. split; [|rewrite T4; repeat split; auto; constructor]. intros fuel _. unfold three. destruct (trim_blank fuel mid) as [-> ->]. cbn [bindO invalid flagged negb].
      rewrite (merge_blank_first mid [of_lines [[]]] Im). pose proof (merge_blank_last mid [] Im) as MB. cbn [app] in MB. rewrite MB, T1. destruct turns; reflexivity.
    - assert (E : poly p ([[]] ++ lines mid ++ [e]) = poly p (lines mid ++ [e])) by (unfold RouteProofs.poly; rewrite !concat_app; reflexivity). rewrite E.
      destruct (merge_attached [mid; of_lines [e]] p q) as (t & T1 & T2 & T3 & T4); [discriminate|intros r [<-|[<-|[]]]; auto|cbn; apply path_app; eauto|]. cbn [map concat lines of_lines app] in T4.
      assert (Plain : forall fuel, turns = false \/ trim_merge eqp opposite fuel mid (of_lines [e]) = Ok (flagged true) -> three eqp opposite fuel turns (of_lines [[]]) mid (of_lines [e]) = Ok t).
      { intros fuel C. unfold three. destruct (trim_blank fuel mid) as [-> _]. cbn [bindO invalid flagged negb]. rewrite (merge_blank_first mid _ Im). destruct turns; [|exact T1]. destruct C as [C|C]; [discriminate|]. rewrite C. exact T1. }
      destruct turns; [|exists 0, t; split; [intros; apply Plain; auto|]; rewrite T4; repeat split; auto; constructor].
      destruct (lines mid) as [|m0 ml] eqn:Lm.
      { exists 0, t. split; [intros fuel _; apply Plain; right; apply trim_none; auto|]. rewrite T4. repeat split; auto. constructor. }
      rewrite <- Lm in *. set (n1 := length (concat (lines mid)) + length (concat [e])).
      destruct (trim_shorter mid (of_lines [e]) p b q n1 Im eq_refl ltac:(rewrite Lm; discriminate) ltac:(discriminate) Hm He ltac:(unfold n1; cbn [lines of_lines]; lia)) as (t1 & U1 & U2 & U3 & U4).
      destruct (merge_attached [t1] p q) as (t2 & Q1 & Q2 & Q3 & Q4); [discriminate|intros r [<-|[]]; exact U2|cbn; rewrite app_nil_r; exact U3|]. cbn [map concat] in Q4. rewrite app_nil_r in Q4.
      exists n1, t2. split; [|rewrite Q4; repeat split; auto; discriminate]. intros fuel Hf. unfold three. destruct (trim_blank fuel mid) as [-> _]. cbn [bindO invalid flagged negb].
      rewrite (trim_mono n1 fuel) by (try lia; rewrite U1; discriminate). rewrite U1. cbn [bindO]. rewrite U2. cbn [negb]. rewrite (merge_blank_first t1 [] U2). exact Q1.
    - assert (E : poly p ([s] ++ lines mid ++ [[]]) = poly p ([s] ++ lines mid)) by (unfold RouteProofs.poly; rewrite !concat_app; cbn; rewrite !app_nil_r; reflexivity). rewrite E.
      destruct (merge_attached [of_lines [s]; mid] p b) as (t & T1 & T2 & T3 & T4); [discriminate|intros r [<-|[<-|[]]]; auto|cbn; rewrite app_nil_r; apply (path_app p [s]); eauto|]. cbn [map concat lines of_lines app] in T4. rewrite app_nil_r in T4.
      assert (Plain : forall fuel, turns = false \/ trim_merge eqp opposite fuel (of_lines [s]) mid = Ok (flagged true) -> three eqp opposite fuel turns (of_lines [s]) mid (of_lines [[]]) = Ok t).
      { intros fuel C. unfold three. pose proof (merge_blank_last (of_lines [s]) [mid] eq_refl) as MB. cbn [app] in MB. rewrite MB. destruct turns; [|exact T1]. destruct C as [C|C]; [discriminate|]. rewrite C. cbn [bindO invalid flagged negb]. destruct (trim_blank fuel mid) as [_ ->]. exact T1. }
      destruct turns; [|exists 0, t; split; [intros; apply Plain; auto|]; cbn [app]; rewrite T4; repeat split; auto; constructor].
      destruct (lines mid) as [|m0 ml] eqn:Lm.
      { exists 0, t. split; [intros fuel _; apply Plain; right; apply trim_none; auto|]. cbn [app]. rewrite T4. repeat split; auto. constructor. }
      rewrite <- Lm in *. set (n1 := length (concat [s]) + length (concat (lines mid))).
      destruct (trim_shorter (of_lines [s]) mid p a b n1 eq_refl Im ltac:(discriminate) ltac:(rewrite Lm; discriminate) Hs Hm ltac:(unfold n1; cbn [lines of_lines]; lia)) as (t1 & U1 & U2 & U3 & U4).
      destruct (merge_attached [t1] p b) as (t2 & Q1 & Q2 & Q3 & Q4); [discriminate|intros r [<-|[]]; exact U2|cbn; rewrite app_nil_r; exact U3|]. cbn [map concat] in Q4. rewrite app_nil_r in Q4.
      exists n1, t2. split; [|rewrite Q4; repeat split; auto; discriminate]. intros fuel Hf. unfold three.
      rewrite (trim_mono n1 fuel) by (try lia; rewrite U1; discriminate). rewrite U1. cbn [bindO]. rewrite U2. cbn [negb]. destruct (trim_blank fuel t1) as [_ ->]. cbn [bindO invalid flagged negb]. pose proof (merge_blank_last t1 [] U2) as MB. cbn [app] in MB. rewrite MB. exact Q1.
    - destruct (three_spec turns s mid e p a b q Im Hs Hm He) as (n & t & T1 & T2 & T3 & T4 & T5). exists n, t. split; [exact T1|]. split; [exact T2|]. split; [exact T3|].
      assert (E : poly p ([s] ++ lines mid ++ [e]) = dd (s ++ concat (lines mid) ++ e)).
      { unfold RouteProofs.poly. rewrite !concat_app. cbn [concat]. rewrite !app_nil_r. inversion Hs; subst. cbn [app]. rewrite dd_cons, (proj2 (eqp_eq p p) eq_refl). reflexivity. }
      rewrite E. auto.
  Qed.

  (** *** joining inside of an edge *)
  Variable in_edges : P -> bool.
  (** points not of the network, at which the way does not turn back, left out *)
  Inductive thinner : list P -> list P -> Prop :=
  | th_same l : thinner l l
  | th_drop U w s z V l : in_edges s = false -> w <> s -> z <> s -> opposite (w, s) (s, z) = false ->
      thinner (dd (U ++ [w; z] ++ V)) l -> thinner (dd (U ++ [w; s; z] ++ V)) l.
  Lemma thinner_trans a b c : thinner a b -> thinner b c -> thinner a c.
  Proof. intros H. induction H; intros K; [exact K|econstructor; eauto]. Qed.
  Lemma thinner_context a b c : thinner a b -> thinner (dd (a ++ c)) (dd (b ++ c)).
  Proof.
    intros H. induction H as [l|U w s z V l I N1 N2 O H IH]; [constructor|].
    rewrite (dd_dd_app eqp eqp_eq) in *. rewrite <- !app_assoc in *. constructor; assumption.
  Qed.

  Lemma join_small a b keep : invalid a = false -> invalid b = false -> length (last (lines a) []) < 2 \/ length (hd [] (lines b)) < 2 -> join eqp opposite a b keep = (a, b).
  Proof.
    intros Ia Ib H. unfold join. rewrite Ia, Ib. cbn [orb]. destruct (lines a) as [|a0 al IHal] eqn:La using rev_ind; [reflexivity|]. clear IHal. rewrite rev_unit. destruct (lines b) as [|b0 bl]; [reflexivity|].
    rewrite last_last in H. cbn [hd] in H. destruct (Nat.ltb_spec (length a0) 2); [reflexivity|]. destruct (Nat.ltb_spec (length b0) 2); [reflexivity|]. lia.
  Qed.
  (** two routes one after the other are still so, and end where they did *)
  Lemma join_thinner a b p s q : invalid a = false -> invalid b = false -> path p (lines a) s -> path s (lines b) q -> in_edges s = false ->
    exists a1 b1 m, join eqp opposite a b true = (a1, b1) /\ invalid a1 = false /\ invalid b1 = false /\ path p (lines a1) m /\ path m (lines b1) q
      /\ thinner (poly p (lines a ++ lines b)) (poly p (lines a1 ++ lines b1)).
  Proof.
    intros Ia Ib Ha Hb Is.
    assert (Same : join eqp opposite a b true = (a, b) -> exists a1 b1 m, join eqp opposite a b true = (a1, b1) /\ invalid a1 = false /\ invalid b1 = false /\ path p (lines a1) m /\ path m (lines b1) q
      /\ thinner (poly p (lines a ++ lines b)) (poly p (lines a1 ++ lines b1))) by (intros E; exists a, b, s; repeat split; auto; constructor).
    destruct (le_lt_dec 2 (length (last (lines a) []))) as [G1|G1]; [|apply Same, join_small; auto].
    destruct (le_lt_dec 2 (length (hd [] (lines b)))) as [G2|G2]; [|apply Same, join_small; auto].
    destruct (lines a) as [|a0 al IHal] eqn:La using rev_ind; [cbn in G1; lia|]. clear IHal. rewrite last_last in G1.
    destruct (lines b) as [|b0 bl] eqn:Lb; [cbn in G2; lia|]. cbn [hd] in G2.
    pose proof Ha as Ha'. apply path_app in Ha'. destruct Ha' as (r & Ha1 & Ha2).
    destruct (@exists_last _ a0) as (a2 & s' & Ea0); [destruct a0; [cbn in G1; lia|discriminate]|]. destruct (@exists_last _ a2) as (u & w & Ea2); [destruct a2; [subst; cbn in G1; lia|discriminate]|].
    subst a0 a2. assert (s' = s) by (apply path_end in Ha2; destruct Ha2 as [_ Ha2]; rewrite last_last in Ha2; auto). subst s'.
    destruct b0 as [|s' [|z v]]; [cbn in G2; lia|cbn in G2; lia|]. assert (s' = s) by (inversion Hb; reflexivity). subst s'. clear G1 G2.
    assert (La' : lines a = al ++ [u ++ [w; s]]) by (rewrite La, <- app_assoc; reflexivity).
    destruct (C48_join eqp eqp_eq opposite a b al u w s z v bl true Ia Ib La' Lb) as [J1 J2].
    destruct (eqp w s) eqn:Ew; [apply eqp_eq in Ew|pose proof (proj1 (eqp_false eqp eqp_eq w s) Ew) as Nw].
    2: destruct (eqp z s) eqn:Ez; [apply eqp_eq in Ez|pose proof (proj1 (eqp_false eqp eqp_eq z s) Ez) as Nz].
    3: destruct (opposite (w, s) (s, z)) eqn:Op; [apply Same; auto|].
    all: rewrite J1 by auto; eexists _, _, z; split; [reflexivity|]; split; [reflexivity|]; split; [reflexivity|]; cbn [lines of_lines].
    all: assert (Hl : path p (al ++ [u ++ [w; z]]) z)
      by (apply path_app; exists r; split; [exact Ha1|]; change [w; z] with ([w] ++ [z]); rewrite app_assoc; apply path_one; apply path_inv in Ha2; destruct Ha2 as (t & E & _); destruct u; cbn in *; congruence).
    all: assert (Hr : path z (match v with [] => bl | _ :: _ => (z :: v) :: bl end) q)
      by (apply path_inv in Hb; destruct Hb as (t & E & H3); injection E as <-; destruct v as [|z' v]; [exact H3|]; econstructor; [|exact H3]; exact (last_indep z' v z s)).
    all: split; [exact Hl|]; split; [exact Hr|].
    all: assert (E1 : poly p ((al ++ [(u ++ [w]) ++ [s]]) ++ (s :: z :: v) :: bl) = dd ((p :: concat al ++ u) ++ [w; s; z] ++ v ++ concat bl))
      by (unfold RouteProofs.poly; rewrite !concat_app; cbn [concat app]; rewrite app_nil_r, <- !app_assoc; cbn [app];
          pose proof (dd_twice eqp eqp_eq (p :: concat al ++ u ++ [w]) s (z :: v ++ concat bl)) as T; cbn [app] in T; rewrite <- !app_assoc in T; cbn [app] in T; exact T).
    all: assert (E2 : poly p ((al ++ [u ++ [w; z]]) ++ match v with [] => bl | _ :: _ => (z :: v) :: bl end) = dd ((p :: concat al ++ u) ++ [w; z] ++ v ++ concat bl))
      by (unfold RouteProofs.poly; rewrite !concat_app; cbn [concat app]; rewrite app_nil_r, <- !app_assoc; cbn [app]; destruct v as [|z' v]; [reflexivity|]; cbn [concat app];
          pose proof (dd_twice eqp eqp_eq (p :: concat al ++ u ++ [w]) z (z' :: v ++ concat bl)) as T; cbn [app] in T; rewrite <- !app_assoc in T; cbn [app] in T; exact T).
    all: rewrite E1, E2.
    - rewrite Ew. cbn [app]. pose proof (dd_twice eqp eqp_eq (p :: concat al ++ u) s (z :: v ++ concat bl)) as T. cbn [app] in T. rewrite T. constructor.
    - rewrite Ez. cbn [app]. pose proof (dd_twice eqp eqp_eq (p :: concat al ++ u ++ [w]) s (v ++ concat bl)) as T. cbn [app] in T. rewrite <- !app_assoc in T. cbn [app] in T. rewrite <- !app_assoc. cbn [app]. rewrite T. constructor.
    - constructor; auto. constructor.
  Qed.
End Proofs.

(** *** whether a route has a length does not depend on how lengths are added *)
Section HasLength.
  Context {P L : Type}.
  Variable eqp : P -> P -> bool.
  Variable zeroL : L.
  Variable addL : L -> L -> L.
  Variable dist : P -> P -> L.

  Lemma length_found segs : forall has x, match plain_length_loop eqp dist addL zeroL segs has x with Ok _ => true | _ => false end = has || existsb (fun s => negb (eqp (fst s) (snd s))) segs.
  Proof.
    induction segs as [|[a b] segs IH]; intros has x; cbn [plain_length_loop existsb fst snd]; [destruct has; reflexivity|].
    destruct (eqp a b); cbn [negb]; rewrite IH; [reflexivity|]. rewrite orb_true_r. reflexivity.
  Qed.
  Lemma line_has_length_moving l : line_has_length eqp zeroL addL dist l = moving eqp l.
  Proof. unfold line_has_length, plain_length. rewrite length_found. reflexivity. Qed.
  Lemma has_length_moving (r : @route P) : has_length eqp zeroL addL dist r = existsb (moving eqp) (lines r).
  Proof.
    unfold has_length. destruct (lines r) as [|a [|b ls]]; [reflexivity|cbn; rewrite line_has_length_moving, orb_false_r; reflexivity|].
    assert (Step : forall a b (r : list (list P)), has_length_loop eqp zeroL addL dist (a :: b :: r) =
              if moving eqp a then true else if match r with [] => moving eqp b | _ => false end then true else has_length_loop eqp zeroL addL dist (b :: r)).
    { intros. cbn [has_length_loop]. rewrite line_has_length_moving. destruct r0; [rewrite line_has_length_moving|]; reflexivity. }
    revert a b. induction ls as [|c ls IH]; intros a b; rewrite Step.
    - cbn. destruct (moving eqp a); [reflexivity|]. destruct (moving eqp b); reflexivity.
    - rewrite (IH b c). cbn [existsb]. destruct (moving eqp a); reflexivity.
  Qed.
End HasLength.
