(** C90: the time limit in value and policy iteration, and what it does to the result of a track. *)
From Coq Require Import ZArith NArith Lia.
From Verif Require Import Base ListAux RichLine Route Utils UtilsProps Matcher MatcherProps.
From Verif Require Import Value Policy ValueProps PolicyProps Deadline DeadlineProofs.
Local Open Scope nat_scope.

(** *** The clock *)
(** the time is up at the look number [j] *)
Definition up (now : nat -> Z) (t : timer) (j : nat) : Prop := (0 < tm_max t /\ tm_max t <= now j - tm_start t)%Z.

Lemma look_late now t k : tm_reached t = true -> timer_look now (t, k) = ((t, S k), true).
Proof. intros R. unfold timer_look, update_and_has_reached, Utils.reached. cbn [fst snd]. rewrite R. cbn. rewrite R, R. reflexivity. Qed.
Lemma look_spec now t k t1 b : tm_reached t = false -> timer_look now (t, k) = (t1, b) ->
  snd t1 = S k /\ tm_start (fst t1) = tm_start t /\ tm_max (fst t1) = tm_max t /\ tm_reached (fst t1) = b /\ (b = true <-> up now t k).
Proof.
  intros R. unfold timer_look, update_and_has_reached, Utils.reached, Utils.update, has_max, up. cbn [fst snd]. rewrite R. cbn. rewrite ?R. cbn. intros [= <- <-]. cbn.
  repeat (split; [reflexivity|]). rewrite andb_true_iff, Z.ltb_lt, Z.leb_le. reflexivity.
Qed.
Lemma look_reached now t k t1 b : timer_look now (t, k) = (t1, b) -> tm_reached (fst t1) = b.
Proof. intros [= <- <-]. reflexivity. Qed.
Lemma timer_latches now : latches (timer_look now).
Proof.
  intros [t k] [t1 k1] c2 b H1 H2. apply look_reached in H1. cbn [fst] in H1. rewrite (look_late now t1 k1 H1) in H2. injection H2 as _ <-. reflexivity.
Qed.
Lemma timer_calm now n c c' : calm (timer_look now) n c c' ->
  snd c' = snd c + n /\ tm_start (fst c') = tm_start (fst c) /\ tm_max (fst c') = tm_max (fst c) /\ (forall j, snd c <= j < snd c + n -> ~ up now (fst c) j)
  /\ (0 < n -> tm_reached (fst c) = false) /\ tm_reached (fst c') = tm_reached (fst c).
Proof.
  induction 1 as [c|n [t k] [t1 k1] c2 E H IH]; [repeat split; try lia|]. cbn [fst snd] in *. destruct IH as (I1 & I2 & I3 & I4 & I5 & I6).
  assert (R : tm_reached t = false). { destruct (tm_reached t) eqn:R; [|reflexivity]. rewrite (look_late now t k R) in E. discriminate. }
  destruct (look_spec now t k _ _ R E) as (J1 & J2 & J3 & J4 & J5). cbn [fst snd] in *. split; [lia|]. split; [congruence|]. split; [congruence|]. split; [|split; [auto|congruence]].
  intros j Hj U. destruct (Nat.eq_dec j k) as [->|N]; [apply J5 in U; discriminate|]. apply (I4 j ltac:(lia)). unfold up in *. rewrite J2, J3. exact U.
Qed.
Lemma timer_gave_up now t k t' k' : gave_up (timer_look now) (t, k) (t', k') ->
  tm_reached t' = true /\ k < k' /\ if tm_reached t then k' <= k + 2 else exists j, k <= j /\ j < k' <= j + 2 /\ up now t j /\ forall i, k <= i < j -> ~ up now t i.
Proof.
  intros (n & [t0 k0] & [t1 k1] & H & E & F). destruct (timer_calm _ _ _ _ H) as (I1 & I2 & I3 & I4 & I5 & I6). cbn [fst snd] in *.
  pose proof (look_reached _ _ _ _ _ E) as R1. cbn [fst] in R1.
  assert (K1 : k1 = S k0) by (injection E as _ E _; congruence).
  assert (K : tm_reached t' = true /\ k1 <= k' <= S k1).
  { destruct F as [[= -> ->]|F]; [split; [exact R1|lia]|]. rewrite (look_late now t1 k1 R1) in F. injection F as <- <-. split; [exact R1|lia]. }
  destruct K as [K2 K3]. split; [exact K2|]. split; [lia|]. destruct (tm_reached t) eqn:R.
  - assert (n = 0) as -> by (destruct n; [reflexivity|specialize (I5 ltac:(lia)); discriminate]). lia.
  - destruct (look_spec now t0 k0 _ _ ltac:(congruence) E) as (J1 & J2 & J3 & J4 & J5). exists k0. split; [lia|]. split; [lia|]. split.
    + pose proof (proj1 J5 eq_refl) as U. unfold up in *. rewrite <- I2, <- I3. exact U.
    + intros i Hi. apply I4. lia.
Qed.

Section C90.
  Variable acts : nat -> list nat.
  Variable stp : nat -> nat -> nat * nat * Q * bool.
  Variable start : nat.
  Variable discount threshold : Q.
  Variable candidate : nat -> nat.
  Variable edge : nat -> Z.
  Variable now : nat -> Z.
  Notation value_iteration := (d_learn (timer_look now) acts stp start discount threshold candidate edge).
  Notation policy_iteration := (p_learn (timer_look now) acts stp start discount threshold candidate edge).
  Notation unlimited_value := (learn acts stp start discount threshold candidate edge).
  Notation unlimited_policy := (plearn acts stp start discount threshold candidate edge).

  (** Value iteration under a time limit either gives the policy it would give without one, and was then in time at each look at the clock, or it gives up.
      It gives up just if the time was up before or is up at some look, and at most one look after this. In no case does it use a state outside of its vectors. *)
  Theorem C90_value fuel extra t k :
    match value_iteration fuel extra (t, k) with
    | Ok (Some x, (t', k')) => unlimited_value fuel extra = Ok x /\ tm_reached t = false /\ tm_reached t' = false /\ k + 2 <= k' /\ forall j, k <= j < k' -> ~ up now t j
    | Ok (None, (t', k')) => tm_reached t' = true /\ k < k' /\ if tm_reached t then k' <= k + 2 else exists j, k <= j /\ j < k' <= j + 2 /\ up now t j /\ forall i, k <= i < j -> ~ up now t i
    | Fuel => unlimited_value fuel extra = Fuel
    | _ => False
    end.
  Proof.
    pose proof (d_learn_spec (timer_look now) acts stp start discount threshold candidate edge fuel extra (t, k) (timer_latches now)) as H.
    destruct (value_iteration fuel extra (t, k)) as [[[x|] [t' k']]|x| |].
    - destruct H as [(n & Hn & Hc) E]. destruct (timer_calm _ _ _ _ Hc) as (I1 & I2 & I3 & I4 & I5 & I6). cbn [fst snd] in *.
      split; [exact E|]. split; [apply I5; lia|]. split; [rewrite I6; apply I5; lia|]. split; [lia|]. intros j Hj. apply I4. lia.
    - apply timer_gave_up, H.
    - exact H.
    - apply (learn_defined acts stp start discount threshold candidate edge fuel extra H).
    - apply H.
  Qed.

  (** The same of policy iteration, which may use a state outside of its vectors without a limit as well. *)
  Theorem C90_policy fuel extraV extraP t k :
    match policy_iteration fuel extraV extraP (t, k) with
    | Ok (Some x, (t', k')) => unlimited_policy fuel extraV extraP = Ok x /\ tm_reached t = false /\ tm_reached t' = false /\ k + 2 <= k' /\ forall j, k <= j < k' -> ~ up now t j
    | Ok (None, (t', k')) => tm_reached t' = true /\ k < k' /\ if tm_reached t then k' <= k + 2 else exists j, k <= j /\ j < k' <= j + 2 /\ up now t j /\ forall i, k <= i < j -> ~ up now t i
    | UB => unlimited_policy fuel extraV extraP = UB
    | Fuel => unlimited_policy fuel extraV extraP = Fuel
    | Throw _ => False
    end.
  Proof.
    pose proof (p_learn_spec (timer_look now) acts stp start discount threshold candidate edge fuel extraV extraP (t, k) (timer_latches now)) as H.
    destruct (policy_iteration fuel extraV extraP (t, k)) as [[[x|] [t' k']]|x| |].
    - destruct H as [(n & Hn & Hc) E]. destruct (timer_calm _ _ _ _ Hc) as (I1 & I2 & I3 & I4 & I5 & I6). cbn [fst snd] in *.
      split; [exact E|]. split; [apply I5; lia|]. split; [rewrite I6; apply I5; lia|]. split; [lia|]. intros j Hj. apply I4. lia.
    - apply timer_gave_up, H.
    - exact H.
    - exact H.
    - apply H.
  Qed.

  (** Without a limit (zero or less), and while the time is not up, the limit does nothing. *)
  Corollary C90_in_time fuel extra t k x : tm_reached t = false -> (forall j, k <= j -> ~ up now t j) -> unlimited_value fuel extra = Ok x ->
    exists c, value_iteration fuel extra (t, k) = Ok (Some x, c).
  Proof.
    intros R U E. pose proof (C90_value fuel extra t k) as H. destruct (value_iteration fuel extra (t, k)) as [[[y|] [t' k']]|y| |]; try contradiction.
    - destruct H as (H & _). assert (y = x) as -> by congruence. eauto.
    - rewrite R in H. destruct H as (_ & _ & j & H1 & _ & H2 & _). exfalso. apply (U j H1 H2).
    - congruence.
  Qed.
  Corollary C90_in_time_policy fuel extraV extraP t k x : tm_reached t = false -> (forall j, k <= j -> ~ up now t j) -> unlimited_policy fuel extraV extraP = Ok x ->
    exists c, policy_iteration fuel extraV extraP (t, k) = Ok (Some x, c).
  Proof.
    intros R U E. pose proof (C90_policy fuel extraV extraP t k) as H. destruct (policy_iteration fuel extraV extraP (t, k)) as [[[y|] [t' k']]|y| |]; try contradiction; try congruence.
    - destruct H as (H & _). assert (y = x) as -> by congruence. eauto.
    - rewrite R in H. destruct H as (_ & _ & j & H1 & _ & H2 & _). exfalso. apply (U j H1 H2).
  Qed.

  (** With a limit the learner comes to an end even where it would not without one, so that the number of looks until the time is up bounds its work: only the last loop,
      which does not look at the clock, has to end by itself. *)
  Theorem C90_value_ends (rank : nat -> nat) fuel extra t k K : (forall s a, ValueProps.reached acts stp start s -> In a (acts s) -> final stp s a = false -> rank (next stp s a) < rank s) ->
    k <= K -> up now t K -> K - k <= fuel -> rank start < fuel -> exists x, value_iteration fuel extra (t, k) = Ok x.
  Proof.
    intros HR HK U HF Hr. pose proof (C90_value fuel extra t k) as H.
    pose proof (d_learn_spec (timer_look now) acts stp start discount threshold candidate edge fuel extra (t, k) (timer_latches now)) as S1.
    destruct (value_iteration fuel extra (t, k)) as [x|x| |]; try contradiction; [eauto|]. exfalso. destruct S1 as [_ [(n & c' & Hc & Hn)|(states & highest & V & Eg & Ei & Ef)]].
    - destruct (timer_calm _ _ _ _ Hc) as (_ & _ & _ & I4 & _). cbn [fst snd] in I4. apply (I4 K); [lia|exact U].
    - destruct (C49_states _ _ _ _ _ _ Eg) as (_ & HS & _).
      destruct (iterate_fits acts stp discount threshold states fuel (repeat 0%Q (S highest + extra)) 0%Q None false) as [(V' & tr & E & Lv)|E]; [intros s Hs; apply (init_fits _ _ _ _ _ _ _ Eg), Hs| |congruence].
      assert (V' = V) as -> by congruence.
      destruct (follow_ends acts stp discount candidate edge states (gen_closed _ _ _ _ _ _ Eg) rank V) with (fuel := fuel) (s := start) (policy := @nil (nat * nat)) (rewards := @nil Q) as (p & rs & E1).
      + intros s a Hs. apply HR, HS, Hs.
      + intros s Hs. apply (fits_same acts stp (repeat 0%Q (S highest + extra))); [exact Lv|]. apply (init_fits _ _ _ _ _ _ _ Eg), Hs.
      + apply HS. constructor.
      + exact Hr.
      + congruence.
  Qed.
  Theorem C90_policy_ends (rank : nat -> nat) fuel extraV extraP t k K : (forall s a, ValueProps.reached acts stp start s -> In a (acts s) -> final stp s a = false -> rank (next stp s a) < rank s) ->
    k <= K -> up now t K -> K - k <= fuel -> rank start < fuel -> policy_iteration fuel extraV extraP (t, k) <> Fuel.
  Proof.
    intros HR HK U HF Hr E.
    pose proof (p_learn_spec (timer_look now) acts stp start discount threshold candidate edge fuel extraV extraP (t, k) (timer_latches now)) as S1. rewrite E in S1.
    destruct S1 as [_ [(n & c' & Hc & Hn)|(states & highest & pol0 & V & pol & Eg & E0 & Ei & Ef)]].
    - destruct (timer_calm _ _ _ _ Hc) as (_ & _ & _ & I4 & _). cbn [fst snd] in I4. apply (I4 K); [lia|exact U].
    - destruct (C49_states _ _ _ _ _ _ Eg) as (_ & HS & _). revert Ef. apply (obey_ends acts stp candidate edge rank states).
      + apply (gen_closed _ _ _ _ _ _ Eg).
      + intros s a Hs. apply HR, HS, Hs.
      + refine (rounds_lawful acts stp discount threshold states _ _ _ _ _ _ _ _ Ei). intros s Hs Ns. apply (initial_lawful acts _ _ _ E0). left. split; [apply in_rev in Hs; exact Hs|exact Ns].
      + apply HS. constructor.
      + exact Hr.
  Qed.
End C90.

(** *** The track *)
Lemma trun_app t a b : trun t (a ++ b) = trun (trun t a) b.
Proof. unfold trun. apply fold_left_app. Qed.
Lemma calm_calls now n c c' : calm (timer_look now) n c c' -> fst c' = trun (fst c) (map (fun i => CBoth (now i)) (seq (snd c) n)).
Proof.
  induction 1 as [c|n [t k] [t1 k1] c2 E H IH]; [reflexivity|]. cbn [fst snd] in *. injection E as E1 E2 _. subst k1. cbn [seq map]. unfold trun in *. cbn [fold_left]. rewrite IH. cbn [tstep fst]. rewrite <- E1. reflexivity.
Qed.
Lemma gave_up_calls now t k t' k' : gave_up (timer_look now) (t, k) (t', k') -> t' = trun t (map (fun i => CBoth (now i)) (seq k (k' - k))).
Proof.
  intros (n & [t0 k0] & [t1 k1] & H & E & F). pose proof (calm_calls _ _ _ _ H) as A. destruct (timer_calm _ _ _ _ H) as (I1 & _). cbn [fst snd] in *. subst k0.
  assert (B : t1 = trun t (map (fun i => CBoth (now i)) (seq k (S n))) /\ k1 = k + S n).
  { injection E as E1 E2 _. split; [|lia]. rewrite seq_S, map_app, trun_app, <- A. cbn. symmetry. exact E1. }
  destruct B as [B ->]. destruct F as [[= -> ->]|F]; [replace (k + S n - k) with (S n) by lia; exact B|].
  injection F as F1 F2 _. replace (k' - k) with (S (S n)) by lia. rewrite seq_S, map_app, trun_app, <- B. cbn. symmetry. exact F1.
Qed.

Section Track.
  Context {Track Env Line P : Type}.
  Variable eqp : P -> P -> bool.
  Variable set : Track -> timer -> list tcall * Env.
  Variable learner : Env -> timer -> list tcall * outcome (list (nat * nat)).
  Variable env_line : Env -> Line.
  Variable result : Env -> list (nat * nat) -> outcome (@route P).
  Variable edges_list : @route P -> outcome (list nat).
  Variable export_edges_route : list nat -> @route P.
  Variable edge_ids : list nat -> list N.
  Variable export_edges export_edge_ids : bool.
  Notation match_loop := (match_loop set learner env_line result edges_list export_edges_route edge_ids export_edges export_edge_ids).
  Notation match_part := (match_part set learner env_line result edges_list export_edges_route edge_ids export_edges export_edge_ids).
  Notation match_track := (match_track eqp set learner env_line result edges_list export_edges_route edge_ids export_edges export_edge_ids).

  (** the calls only ask; and who is in time at the end was not stopped: the answer is the one without a limit *)
  Definition asks (cs : list tcall) : Prop := forall c, In c cs -> exists x, c = CBoth x.
  Variable full_set : Track -> Env.
  Variable full_learner : Env -> outcome (list (nat * nat)).
  Hypothesis set_asks : forall tr t, asks (fst (set tr t)).
  Hypothesis set_full : forall tr t, tm_reached (trun t (fst (set tr t))) = false -> snd (set tr t) = full_set tr.
  Hypothesis learner_asks : forall e t, asks (fst (learner e t)).
  Hypothesis learner_full : forall e t, tm_reached (trun t (fst (learner e t))) = false -> snd (learner e t) = full_learner e.

  Lemma unlimited_run t cs : tm_reached t = false -> (tm_max t <= 0)%Z -> asks cs -> tm_reached (trun t cs) = false /\ (tm_max (trun t cs) <= 0)%Z.
  Proof.
    revert t. induction cs as [|c cs IH]; intros t R M A; [auto|]. unfold trun. cbn [fold_left]. fold (trun (fst (tstep t c)) cs). destruct (A c (or_introl eq_refl)) as [x ->].
    apply IH; [| |intros c Hc; apply A; right; exact Hc]; destruct t as [s0 c0 m0 r0]; cbn [tm_reached tm_max] in *; subst r0; unfold tstep, update_and_has_reached, Utils.reached, Utils.update, has_max; cbn [fst tm_reached tm_max tm_start tm_current]; [|exact M].
    apply andb_false_iff. left. apply Z.ltb_ge. exact M.
  Qed.
  Lemma not_before t cs : tm_reached (trun t cs) = false -> tm_reached t = false.
  Proof. intros H. destruct (tm_reached t) eqn:R; [|reflexivity]. destruct (C40_latch t cs R) as [K _]. congruence. Qed.
  Lemma reached_unlimited t : tm_reached t = false -> (tm_max t <= 0)%Z -> Utils.reached t = t.
  Proof. intros R M. unfold Utils.reached. rewrite R. assert (F : has_max t = false) by (unfold has_max; apply Z.ltb_ge; lia). rewrite F. destruct t; cbn in *. subst. reflexivity. Qed.
  Lemma run_both t x : trun t [CBoth x] = update_and_has_reached t x.
  Proof. reflexivity. Qed.

  Lemma part_same tr x m t m1 t1 : match_part tr x m t = Ok (m1, t1) -> tm_reached t1 = false ->
    forall x' t', tm_reached t' = false -> (tm_max t' <= 0)%Z -> exists t1', match_part tr x' m t' = Ok (m1, t1') /\ tm_reached t1' = false /\ (tm_max t1' <= 0)%Z.
  Proof.
    unfold Matcher.match_part. intros H R1 x' t' R' M'. pose proof (set_asks tr t') as A'. pose proof (set_full tr t) as SF. pose proof (set_full tr t') as SF'.
    destruct (set tr t) as [calls env]. destruct (set tr t') as [calls' env']. cbn [fst snd] in *.
    destruct (unlimited_run t' calls' R' M' A') as [U1 U2]. specialize (SF' U1). rewrite <- (run_both (trun t' calls') x'). rewrite <- (run_both (trun t calls) x) in H.
    destruct (unlimited_run (trun t' calls') [CBoth x'] U1 U2) as [U3 U4]; [intros c [<-|[]]; eauto|].
    set (t2 := trun (trun t calls) [CBoth x]) in *. set (t2' := trun (trun t' calls') [CBoth x']) in *. rewrite U3.
    assert (K : tm_reached t2 = false).
    { destruct (tm_reached t2) eqn:R2; [exfalso|reflexivity]. cbn [bindO] in H. destruct (result env []) as [r|y| |]; cbn [bindO] in H; try discriminate.
      destruct (exported _ _ _ _ _ r) as [[r1 ids]|y| |]; cbn [bindO] in H; try discriminate. assert (T1 : t1 = t2) by (injection H; intros; subst; reflexivity). congruence. }
    rewrite K in H. specialize (SF (not_before _ [CBoth x] K)). subst env env'.
    pose proof (learner_full (full_set tr) t2) as LF. pose proof (learner_full (full_set tr) t2') as LF'. pose proof (learner_asks (full_set tr) t2') as LA'.
    destruct (learner (full_set tr) t2) as [calls2 answer]. destruct (learner (full_set tr) t2') as [calls2' answer']. cbn [fst snd] in *.
    destruct (unlimited_run t2' calls2' U3 U4 LA') as [U5 U6]. specialize (LF' U5).
    destruct answer as [policy|y| |]; cbn [bindO] in H; try discriminate. destruct (result (full_set tr) policy) as [r|y| |] eqn:Er; cbn [bindO] in H; try discriminate.
    destruct (exported _ _ _ _ _ r) as [[r1 ids]|y| |] eqn:Ee; cbn [bindO] in H; try discriminate. injection H as <- <-. specialize (LF R1).
    rewrite LF', <- LF. cbn [bindO]. rewrite Er. cbn [bindO]. rewrite Ee. cbn [bindO]. eauto.
  Qed.
  Lemma loop_same clock clock' tracks : forall i i' m t m1 t1, match_loop clock i tracks m t = Ok (m1, t1) -> m_aborted m = false -> m_aborted m1 = false ->
    forall t', tm_reached t' = false -> (tm_max t' <= 0)%Z -> exists t1', match_loop clock' i' tracks m t' = Ok (m1, t1').
  Proof.
    induction tracks as [|tr tracks IH]; intros i i' m t m1 t1 H A A1 t' R' M'; cbn [Matcher.match_loop] in *; [injection H as <- <-; eauto|].
    destruct (match_part tr (clock i) m t) as [[m2 t2]|y| |] eqn:Ep; cbn [bindO] in H; try discriminate.
    destruct (tm_reached (Utils.reached t2)) eqn:R2; [injection H as <- <-; discriminate A1|].
    assert (R2' : tm_reached t2 = false). { destruct (tm_reached t2) eqn:R; [|reflexivity]. unfold Utils.reached in R2. rewrite R in R2. congruence. }
    destruct (part_same _ _ _ _ _ _ Ep R2' (clock' i') t' R' M') as (t2' & E & U1 & U2). rewrite E. cbn [bindO]. rewrite (reached_unlimited t2' U1 U2), U1.
    refine (IH _ _ _ _ _ _ H _ A1 _ U1 U2). destruct (part_reported _ _ _ _ _ _ _ _ _ _ _ _ _ _ _ Ep) as (e & _ & _ & E' & _). congruence.
  Qed.

  (** A track that is not marked as aborted has the result it has without a limit, whatever the clocks show. *)
  Theorem C90_complete clock start max tracks m t r : match_track clock start max tracks = Ok (m, t, r) -> m_aborted m = false ->
    forall clock' start' max', (max' <= 0)%Z -> exists t', match_track clock' start' max' tracks = Ok (m, t', r).
  Proof.
    unfold Matcher.match_track. intros H A clock' start' max' M'.
    destruct (match_loop clock 0 tracks (mkMatched [] [] [] [] false) (timer_make start max)) as [[m1 t1]|y| |] eqn:El; cbn [bindO] in H; try discriminate.
    destruct (merge eqp (m_matches m1) false false) as [r1|y| |] eqn:Em; cbn [bindO] in H; try discriminate. injection H as <- <- <-.
    destruct (loop_same clock clock' tracks 0 0 _ _ _ _ El eq_refl A (timer_make start' max') eq_refl M') as (t1' & E). rewrite E. cbn [bindO]. rewrite Em. cbn [bindO]. eauto.
  Qed.
End Track.

(** *** The learners and the step-wise environment are as that theorem wants them *)
Theorem C90_value_learner acts stp start discount threshold candidate edge fuel extra now t :
  let run := limited now (d_learn (timer_look now) acts stp start discount threshold candidate edge fuel extra) in
  asks (fst (run t)) /\ (tm_reached (trun t (fst (run t))) = false -> snd (run t) = bindO (learn acts stp start discount threshold candidate edge fuel extra) fst (fun x => Ok (fst x))).
Proof.
  cbn zeta. unfold limited. pose proof (C90_value acts stp start discount threshold candidate edge now fuel extra t 0) as H.
  pose proof (d_learn_spec (timer_look now) acts stp start discount threshold candidate edge fuel extra (t, 0) (timer_latches now)) as G.
  destruct (d_learn (timer_look now) acts stp start discount threshold candidate edge fuel extra (t, 0)) as [[[x|] [t' k']]|x| |]; try contradiction; cbn [fst snd].
  - destruct H as (E & R & R' & _). rewrite E. cbn [bindO]. split; [intros c Hc; apply in_map_iff in Hc; destruct Hc as (i & <- & _); eauto|]. intros _; destruct x; reflexivity.
  - apply gave_up_calls in G. rewrite Nat.sub_0_r in G. rewrite <- G. split; [intros c Hc; apply in_map_iff in Hc; destruct Hc as (i & <- & _); eauto|]. destruct H as [H _]. congruence.
  - rewrite H. split; [intros c []|reflexivity].
Qed.
Theorem C90_policy_learner acts stp start discount threshold candidate edge fuel extraV extraP now t :
  let run := limited now (p_learn (timer_look now) acts stp start discount threshold candidate edge fuel extraV extraP) in
  asks (fst (run t)) /\ (tm_reached (trun t (fst (run t))) = false -> snd (run t) = bindO (plearn acts stp start discount threshold candidate edge fuel extraV extraP) fst (fun x => Ok (fst x))).
Proof.
  cbn zeta. unfold limited. pose proof (C90_policy acts stp start discount threshold candidate edge now fuel extraV extraP t 0) as H.
  pose proof (p_learn_spec (timer_look now) acts stp start discount threshold candidate edge fuel extraV extraP (t, 0) (timer_latches now)) as G.
  destruct (p_learn (timer_look now) acts stp start discount threshold candidate edge fuel extraV extraP (t, 0)) as [[[x|] [t' k']]|x| |]; try contradiction; cbn [fst snd].
  - destruct H as (E & R & R' & _). rewrite E. cbn [bindO]. split; [intros c Hc; apply in_map_iff in Hc; destruct Hc as (i & <- & _); eauto|]. intros _; destruct x; reflexivity.
  - apply gave_up_calls in G. rewrite Nat.sub_0_r in G. rewrite <- G. split; [intros c Hc; apply in_map_iff in Hc; destruct Hc as (i & <- & _); eauto|]. destruct H as [H _]. congruence.
  - rewrite H. split; [intros c []|reflexivity].
  - rewrite H. split; [intros c []|reflexivity].
Qed.
(** Given up means: no policy. *)
Theorem C90_given_up acts stp start discount threshold candidate edge fuel extra extraP now t :
  let run := limited now (d_learn (timer_look now) acts stp start discount threshold candidate edge fuel extra) in
  let run' := limited now (p_learn (timer_look now) acts stp start discount threshold candidate edge fuel extra extraP) in
  (tm_reached (trun t (fst (run t))) = true -> snd (run t) = Ok []) /\ (tm_reached (trun t (fst (run' t))) = true -> snd (run' t) = Ok []).
Proof.
  cbn zeta. unfold limited.
  pose proof (d_learn_spec (timer_look now) acts stp start discount threshold candidate edge fuel extra (t, 0) (timer_latches now)) as G.
  pose proof (p_learn_spec (timer_look now) acts stp start discount threshold candidate edge fuel extra extraP (t, 0) (timer_latches now)) as G'.
  assert (L : tm_reached t = true -> d_learn (timer_look now) acts stp start discount threshold candidate edge fuel extra (t, 0) = Ok (None, (t, 1))
                /\ p_learn (timer_look now) acts stp start discount threshold candidate edge fuel extra extraP (t, 0) = Ok (None, (t, 1))).
  { intros R. unfold d_learn, p_learn. rewrite (look_late now t 0 R). split; reflexivity. }
  assert (K : forall n t' k, 2 <= n -> calm (timer_look now) n (t, 0) (t', k) -> tm_reached (trun t (map (fun i => CBoth (now i)) (seq 0 k))) = true -> False).
  { intros n t' k Hn H R. pose proof (calm_calls _ _ _ _ H) as A. destruct (timer_calm _ _ _ _ H) as (I1 & _ & _ & _ & I5 & I6). cbn [fst snd] in *. subst k. cbn [plus] in R. rewrite <- A, I6, I5 in R by lia. discriminate. }
  split.
  - destruct (d_learn (timer_look now) acts stp start discount threshold candidate edge fuel extra (t, 0)) as [[[x|] [t' k]]|x| |] eqn:E; cbn [fst snd] in *; intros R; try reflexivity.
    + destruct G as [(n & Hn & H) _]. exfalso. exact (K _ _ _ Hn H R).
    + contradiction.
    + destruct (L R) as [Q _]. congruence.
    + destruct (L R) as [Q _]. congruence.
  - destruct (p_learn (timer_look now) acts stp start discount threshold candidate edge fuel extra extraP (t, 0)) as [[[x|] [t' k]]|x| |] eqn:E; cbn [fst snd] in *; intros R; try reflexivity.
    + destruct G' as [(n & Hn & H) _]. exfalso. exact (K _ _ _ Hn H R).
    + contradiction.
    + destruct (L R) as [_ Q]. congruence.
    + destruct (L R) as [_ Q]. congruence.
Qed.
(** Setting the environment prepares the whole line, unless the time is up in between. *)
Theorem C90_set {Line : Type} now filter (simplify median : option (Line -> Line)) track t :
  let set := single_set now filter simplify median track t in
  asks (fst set) /\ (tm_reached (trun t (fst set)) = false ->
    snd set = (match median with Some f => f | None => fun l => l end) ((match simplify with Some f => f | None => fun l => l end) track)).
Proof.
  cbn zeta. unfold single_set, timer_look. cbn [fst snd].
  destruct filter, simplify as [f|]; cbn [fst snd seq map]; repeat match goal with |- context[if ?b then _ else _] => let E := fresh "E" in destruct b eqn:E end; cbn [fst snd seq map];
    (split; [intros c Hc; cbn in Hc; repeat destruct Hc as [<-|Hc]; try contradiction; eauto|]); cbn [trun fold_left tstep fst]; intros R; try (rewrite R in *; discriminate); destruct median; try reflexivity; congruence.
Qed.

(** Together: a track matched part by part with value iteration or policy iteration on the step-wise environment. If the result is not marked as aborted, it is the one without a limit. The
    clock may show anything at any look: [now_set] and [now_learn] may depend on the part and on the helper. *)
Section Composed.
  Context {Line P : Type}.
  Variable eqp : P -> P -> bool.
  Variable acts : Line -> nat -> list nat.
  Variable stp : Line -> nat -> nat -> nat * nat * Q * bool.
  Variable start : Line -> nat.
  Variable candidate : Line -> nat -> nat.
  Variable edge : Line -> nat -> Z.
  Variable discount threshold : Q.
  Variable fuel extraV extraP : nat.
  Variable result : Line -> list (nat * nat) -> outcome (@route P).
  Variable edges_list : @route P -> outcome (list nat).
  Variable export_edges_route : list nat -> @route P.
  Variable edge_ids : list nat -> list N.
  Variable export_edges export_edge_ids filter : bool.
  Variable simplify median : option (Line -> Line).
  Definition value_learner (now : Line -> timer -> nat -> Z) (e : Line) (t : timer) := limited (now e t) (d_learn (timer_look (now e t)) (acts e) (stp e) (start e) discount threshold (candidate e) (edge e) fuel extraV) t.
  Definition policy_learner (now : Line -> timer -> nat -> Z) (e : Line) (t : timer) := limited (now e t) (p_learn (timer_look (now e t)) (acts e) (stp e) (start e) discount threshold (candidate e) (edge e) fuel extraV extraP) t.
  Definition set_line (now : Line -> timer -> nat -> Z) (tr : Line) (t : timer) := single_set (now tr t) filter simplify median tr t.

  Theorem C90_track_value now_set now_learn clock first max tracks m t r :
    match_track eqp (set_line now_set) (value_learner now_learn) (fun e => e) result edges_list export_edges_route edge_ids export_edges export_edge_ids clock first max tracks = Ok (m, t, r) -> m_aborted m = false ->
    forall clock' first' max', (max' <= 0)%Z ->
    exists t', match_track eqp (set_line now_set) (value_learner now_learn) (fun e => e) result edges_list export_edges_route edge_ids export_edges export_edge_ids clock' first' max' tracks = Ok (m, t', r).
  Proof.
    refine (C90_complete eqp _ _ _ _ _ _ _ _ _ (fun tr => (match median with Some f => f | None => fun l => l end) ((match simplify with Some f => f | None => fun l => l end) tr))
      (fun e => bindO (learn (acts e) (stp e) (start e) discount threshold (candidate e) (edge e) fuel extraV) fst (fun x => Ok (fst x))) _ _ _ _ clock first max tracks m t r).
    - intros tr t0. apply C90_set.
    - intros tr t0. apply C90_set.
    - intros e t0. apply C90_value_learner.
    - intros e t0. apply C90_value_learner.
  Qed.
  Theorem C90_track_policy now_set now_learn clock first max tracks m t r :
    match_track eqp (set_line now_set) (policy_learner now_learn) (fun e => e) result edges_list export_edges_route edge_ids export_edges export_edge_ids clock first max tracks = Ok (m, t, r) -> m_aborted m = false ->
    forall clock' first' max', (max' <= 0)%Z ->
    exists t', match_track eqp (set_line now_set) (policy_learner now_learn) (fun e => e) result edges_list export_edges_route edge_ids export_edges export_edge_ids clock' first' max' tracks = Ok (m, t', r).
  Proof.
    refine (C90_complete eqp _ _ _ _ _ _ _ _ _ (fun tr => (match median with Some f => f | None => fun l => l end) ((match simplify with Some f => f | None => fun l => l end) tr))
      (fun e => bindO (plearn (acts e) (stp e) (start e) discount threshold (candidate e) (edge e) fuel extraV extraP) fst (fun x => Ok (fst x))) _ _ _ _ clock first max tracks m t r).
    - intros tr t0. apply C90_set.
    - intros tr t0. apply C90_set.
    - intros e t0. apply C90_policy_learner.
    - intros e t0. apply C90_policy_learner.
  Qed.
End Composed.

(** *** Examples *)
(** ten looks in time at most; the clock goes back after the look at which the time is up *)
Definition ticking (j : nat) : Z := if j <? 10 then Z.of_nat j else if j =? 10 then 1000%Z else 3%Z.
Definition shown (x : outcome (option (list (nat * nat) * list Q) * (timer * nat))) : option (option (list (nat * nat)) * bool * nat) :=
  match x with Ok (r, (t, k)) => Some (option_map fst r, tm_reached t, k) | _ => None end.
(** the learner of C49 needs sixteen looks: it ends in time, or gives up in the sweep, or gives up where the states are generated and looks once more *)
Example C90_ex : shown (d_learn (timer_look Z.of_nat) ex_acts ex_stp 0 1 (1 # 1000) ex_cand ex_edge 10 0 (timer_make 0 100, 0)) = Some (Some [(0, 1); (1, 0)], false, 16)
  /\ shown (d_learn (timer_look ticking) ex_acts ex_stp 0 1 (1 # 1000) ex_cand ex_edge 10 0 (timer_make 0 100, 0)) = Some (None, true, 11)
  /\ shown (d_learn (timer_look ticking) ex_acts ex_stp 0 1 (1 # 1000) ex_cand ex_edge 10 0 (timer_make 0 3, 0)) = Some (None, true, 5)
  /\ shown (p_learn (timer_look Z.of_nat) ex_acts ex_stp 0 1 (1 # 1000) ex_cand ex_edge 10 0 0 (timer_make 0 100, 0)) = Some (Some [(0, 1); (1, 0)], false, 15)
  /\ shown (p_learn (timer_look ticking) ex_acts ex_stp 0 1 (1 # 1000) ex_cand ex_edge 10 0 0 (timer_make 0 3, 0)) = Some (None, true, 5).
Proof. vm_compute. auto. Qed.
(** what [C90_value_ends] asks for: a rank; the learner of C49 under a limit that is reached at the fourth look *)
Example C90_ex_rank : (forall s a, ValueProps.reached ex_acts ex_stp 0 s -> In a (ex_acts s) -> final ex_stp s a = false -> (match next ex_stp s a with 0 => 2 | 2 => 1 | _ => 0 end) < (match s with 0 => 2 | 2 => 1 | _ => 0 end))
  /\ up ticking (timer_make 0 3) 3.
Proof.
  split; [|split; vm_compute; intuition discriminate]. intros s a _ Ha F. destruct s as [|[|[|s]]]; cbn in Ha; repeat destruct Ha as [<-|Ha]; try contradiction; cbn in F |- *; try discriminate; lia.
Qed.
(** a track of two parts, marked and not marked *)
Definition demo_track (max : Z) (tracks : list (list Z)) :=
  match match_track Z.eqb (set_line true (Some (fun l => removelast l)) None (fun _ t i => tm_current t + 1)%Z)
      (value_learner (fun _ => ex_acts) (fun _ => ex_stp) (fun _ => 0) (fun _ => ex_cand) (fun _ => ex_edge) 1 (1 # 1000) 10 0 (fun _ t i => tm_current t + Z.of_nat i + 1)%Z) (fun e => e)
      (fun e p => Ok (match p with [] => flagged true | _ => of_lines [e] end)) (fun _ => Ok []) (fun _ => of_lines []) (map N.of_nat) false false (fun i => 100 + 50 * Z.of_nat i)%Z 100%Z max tracks with
  | Ok (m, t, r) => Some (m_prepared m, m_policies m, m_aborted m, lines r)
  | _ => None
  end.
Example C90_ex_track :
  demo_track 0 [[1; 2; 9]; [4; 5; 9]]%Z = Some ([[1; 2]; [4; 5]]%Z, [[(0, 1); (1, 0)]; [(0, 1); (1, 0)]], false, [[1; 2]; [4; 5]]%Z)
  /\ demo_track 70 [[1; 2; 9]; [4; 5; 9]]%Z = demo_track 0 [[1; 2; 9]; [4; 5; 9]]%Z
  /\ demo_track 60 [[1; 2; 9]; [4; 5; 9]]%Z = Some ([[1; 2]; [4; 5]]%Z, [[(0, 1); (1, 0)]; []], true, [[1; 2]]%Z).
Proof. vm_compute. auto. Qed.

(** *** What does not hold *)
(** The alarm has to stay: if the clock could say after the search for states that there is time again, the values of states not searched would be read outside of the vector. *)
Theorem C90_alarm_refuted : exists (look : nat -> nat * bool) acts stp, (forall c, snd (look c) = true <-> c = 1)
  /\ d_learn look acts stp 0 1 (1 # 1000) ex_cand ex_edge 10 0 0 = UB /\ exists x, learn acts stp 0 1 (1 # 1000) ex_cand ex_edge 10 0 = Ok x.
Proof.
  exists (fun c => (S c, c =? 1)), (fun s => if s <? 2 then [2] else []), (fun s a => (if s =? 0 then 1 else 2, 2, (-1)%Q, false)).
  split; [intros c; cbn; apply Nat.eqb_eq|]. split; [vm_compute; reflexivity|]. eexists. vm_compute. reflexivity.
Qed.
(** The walk at the end does not look at the clock: where it goes round in a circle the limit does not help. *)
Theorem C90_walk_refuted : exists now t, up now t 7 /\ forall fuel, 0 < fuel -> d_learn (timer_look now) free_acts free_stp 0 1 (1 # 1000) ex_cand ex_edge fuel 0 (t, 0) = Fuel.
Proof.
  exists Z.of_nat, (timer_make 0 7). split; [split; vm_compute; intuition discriminate|]. intros fuel Hf.
  pose proof (C90_value free_acts free_stp 0 1 (1 # 1000) ex_cand ex_edge Z.of_nat fuel 0 (timer_make 0 7) 0) as H.
  rewrite C49_free_loop_refuted in H.
  destruct (d_learn (timer_look Z.of_nat) free_acts free_stp 0 1 (1 # 1000) ex_cand ex_edge fuel 0 (timer_make 0 7, 0)) as [[[x|] [t' k']]|x| |] eqn:E; try contradiction; [destruct H as [H _]; discriminate| |reflexivity].
  exfalso. destruct fuel as [|fuel]; [lia|]. clear H. unfold d_learn in E.
  change (timer_look Z.of_nat (timer_make 0 7, 0)) with ((mkTimer 0 0 7 false, 1), false) in E. cbv iota beta in E.
  assert (G : d_generate (timer_look Z.of_nat) free_acts free_stp (S fuel) [0] [0] 0 (mkTimer 0 0 7 false, 1) = Ok ([0], 0, (mkTimer 0 2 7 false, 3))) by (destruct fuel; reflexivity).
  rewrite G in E. cbn [bindO] in E.
  change (timer_look Z.of_nat (mkTimer 0 2 7 false, 3)) with ((mkTimer 0 3 7 false, 4), false) in E. cbv iota beta in E.
  assert (I : d_iterate (timer_look Z.of_nat) free_acts free_stp 1 (1 # 1000) (S fuel) [0] (repeat 0%Q (1 + 0)) 0 None false (mkTimer 0 3 7 false, 4) = Ok (Some ([(0 + 1 * 0)%Q], true), (mkTimer 0 4 7 false, 5))) by (destruct fuel; reflexivity).
  rewrite I in E. cbn [bindO] in E. destruct (follow free_acts free_stp 1 ex_cand ex_edge (S fuel) [(0 + 1 * 0)%Q] 0 [] []) as [y|y| |]; cbn [bindO] in E; discriminate.
Qed.
(** The line of a part given up while it was prepared is not the prepared one: it is reported as such all the same. *)
Theorem C90_prepared_refuted : exists tracks, demo_track 1 tracks = Some ([[1; 2; 9]]%Z, [[]], true, []) /\ demo_track 0 tracks = Some ([[1; 2]]%Z, [[(0, 1); (1, 0)]], false, [[1; 2]]%Z).
Proof. exists [[1; 2; 9]]%Z. vm_compute. auto. Qed.

Print Assumptions C90_value.
Print Assumptions C90_policy.
Print Assumptions C90_in_time.
Print Assumptions C90_in_time_policy.
Print Assumptions C90_value_ends.
Print Assumptions C90_policy_ends.
Print Assumptions C90_complete.
Print Assumptions C90_value_learner.
Print Assumptions C90_policy_learner.
Print Assumptions C90_given_up.
Print Assumptions C90_set.
Print Assumptions C90_track_value.
Print Assumptions C90_track_policy.
Print Assumptions C90_alarm_refuted.
Print Assumptions C90_walk_refuted.
Print Assumptions C90_prepared_refuted.
