(** C41: the step-wise matching environment. *)
From Coq Require Import ZArith.
From Verif Require Import Base ListAux Env.

Section C41.
  Context {R : Type}.
  Variable zeroR : R.
  Variable cands : list nat.
  Variable state_size : nat.
  Variable first_reward : istate -> iaction -> R.
  Variable judge : istate -> iaction -> @verdict R.
  Variable sort : list (nat * R) -> list (nat * R).
  Notation env := (@env R).
  Notation step := (step zeroR cands state_size first_reward judge).
  Notation reward := (reward zeroR cands first_reward judge).
  Notation new_state := (new_state state_size).
  Notation actions := (actions zeroR cands state_size first_reward judge sort).
  Notation internal2state := (internal2state cands).
  Notation reset := (reset cands).

  (** Action numbers and internal actions correspond to each other: the numbers are all natural numbers, the internal actions
      all numbers from -2 on. *)
  Theorem C41_codes : (forall n, internal2action (action2internal n) = n)
    /\ (forall a, (-2 <= a)%Z -> action2internal (internal2action a) = a).
  Proof.
    split.
    - intros [|[|n]]; try reflexivity. unfold internal2action, action2internal, no_action, skip, special_actions.
      destruct (Z.eqb_spec (Z.of_nat (S (S n) - 2)) (-1)); [lia|]. destruct (Z.eqb_spec (Z.of_nat (S (S n) - 2)) (-2)); [lia|]. lia.
    - intros a H. unfold internal2action, no_action, skip, special_actions.
      destruct (Z.eqb_spec a (-1)) as [->|N1]; [reflexivity|]. destruct (Z.eqb_spec a (-2)) as [->|N2]; [reflexivity|].
      unfold action2internal, special_actions. destruct (Z.to_nat (a + Z.of_nat 2)) as [|[|n]] eqn:E; lia.
  Qed.

  Lemma istate_eqb_eq a : forall b, istate_eqb a b = true <-> a = b.
  Proof.
    induction a as [|x a IH]; intros [|y b]; cbn; try (split; congruence). rewrite andb_true_iff, IH, Z.eqb_eq. split; [intros [-> ->]; reflexivity|].
    intros E. injection E as -> ->. auto.
  Qed.

  (** the result of an action without any cache: the new internal state, the action taken, the reward and the end *)
  Definition pure (s : istate) (action : nat) : outcome (istate * iaction * R * bool) :=
    let dummy := (s, no_action, zeroR, false) in
    bindO (new_state s (action2internal action)) (fun _ => dummy) (fun new0 =>
    bindO (reward s new0 (action2internal action)) (fun _ => dummy) (fun '(rw, new1, a1) =>
    bindO (is_done cands new1) (fun _ => dummy) (fun d => Ok (new1, a1, rw, d)))).

  Record wf (e : env) : Prop := {
    wf_nodup : NoDup (st_list e);
    wf_map : st_map e = combine (st_list e) (seq 0 (length (st_list e)));
    wf_len : length (st_cache e) = length (st_list e);
    wf_cache : forall i row a r s, nth_error (st_cache e) i = Some row -> nth_error row a = Some (Some r) -> nth_error (st_list e) i = Some s ->
      exists ns a', pure s a = Ok (ns, a', r_reward r, r_done r) /\ nth_error (st_list e) (r_state r) = Some ns
        /\ r_action r = internal2action a' }.
  (** the later tables continue the earlier ones *)
  Definition extends (e e' : env) : Prop := exists l, st_list e' = st_list e ++ l.

  Lemma extends_refl e : extends e e. Proof. exists []. rewrite app_nil_r. reflexivity. Qed.
  Lemma extends_trans a b c : extends a b -> extends b c -> extends a c.
  Proof. intros [l H] [m K]. exists (l ++ m). rewrite K, H, app_assoc. reflexivity. Qed.
  Lemma extends_nth e e' i s : extends e e' -> nth_error (st_list e) i = Some s -> nth_error (st_list e') i = Some s.
  Proof. intros [l ->] N. rewrite nth_error_app1; [exact N|]. apply nth_error_Some. congruence. Qed.
  Lemma extends_cur e i : extends e (set_cur e i). Proof. exists []. cbn. rewrite app_nil_r. reflexivity. Qed.
  Lemma wf_cur e i : wf e -> wf (set_cur e i). Proof. intros []. constructor; assumption. Qed.
  Lemma wf_init c : wf (init_env c).
  Proof. constructor; cbn; try constructor; auto. intros i row a r s N. destruct i; discriminate. Qed.

  Lemma find_combine l : forall n s i, NoDup l -> find_state (combine l (seq n (length l))) s = Some i <-> (n <= i /\ nth_error l (i - n) = Some s).
  Proof.
    unfold find_state. induction l as [|x l IH]; intros n s i ND; cbn [length seq combine find].
    - split; [discriminate|]. intros [_ H]. destruct (i - n); discriminate.
    - inversion ND as [|? ? Hx ND']; subst. cbn [fst]. destruct (istate_eqb x s) eqn:E.
      + apply istate_eqb_eq in E. subst s. split; [intros H; injection H as ->; rewrite Nat.sub_diag; auto|].
        intros [H1 H2]. destruct (i - n) as [|k] eqn:K; [f_equal; lia|]. exfalso. apply Hx. eapply nth_error_In. exact H2.
      + rewrite IH by exact ND'. split; intros [H1 H2].
        * split; [lia|]. replace (i - n) with (S (i - S n)) by lia. exact H2.
        * assert (i <> n). { intros ->. rewrite Nat.sub_diag in H2. cbn in H2. injection H2 as ->. assert (istate_eqb s s = true) by (apply istate_eqb_eq; reflexivity). congruence. }
          split; [lia|]. replace (i - n) with (S (i - S n)) in H2 by lia. exact H2.
  Qed.
  Lemma find_wf e s i : wf e -> find_state (st_map e) s = Some i <-> nth_error (st_list e) i = Some s.
  Proof. intros W. rewrite (wf_map e W), (find_combine _ 0 s i (wf_nodup e W)), Nat.sub_0_r. split; [intros [_ H]; exact H|auto with arith]. Qed.

  Lemma i2s_spec e s : wf e -> exists e' i, internal2state e s = (e', i) /\ wf e' /\ extends e e' /\ nth_error (st_list e') i = Some s
    /\ st_cur e' = st_cur e /\ (In s (st_list e) -> e' = e) /\ (forall x, In x (st_list e') -> In x (st_list e) \/ x = s).
  Proof.
    intros W. unfold Env.internal2state. destruct (find_state (st_map e) s) as [i|] eqn:F.
    - exists e, i. split; [reflexivity|]. split; [exact W|]. split; [apply extends_refl|]. split; [apply (find_wf e s i W), F|]. auto 6.
    - assert (Ns : ~ In s (st_list e)).
      { intros H. apply In_nth_error in H. destruct H as [i H]. apply (find_wf e s i W) in H. congruence. }
      eexists _, _. split; [reflexivity|]. split; [|split; [|split; [|split; [|split]]]].
      + destruct W as [W1 W2 W3 W4]. constructor; cbn.
        * apply NoDup_app'; auto; [constructor; [intros []|constructor]|]. intros x H [->|[]]. contradiction.
        * rewrite W2, app_length. cbn. rewrite seq_app. cbn.
          assert (C : forall (A B : Type) (l1 : list A) (m1 : list B) l2 m2, length l1 = length m1 -> combine (l1 ++ l2) (m1 ++ m2) = combine l1 m1 ++ combine l2 m2).
          { clear. intros A B l1. induction l1 as [|x l1 IH]; intros [|y m1] l2 m2 H; try discriminate; [reflexivity|]. cbn. f_equal. apply IH. cbn in H. lia. }
          rewrite C by (rewrite seq_length; reflexivity). reflexivity.
        * rewrite !app_length, W3. reflexivity.
        * intros i row a r s' N1 N2 N3. assert (Hi : i < length (st_cache e) \/ i = length (st_cache e)).
          { assert (i < length (st_cache e ++ [repeat None (action_count cands s)])) by (apply nth_error_Some; congruence).
            rewrite app_length in H. cbn in H. lia. }
          destruct Hi as [Hi| ->].
          -- rewrite nth_error_app1 in N1 by exact Hi. rewrite nth_error_app1 in N3 by lia. destruct (W4 i row a r s' N1 N2 N3) as (ns & a' & A & B & C).
             exists ns, a'. split; [exact A|]. split; [|exact C]. rewrite nth_error_app1; [exact B|]. apply nth_error_Some. congruence.
          -- rewrite nth_error_app2, Nat.sub_diag in N1 by lia. cbn in N1. injection N1 as <-. apply nth_error_In, repeat_spec in N2. discriminate.
      + exists [s]. reflexivity.
      + cbn. rewrite nth_error_app2, Nat.sub_diag by lia. reflexivity.
      + reflexivity.
      + intros H. contradiction.
      + cbn. intros x H. apply in_app_or in H. destruct H as [H|[->|[]]]; auto.
  Qed.

  Lemma put_nth (row : list (option (@result R))) : forall a r b x, nth_error (put row a r) b = Some (Some x) -> (b = a /\ x = r) \/ nth_error row b = Some (Some x).
  Proof.
    induction row as [|y row IH]; intros a r b x H.
    - revert b H. induction a as [|a IH]; intros [|b] H; cbn in H.
      + injection H as ->. auto.
      + destruct b; discriminate.
      + discriminate.
      + destruct (IH b H) as [[-> ->]|K]; [auto|destruct b; discriminate].
    - destruct a as [|a], b as [|b]; cbn in H |- *; [injection H as ->; auto|auto|auto|]. destruct (IH a r b x H) as [[-> ->]|K]; auto.
  Qed.
  Lemma put_at_spec (cache : list (list (option (@result R)))) : forall i a r, i < length cache -> exists c', put_at cache i a r = Ok c' /\ length c' = length cache
    /\ forall k, nth_error c' k = if k =? i then option_map (fun row => put row a r) (nth_error cache k) else nth_error cache k.
  Proof.
    induction cache as [|row cache IH]; intros i a r H; cbn in H; [lia|]. destruct i as [|i]; cbn [put_at].
    - eexists. split; [reflexivity|]. split; [reflexivity|]. intros [|k]; reflexivity.
    - destruct (IH i a r) as (c' & -> & L & N); [lia|]. cbn. exists (row :: c'). split; [reflexivity|]. split; [cbn; lia|]. intros [|k]; [reflexivity|]. cbn. apply N.
  Qed.

  Lemma bindO_total {A B} (x : outcome A) c (k : A -> outcome B) : match x with Throw _ | Fuel => False | _ => True end ->
    (forall y, match k y with Throw _ | Fuel => False | _ => True end) -> match bindO x c k with Throw _ | Fuel => False | _ => True end.
  Proof. intros Hx Hk. destruct x; cbn; [apply Hk|contradiction|exact I|contradiction]. Qed.
  Lemma derefO_total {A B} (x : option A) (k : A -> outcome B) :
    (forall y, match k y with Throw _ | Fuel => False | _ => True end) -> match derefO x k with Throw _ | Fuel => False | _ => True end.
  Proof. intros Hk. destruct x; cbn; [apply Hk|exact I]. Qed.
  Lemma edge_total p a : match edge_ok cands p a with Throw _ | Fuel => False | _ => True end.
  Proof. unfold edge_ok. apply derefO_total. intros n. destruct (_ && _); exact I. Qed.
  Lemma reward_total s n a : match reward s n a with Throw _ | Fuel => False | _ => True end.
  Proof.
    unfold Env.reward. destruct (a <? 0)%Z; [exact I|]. destruct (back s); [|exact I]. apply bindO_total; [apply edge_total|]. intros _.
    destruct (length s <? 3); [exact I|]. apply derefO_total. intros p. apply derefO_total. intros c. destruct (c <? 0)%Z; [exact I|].
    apply bindO_total; [apply edge_total|]. intros _. cbn zeta. destruct (if v_skip (judge s a) then _ else _) as [new1 a1].
    destruct (v_valid _ && _); [|exact I]. apply derefO_total. intros pp. apply derefO_total. intros pa. destruct (pa <? 0)%Z; [exact I|].
    apply bindO_total; [apply edge_total|]. intros _. apply bindO_total; [apply edge_total|]. intros _. exact I.
  Qed.

  (** One step does what the computation without cache does; the number returned is that of the new state. *)
  Lemma step_spec e a s : wf e -> nth_error (st_list e) (st_cur e) = Some s ->
    match pure s a with
    | Ok (ns, a', rw, d) => exists e' i, step e a = Ok (e', mkResult i (internal2action a') rw d) /\ wf e' /\ extends e e'
        /\ nth_error (st_list e') i = Some ns /\ st_cur e' = i /\ (In ns (st_list e) -> st_list e' = st_list e) /\ (forall x, In x (st_list e') -> In x (st_list e) \/ x = ns)
    | UB => step e a = UB
    | _ => False
    end.
  Proof.
    intros W N. unfold Env.step, cached.
    assert (Hc : exists row, nth_error (st_cache e) (st_cur e) = Some row).
    { destruct (nth_error (st_cache e) (st_cur e)) eqn:E; [eauto|]. apply nth_error_None in E. rewrite (wf_len e W) in E.
      assert (st_cur e < length (st_list e)) by (apply nth_error_Some; congruence). lia. }
    destruct Hc as [row Hrow]. rewrite Hrow. destruct (nth_error row a) as [[r|]|] eqn:Hr.
    1: { destruct (wf_cache e W _ _ _ _ _ Hrow Hr N) as (ns & a' & P & M & A). rewrite P. exists (set_cur e (r_state r)), (r_state r).
         rewrite <- A. split; [destruct r; reflexivity|]. split; [apply wf_cur, W|]. split; [apply extends_cur|]. cbn. auto 6. }
    all: rewrite N; cbn [derefO]; unfold pure.
    all: assert (NT : match new_state s (action2internal a) with Throw _ | Fuel => False | _ => True end)
        by (unfold Env.new_state; destruct (state_size <=? length s); [destruct (length s <? 2)|]; cbn; try exact I; destruct (back s); cbn; exact I).
    all: destruct (new_state s (action2internal a)) as [new0|x| |] eqn:En; cbn [bindO]; [|contradiction|reflexivity|contradiction].
    all: pose proof (reward_total s new0 (action2internal a)) as RT.
    all: destruct (reward s new0 (action2internal a)) as [[[rw new1] a1]|x| |] eqn:Er; cbn [bindO]; [|contradiction|reflexivity|contradiction].
    all: destruct (i2s_spec e new1 W) as (e1 & next & Ei & W1 & X1 & M1 & C1 & S1 & I1); rewrite Ei.
    all: unfold is_done; destruct (back new1) as [bk|] eqn:Eb; cbn [derefO bindO]; [|reflexivity].
    all: set (r := mkResult next (internal2action a1) rw (Z.of_nat (length cands) <=? bk)%Z).
    all: destruct (put_at_spec (st_cache e1) (st_cur e) a r) as (c' & Ep & Lc & Nc);
         [rewrite (wf_len e1 W1); apply nth_error_Some; rewrite (extends_nth e e1 _ _ X1 N); discriminate|].
    all: rewrite Ep; cbn [bindO]; eexists _, _; split; [reflexivity|].
    all: split; [|split; [destruct X1 as [l X1]; exists l; exact X1|split; [exact M1|split; [reflexivity|split; [cbn; intros H; rewrite (S1 H); reflexivity|exact I1]]]]].
    all: destruct W1 as [V1 V2 V3 V4]; constructor; cbn; auto; [congruence|].
    all: intros i row' b r' s' N1 N2 N3; rewrite Nc in N1; destruct (Nat.eqb_spec i (st_cur e)) as [->|Ni]; [|apply (V4 i row' b r' s' N1 N2 N3)].
    all: destruct (nth_error (st_cache e1) (st_cur e)) as [row1|] eqn:E1; [|discriminate]; cbn in N1; injection N1 as <-.
    all: apply put_nth in N2; destruct N2 as [[-> ->]|N2]; [|apply (V4 _ _ _ _ _ E1 N2 N3)].
    all: rewrite (extends_nth e e1 _ _ X1 N) in N3; injection N3 as <-.
    all: exists new1, a1; split; [|split; [exact M1|reflexivity]]; unfold pure; rewrite En; cbn [bindO]; rewrite Er; cbn [bindO]; unfold is_done; rewrite Eb; reflexivity.
  Qed.

  (** What a learner may do with the environment: restart, go to a state it has seen, ask for the actions, take any action. *)
  Inductive move : env -> env -> Prop :=
  | move_reset e : move e (fst (reset e))
  | move_set e i : i < length (st_list e) -> move e (set_cur e i)
  | move_actions e b e' l : actions b e = Ok (e', l) -> move e e'
  | move_step e a e' r : step e a = Ok (e', r) -> move e e'.
  Inductive moves : env -> env -> Prop :=
  | moves_none e : moves e e
  | moves_more e1 e2 e3 : move e1 e2 -> moves e2 e3 -> moves e1 e3.
  Definition history (e : env) : Prop := exists c, moves (init_env c) e.

  Lemma step_wf e a e' r : wf e -> step e a = Ok (e', r) -> wf e' /\ extends e e' /\ exists s ns a', nth_error (st_list e) (st_cur e) = Some s
    /\ pure s a = Ok (ns, a', r_reward r, r_done r) /\ nth_error (st_list e') (r_state r) = Some ns /\ r_action r = internal2action a' /\ st_cur e' = r_state r
    /\ (forall x, In x (st_list e') -> In x (st_list e) \/ x = ns).
  Proof.
    intros W E. destruct (nth_error (st_list e) (st_cur e)) as [s|] eqn:N.
    - pose proof (step_spec e a s W N) as S. destruct (pure s a) as [[[[ns a'] rw] d]|x| |] eqn:P; try contradiction; [|congruence].
      destruct S as (e1 & i & S1 & S2 & S3 & S4 & S5 & S6 & S7). rewrite S1 in E. injection E as <- <-. split; [exact S2|]. split; [exact S3|].
      exists s, ns, a'. cbn. auto 7.
    - unfold Env.step, cached in E. destruct (nth_error (st_cache e) (st_cur e)) as [row|] eqn:C.
      + apply nth_error_None in N. assert (st_cur e < length (st_cache e)) by (apply nth_error_Some; congruence). rewrite (wf_len e W) in H. lia.
      + rewrite N in E. discriminate.
  Qed.

  Lemma try_spec l : forall e e' rs s, wf e -> nth_error (st_list e) (st_cur e) = Some s -> try_actions zeroR cands state_size first_reward judge e l = Ok (e', rs) ->
    wf e' /\ extends e e' /\ st_cur e' = st_cur e /\ map fst rs = l
    /\ forall a rw, In (a, rw) rs -> exists ns a' d, pure s a = Ok (ns, a', rw, d).
  Proof.
    induction l as [|a l IH]; intros e e' rs s W N E; cbn [try_actions] in E.
    - injection E as <- <-. split; [exact W|]. split; [apply extends_refl|]. split; [reflexivity|]. split; [reflexivity|]. intros a rw [].
    - destruct (step e a) as [[e1 r]|x| |] eqn:St; try discriminate. cbn [bindO] in E.
      destruct (step_wf e a e1 r W St) as (W1 & X1 & s' & ns & a' & N' & P & _). rewrite N in N'. injection N' as <-.
      destruct (try_actions _ _ _ _ _ (set_cur e1 (st_cur e)) l) as [[e2 rs2]|x| |] eqn:Et; try discriminate. cbn in E. injection E as <- <-.
      destruct (IH _ _ _ s (wf_cur _ _ W1) (extends_nth _ _ _ _ X1 N) Et) as (W2 & X2 & C2 & M2 & R2).
      split; [exact W2|]. split; [eapply extends_trans; [exact X1|]; eapply extends_trans; [apply extends_cur|exact X2]|]. split; [exact C2|].
      split; [cbn; f_equal; exact M2|]. intros b rw [H|H]; [injection H as <- <-; eauto|apply R2, H].
  Qed.

  Lemma actions_wf b e e' l : wf e -> actions b e = Ok (e', l) -> wf e' /\ extends e e' /\ st_cur e' = st_cur e.
  Proof.
    intros W E. unfold Env.actions in E. destruct (nth_error (st_list e) (st_cur e)) as [s|] eqn:N; [|discriminate]. cbn [derefO] in E.
    assert (T : wf e /\ extends e e /\ st_cur e = st_cur e) by (split; [exact W|split; [apply extends_refl|reflexivity]]).
    destruct (back s) as [p|]; [|injection E as <- <-; exact T]. destruct (0 <? _); [|injection E as <- <-; exact T].
    destruct b; [|injection E as <- <-; exact T]. destruct (try_actions _ _ _ _ _ e _) as [[e1 rs]|x| |] eqn:Et; try discriminate. cbn in E. injection E as <- <-.
    destruct (try_spec _ _ _ _ s W N Et) as (W2 & X2 & C2 & _). auto.
  Qed.

  Lemma reset_wf e : wf e -> wf (fst (reset e)) /\ extends e (fst (reset e)) /\ st_cur (fst (reset e)) = snd (reset e)
    /\ nth_error (st_list (fst (reset e))) (snd (reset e)) = Some [0%Z].
  Proof.
    intros W. unfold Env.reset. destruct (i2s_spec e [0%Z] W) as (e1 & i & E & W1 & X1 & N1 & C1 & _). rewrite E. cbn [fst snd].
    split; [apply wf_cur, W1|]. split; [eapply extends_trans; [exact X1|apply extends_cur]|]. split; [reflexivity|exact N1].
  Qed.

  Lemma move_wf e e' : wf e -> move e e' -> wf e' /\ extends e e'.
  Proof.
    intros W M. destruct M as [e|e i Hi|e b e' l E|e a e' r E].
    - destruct (reset_wf e W) as (A & B & _). auto.
    - split; [apply wf_cur, W|apply extends_cur].
    - destruct (actions_wf _ _ _ _ W E) as (A & B & _). auto.
    - destruct (step_wf _ _ _ _ W E) as (A & B & _). auto.
  Qed.
  Lemma moves_wf e e' : moves e e' -> wf e -> wf e' /\ extends e e'.
  Proof.
    induction 1 as [e|e1 e2 e3 M Ms IH]; intros W; [split; [exact W|apply extends_refl]|]. destruct (move_wf _ _ W M) as [W2 X2].
    destruct (IH W2) as [W3 X3]. split; [exact W3|eapply extends_trans; eassumption].
  Qed.
  Lemma history_wf e : history e -> wf e.
  Proof. intros [c M]. apply (moves_wf _ _ M), wf_init. Qed.

  (** Whatever a learner does: no internal state has two numbers, the number looked up for an internal state is its place in the
      table, and a number given once stands for the same internal state ever after. *)
  Theorem C41_numbers e e' : history e -> moves e e' ->
    (forall i j s, nth_error (st_list e) i = Some s -> nth_error (st_list e) j = Some s -> i = j)
    /\ (forall i s, find_state (st_map e) s = Some i <-> nth_error (st_list e) i = Some s)
    /\ (forall i s, nth_error (st_list e) i = Some s -> nth_error (st_list e') i = Some s).
  Proof.
    intros H M. apply history_wf in H. split; [|split].
    - intros i j s A B. eapply (proj1 (NoDup_nth_error (st_list e)) (wf_nodup e H)); [apply nth_error_Some; congruence|congruence].
    - intros i s. apply find_wf, H.
    - intros i s. apply extends_nth, (moves_wf _ _ M H).
  Qed.

  (** A step gives what the rules give for the current state and the action, whether it was cached or not: the new state, the
      action, the reward and the end; it is undefined only if the rules are. *)
  Theorem C41_step e a s : history e -> nth_error (st_list e) (st_cur e) = Some s ->
    match pure s a with
    | Ok (ns, a', rw, d) => exists e' i, step e a = Ok (e', mkResult i (internal2action a') rw d) /\ nth_error (st_list e') i = Some ns /\ st_cur e' = i
    | _ => step e a = UB
    end.
  Proof.
    intros H N. apply history_wf in H. pose proof (step_spec e a s H N) as S. destruct (pure s a) as [[[[ns a'] rw] d]|x| |]; try contradiction; auto.
    destruct S as (e' & i & A & _ & _ & B & C & _). exists e', i. auto.
  Qed.

  (** The same action in the same state gives the same result at any later time, and adds no state then. *)
  Theorem C41_repeat e a e1 r e2 : history e -> step e a = Ok (e1, r) -> moves e1 e2 -> st_cur e2 = st_cur e ->
    exists e3, step e2 a = Ok (e3, r) /\ st_list e3 = st_list e2.
  Proof.
    intros H S M C. apply history_wf in H. destruct (step_wf _ _ _ _ H S) as (W1 & X1 & s & ns & a' & N & P & Nr & A & Cr & _).
    destruct (moves_wf _ _ M W1) as [W2 X2]. assert (N2 : nth_error (st_list e2) (st_cur e2) = Some s).
    { rewrite C. eapply extends_nth; [exact X2|]. eapply extends_nth; [exact X1|exact N]. }
    pose proof (step_spec e2 a s W2 N2) as S2. rewrite P in S2. destruct S2 as (e3 & i & S3 & W3 & X3 & N3 & C3 & I3 & _).
    assert (Hin : nth_error (st_list e2) (r_state r) = Some ns) by (eapply extends_nth; [exact X2|exact Nr]).
    exists e3. split; [|apply I3; eapply nth_error_In; exact Hin].
    rewrite S3. do 2 f_equal. destruct r as [rs ra rr rd]. cbn in *. rewrite A. f_equal.
    eapply (proj1 (NoDup_nth_error (st_list e3)) (wf_nodup e3 W3)); [apply nth_error_Some; congruence|]. rewrite N3. symmetry. eapply extends_nth; [exact X3|exact Hin].
  Qed.

  (** The offered actions are the edges of the measurement the state stands at, each once; without edges it is "no action". Sorting
      them by their rewards changes only their order. *)
  Theorem C41_actions b e e' l s p : history e -> nth_error (st_list e) (st_cur e) = Some s -> back s = Some p ->
    (forall x, Permutation (sort x) x) -> actions b e = Ok (e', l) ->
    st_cur e' = st_cur e /\
    match at_pos cands p with
    | Some (S n) => Permutation (map action2internal l) (map Z.of_nat (seq 0 (S n)))
        /\ (b = true -> exists rs, l = map fst (sort rs) /\ forall a rw, In (a, rw) rs -> exists ns a' d, pure s a = Ok (ns, a', rw, d))
    | _ => l = [0]
    end.
  Proof.
    intros H N Bk Hs E. apply history_wf in H. split; [apply (actions_wf b e e' l H E)|].
    unfold Env.actions in E. rewrite N in E. cbn [derefO] in E. rewrite Bk in E.
    assert (M : forall n, map action2internal (seq special_actions n) = map Z.of_nat (seq 0 n)).
    { intros n. unfold special_actions. rewrite <- !seq_shift, !map_map. apply map_ext. intros k. cbn [action2internal]. unfold special_actions. f_equal. lia. }
    destruct (at_pos cands p) as [[|n]|]; cbn [Nat.ltb Nat.leb] in E; try (injection E as <- <-; reflexivity).
    rewrite <- (M (S n)). destruct b; [|injection E as <- <-; split; [reflexivity|discriminate]].
    destruct (try_actions _ _ _ _ _ e _) as [[e1 rs]|x| |] eqn:Et; try discriminate. cbn [bindO] in E. injection E as <- <-.
    destruct (try_spec _ _ _ _ s H N Et) as (W2 & X2 & C2 & Mf & R2). split.
    - rewrite <- Mf. apply Permutation_map, Permutation_map, Hs.
    - intros _. exists rs. auto.
  Qed.

  (** *** An episode ends *)
  Lemma back_app a b : b <> [] -> back (a ++ b) = back b.
  Proof. intros H. unfold back. rewrite rev_app_distr. destruct (rev b) eqn:E; [|reflexivity]. apply (f_equal (@rev Z)) in E. rewrite rev_involutive in E. contradiction. Qed.
  Lemma back_skipn k s : k < length s -> back (skipn k s) = back s.
  Proof. intros H. rewrite <- (firstn_skipn k s) at 2. rewrite back_app; [reflexivity|]. intros E. apply (f_equal (@length Z)) in E. rewrite skipn_length in E. cbn in E. lia. Qed.
  Lemma back_snoc a x : back (a ++ [x]) = Some x.
  Proof. rewrite back_app by discriminate. reflexivity. Qed.

  Lemma new_state_shape s a ns : new_state s a = Ok ns -> exists b kept, back s = Some b /\ ns = kept ++ [a; (b + 1)%Z] /\ kept = if state_size <=? length s then skipn 2 s else s.
  Proof.
    unfold Env.new_state. intros E. destruct (back s) as [b|] eqn:B.
    - exists b. eexists. split; [reflexivity|]. split; [|reflexivity]. destruct (state_size <=? length s); [destruct (length s <? 2); [discriminate|]|]; cbn in E; injection E as <-; reflexivity.
    - destruct (state_size <=? length s); [destruct (length s <? 2); [discriminate|]|]; cbn in E; discriminate.
  Qed.

  (** What a step may lead to: the next measurement with the action remembered; or, if the environment skips, the state without
      its oldest measurement, still at the same measurement; or the end. *)
  Theorem C41_next s a ns a' rw d : pure s a = Ok (ns, a', rw, d) -> exists b, back s = Some b /\
    (  (ns = (if state_size <=? length s then skipn 2 s else s) ++ [action2internal a; (b + 1)%Z] /\ a' = action2internal a)
    \/ (3 <= length s /\ ns = skipn 2 s /\ a' = skip)
    \/ (3 < length s /\ ns = removelast s ++ [Z.of_nat (length cands)] /\ d = true)).
  Proof.
    unfold pure. destruct (new_state s (action2internal a)) as [n0|x| |] eqn:En; try discriminate. cbn [bindO].
    destruct (new_state_shape _ _ _ En) as (b & kept & B & En0 & Ek). destruct (reward s n0 (action2internal a)) as [[[rw' n1] a1]|x| |] eqn:Er; try discriminate. cbn [bindO].
    intros E. exists b. split; [exact B|].
    assert (K : n1 = ns /\ a1 = a' /\ is_done cands ns = Ok d).
    { destruct (is_done cands n1) as [d'|x| |] eqn:Ed; try discriminate. cbn in E. injection E as -> -> -> ->. auto. }
    clear E. destruct K as (-> & -> & Ed). rewrite Ek in En0. clear Ek kept. change iaction with Z in *. rewrite <- En0. revert Er. unfold Env.reward. generalize (action2internal a). intros ia.
    destruct (ia <? 0)%Z; [intros E; injection E as _ <- <-; auto|]. rewrite B.
    destruct (edge_ok cands b ia); try discriminate; cbn [bindO].
    destruct (length s <? 3) eqn:L3; [intros E; injection E as _ <- <-; auto|]. apply Nat.ltb_ge in L3.
    destruct (from_back s 3) as [cp|]; [|discriminate]. cbn [derefO]. destruct (from_back s 2) as [ca|]; [|discriminate]. cbn [derefO].
    destruct (ca <? 0)%Z; [intros E; injection E as _ <- <-; auto|]. destruct (edge_ok cands cp ca); try discriminate; cbn [bindO].
    assert (Sk : skip_state s = skipn 2 s) by (unfold skip_state; rewrite (proj2 (Nat.leb_le 3 (length s)) L3); reflexivity).
    assert (K : forall n2 a2, (if v_skip (judge s ia) then (skip_state s, skip) else (n0, ia)) = (n2, a2) ->
      (n2 = n0 /\ a2 = ia) \/ (3 <= length s /\ n2 = skipn 2 s /\ a2 = skip)).
    { intros n2 a2 E. destruct (v_skip _); injection E as <- <-; rewrite ?Sk; auto. }
    destruct (if v_skip (judge s ia) then _ else _) as [n2 a2]. specialize (K n2 a2 eq_refl).
    destruct (v_valid (judge s ia)); cbn [andb]; [|intros E; injection E as _ <- <-; tauto].
    destruct (3 <? length s) eqn:L4; [|intros E; injection E as _ <- <-; tauto]. apply Nat.ltb_lt in L4.
    destruct (from_back s 5) as [pp|]; [|discriminate]. cbn [derefO]. destruct (from_back s 4) as [pa|]; [|discriminate]. cbn [derefO].
    destruct (pa <? 0)%Z; [intros E; injection E as _ <- <-; tauto|].
    destruct (edge_ok cands cp pa); try discriminate; cbn [bindO]. destruct (edge_ok cands pp pa); try discriminate; cbn [bindO].
    destruct (v_detached _); [|intros E; injection E as _ <- <-; tauto]. intros E. injection E as _ <- <-. right. right. split; [exact L4|].
    revert Ed. unfold done_state, set_back, is_done. rewrite B, back_snoc. cbn [derefO]. rewrite Z.leb_refl. intros E. injection E as <-. auto.
  Qed.

  Definition phi (s : istate) : Z := match back s with Some b => 3 * (Z.of_nat (length cands) - b) + Z.of_nat (length s) | None => 0 end%Z.
  Lemma pure_done s a ns a' rw d : pure s a = Ok (ns, a', rw, d) -> exists b, back ns = Some b /\ d = (Z.of_nat (length cands) <=? b)%Z.
  Proof.
    unfold pure. destruct (new_state s (action2internal a)) as [n0|x| |]; try discriminate. cbn [bindO].
    destruct (reward s n0 (action2internal a)) as [[[rw' n1] a1]|x| |]; try discriminate. cbn [bindO].
    unfold is_done. destruct (back n1) as [b|] eqn:B; [|discriminate]. cbn. intros E. injection E as -> -> -> <-. eauto.
  Qed.
  Lemma pure_phi s a ns a' rw : pure s a = Ok (ns, a', rw, false) -> (phi ns < phi s /\ 4 <= phi ns)%Z.
  Proof.
    intros P. destruct (pure_done _ _ _ _ _ _ P) as (b' & B' & D). symmetry in D. apply Z.leb_gt in D.
    assert (L : (1 <= length ns)%nat) by (destruct ns; [discriminate|cbn; lia]).
    destruct (C41_next _ _ _ _ _ _ P) as (b & B & [[-> _]|[(L3 & -> & _)|(_ & _ & K)]]); [| |discriminate].
    - change (fun l => l ++ [action2internal a; (b + 1)%Z]) with (fun l => l ++ [action2internal a] ++ [(b + 1)%Z]) in *.
      assert (B2 : forall l, back (l ++ [action2internal a; (b + 1)%Z]) = Some (b + 1)%Z) by (intros l; rewrite back_app by discriminate; reflexivity).
      unfold phi. rewrite B2 in *. injection B' as <-. rewrite B, app_length. cbn [length]. rewrite app_length in L.
      destruct (state_size <=? length s); rewrite ?skipn_length in *; lia.
    - unfold phi. rewrite B'. rewrite back_skipn in B' by lia. rewrite B' in *. injection B as ->. rewrite skipn_length in *. lia.
  Qed.

  (** [n] steps none of which ends the episode, with any learner's moves between them that come back to the state *)
  Inductive run : env -> nat -> env -> Prop :=
  | run_none e : run e 0 e
  | run_step e e' a e1 r n e2 : moves e e' -> st_cur e' = st_cur e -> step e' a = Ok (e1, r) -> r_done r = false -> run e1 n e2 -> run e (S n) e2.

  Lemma run_bound e n e2 : run e n e2 -> wf e -> forall s, nth_error (st_list e) (st_cur e) = Some s -> n = 0 \/ (Z.of_nat n + 4 <= phi s)%Z.
  Proof.
    induction 1 as [e|e e' a e1 r n e2 M C S D Rn IH]; intros W s N; [left; reflexivity|right]. destruct (moves_wf _ _ M W) as [W' X'].
    destruct (step_wf _ _ _ _ W' S) as (W1 & X1 & s' & ns & a' & N' & P & Nr & _ & Cr & _). rewrite C, (extends_nth _ _ _ _ X' N) in N'. injection N' as <-.
    rewrite D in P. destruct (pure_phi _ _ _ _ _ P) as [P1 P2]. rewrite <- Cr in Nr. destruct (IH W1 ns Nr) as [->|K]; lia.
  Qed.

  (** Whatever actions are taken from the start, at most three steps for each measurement do not end the episode. *)
  Theorem C41_ends e n e' : history e -> run (fst (reset e)) n e' -> n <= 3 * length cands.
  Proof.
    intros H Rn. apply history_wf in H. destruct (reset_wf e H) as (W & _ & C & N). rewrite <- C in N. destruct (run_bound _ _ _ Rn W _ N) as [->|K]; [lia|].
    change (phi [0%Z]) with (3 * (Z.of_nat (length cands) - 0) + 1)%Z in K. lia.
  Qed.

  (** *** With the state size the settings have by default, no offered action is undefined *)
  Definition offered (s : istate) (a : nat) : Prop :=
    match back s with
    | Some p => match at_pos cands p with Some (S n) => 2 <= a < 2 + S n | _ => a = 0 end
    | None => a = 0
    end.
  Inductive play : env -> env -> Prop :=
  | play_reset e : play e (fst (reset e))
  | play_set e i : i < length (st_list e) -> play e (set_cur e i)
  | play_actions e b e' l : actions b e = Ok (e', l) -> play e e'
  | play_step e s a e' r : nth_error (st_list e) (st_cur e) = Some s -> offered s a -> step e a = Ok (e', r) -> play e e'.
  Inductive plays : env -> env -> Prop :=
  | plays_none e : plays e e
  | plays_more e1 e2 e3 : play e1 e2 -> plays e2 e3 -> plays e1 e3.

  Definition edge_at (p a : Z) : Prop := exists n, at_pos cands p = Some n /\ (0 <= a < Z.of_nat n)%Z.
  Definition ok3 (s : istate) : Prop :=
    (exists p, s = [p]) \/ (exists p a q, s = [p; a; q] /\ (a = no_action \/ edge_at p a)).
  Lemma edge_at_ok p a : edge_at p a -> edge_ok cands p a = Ok tt.
  Proof. intros (n & A & B). unfold edge_ok. rewrite A. cbn. destruct (Z.leb_spec 0 a); [|lia]. destruct (Z.ltb_spec a (Z.of_nat n)); [reflexivity|lia]. Qed.

  Lemma offered_edge s a p : back s = Some p -> offered s a -> (action2internal a = no_action) \/ edge_at p (action2internal a).
  Proof.
    intros B O. unfold offered in O. rewrite B in O. destruct (at_pos cands p) as [[|n]|] eqn:E; [left; subst; reflexivity| |left; subst; reflexivity].
    right. exists (S n). split; [exact E|]. destruct a as [|[|a]]; [lia|lia|]. cbn [action2internal]. unfold special_actions. lia.
  Qed.

  Lemma pure_safe s a : state_size = 3 -> ok3 s -> offered s a -> exists ns a' rw d, pure s a = Ok (ns, a', rw, d) /\ ok3 ns.
  Proof.
    intros S3 K O. assert (exists p, back s = Some p) as [p B] by (destruct K as [[p ->]|(p & b & q & -> & _)]; eexists; reflexivity).
    pose proof (offered_edge s a p B O) as Oe. unfold pure, Env.new_state, Env.reward. rewrite S3, B.
    destruct K as [[p' ->]|(p' & b & q & -> & Kb)]; cbn in B; injection B as ->.
    - cbn [length Nat.leb bindO derefO back rev app Nat.ltb]. destruct (Z.ltb_spec (action2internal a) 0) as [Hn|Hn].
      + cbn. eexists _, _, _, _. split; [reflexivity|]. right. exists p, (action2internal a), (p + 1)%Z. auto.
      + destruct Oe as [Oe|Oe]; [rewrite Oe in Hn; unfold no_action in Hn; lia|]. rewrite (edge_at_ok _ _ Oe). cbn. eexists _, _, _, _. split; [reflexivity|]. right.
        exists p, (action2internal a), (p + 1)%Z. auto.
    - cbn [length Nat.leb bindO derefO back rev app Nat.ltb skipn]. destruct (Z.ltb_spec (action2internal a) 0) as [Hn|Hn].
      + cbn. eexists _, _, _, _. split; [reflexivity|]. right. exists p, (action2internal a), (p + 1)%Z. auto.
      + destruct Oe as [Oe|Oe]; [rewrite Oe in Hn; unfold no_action in Hn; lia|]. rewrite (edge_at_ok _ _ Oe). cbn [bindO]. unfold from_back. cbn [length Nat.sub nth_error derefO].
        destruct (Z.ltb_spec b 0) as [Hb|Hb].
        * cbn. eexists _, _, _, _. split; [reflexivity|]. right. exists p, (action2internal a), (p + 1)%Z. auto.
        * destruct Kb as [->|Kb]; [unfold no_action in Hb; lia|]. rewrite (edge_at_ok _ _ Kb). cbn [bindO]. rewrite andb_false_r.
          destruct (v_skip _); cbn; eexists _, _, _, _; (split; [reflexivity|]); [left; exists p; reflexivity|right; exists p, (action2internal a), (p + 1)%Z; auto].
  Qed.

  Definition inv3 (e : env) : Prop := wf e /\ forall i s, nth_error (st_list e) i = Some s -> ok3 s.


  Lemma inv3_step e a e' r s : state_size = 3 -> inv3 e -> nth_error (st_list e) (st_cur e) = Some s -> offered s a -> step e a = Ok (e', r) -> inv3 e'.
  Proof.
    intros S3 [W K] N O E. destruct (step_wf _ _ _ _ W E) as (W1 & X1 & s' & ns & a' & N' & P & Nr & _ & _ & I). rewrite N in N'. injection N' as <-.
    split; [exact W1|]. intros i x Nx. apply nth_error_In in Nx. apply I in Nx. destruct Nx as [Nx| ->].
    - apply In_nth_error in Nx. destruct Nx as [j Nx]. apply (K j x Nx).
    - destruct (pure_safe s a S3 (K _ _ N) O) as (ns' & a'' & rw & d & P' & O'). rewrite P in P'. injection P' as <- _ _ _. exact O'.
  Qed.
  Lemma inv3_try l : forall e s, state_size = 3 -> inv3 e -> nth_error (st_list e) (st_cur e) = Some s -> (forall a, In a l -> offered s a) ->
    exists e' rs, try_actions zeroR cands state_size first_reward judge e l = Ok (e', rs) /\ inv3 e'.
  Proof.
    induction l as [|a l IH]; intros e s S3 K N O; cbn [try_actions]; [eauto|].
    destruct (pure_safe s a S3 (proj2 K _ _ N) (O a (or_introl eq_refl))) as (ns & a' & rw & d & P & _).
    pose proof (step_spec e a s (proj1 K) N) as S. rewrite P in S. destruct S as (e1 & i & S1 & S2 & X1 & _). rewrite S1. cbn [bindO].
    pose proof (inv3_step _ _ _ _ s S3 K N (O a (or_introl eq_refl)) S1) as [W1 K1].
    destruct (IH (set_cur e1 (st_cur e)) s S3) as (e2 & rs & E2 & K2).
    - split; [apply wf_cur, W1|exact K1].
    - apply (extends_nth _ _ _ _ X1 N).
    - intros b Hb. apply O. right. exact Hb.
    - rewrite E2. cbn. eauto.
  Qed.
  Lemma inv3_actions b e s : state_size = 3 -> inv3 e -> nth_error (st_list e) (st_cur e) = Some s -> exists e' l, actions b e = Ok (e', l) /\ inv3 e'.
  Proof.
    intros S3 K N. unfold Env.actions. rewrite N. cbn [derefO]. destruct (back s) as [p|] eqn:B; [|eauto].
    destruct (at_pos cands p) as [[|n]|] eqn:E; cbn [Nat.ltb Nat.leb]; eauto. destruct b; [|eauto].
    destruct (inv3_try (seq special_actions (S n)) e s S3 K N) as (e' & rs & T & K').
    - intros a Ha. apply in_seq in Ha. unfold offered. rewrite B, E. exact Ha.
    - rewrite T. cbn [bindO]. eauto.
  Qed.
  Lemma inv3_play e e' : state_size = 3 -> inv3 e -> play e e' -> inv3 e'.
  Proof.
    intros S3 K M. destruct M as [e|e i Hi|e b e' l E|e s a e' r N O E].
    - destruct (reset_wf e (proj1 K)) as (W1 & _). split; [exact W1|]. revert W1. unfold Env.reset.
      destruct (i2s_spec e [0%Z] (proj1 K)) as (e1 & i & Ei & _ & _ & _ & _ & _ & I). rewrite Ei. cbn. intros _ j x Nx. apply nth_error_In, I in Nx.
      destruct Nx as [Nx| ->]; [|left; eauto]. apply In_nth_error in Nx. destruct Nx as [k Nx]. apply (proj2 K k x Nx).
    - split; [apply wf_cur, K|exact (proj2 K)].
    - destruct (nth_error (st_list e) (st_cur e)) as [s|] eqn:N.
      + destruct (inv3_actions b e s S3 K N) as (e2 & l2 & E2 & K2). rewrite E in E2. injection E2 as <- <-. exact K2.
      + unfold Env.actions in E. rewrite N in E. discriminate.
    - apply (inv3_step e a e' r s S3 K N O E).
  Qed.

  (** As long as a learner takes offered actions, asking for actions and taking an offered one always works. *)
  Theorem C41_safe c e s : state_size = 3 -> plays (init_env c) e -> nth_error (st_list e) (st_cur e) = Some s ->
    (forall b, exists e' l, actions b e = Ok (e', l)) /\ (forall a, offered s a -> exists e' r, step e a = Ok (e', r)).
  Proof.
    intros S3 M N. assert (K : inv3 e).
    { assert (K0 : inv3 (init_env c)) by (split; [apply wf_init|]; intros i x H; destruct i; discriminate).
      revert K0. clear N. induction M as [e|e1 e2 e3 M Ms IH]; [auto|]. intros K0. apply IH. eapply inv3_play; eassumption. }
    split.
    - intros b. destruct (inv3_actions b e s S3 K N) as (e' & l & E & _). eauto.
    - intros a O. destruct (pure_safe s a S3 (proj2 K _ _ N) O) as (ns & a' & rw & d & P & _).
      pose proof (step_spec e a s (proj1 K) N) as S. rewrite P in S. destruct S as (e1 & i & S1 & _). eauto.
  Qed.
End C41.

(** *** Examples: two measurements with two and one edges, state size 3, rewards numbers *)
Definition ex_judge (s : istate) (a : iaction) : @verdict nat := mkVerdict 7 true false false.
Definition ex_skip (s : istate) (a : iaction) : @verdict nat := mkVerdict 9 false true false.
Definition ex_steps (judge : istate -> iaction -> @verdict nat) (cs : list nat) (size : nat) (e : @env nat) (l : list nat) : outcome (@env nat * list (@result nat)) :=
  fold_left (fun acc a => bindO acc (fun x => x) (fun '(e, rs) => bindO (step 0 cs size (fun _ _ => 5) judge e a) (fun _ => (e, rs)) (fun '(e', r) => Ok (e', rs ++ [r])))) l (Ok (e, [])).
Definition ex_start (cs : list nat) : @env nat := fst (reset cs (init_env 0)).

(** a whole episode, and the same again *)
Example C41_ex_episode :
  match ex_steps ex_judge [2; 1] 3 (ex_start [2; 1]) [3; 2] with
  | Ok (e, rs) => rs = [mkResult 1 3 5 false; mkResult 2 2 7 true] /\ st_list e = [[0]; [0; 1; 1]; [1; 0; 2]]%Z
      /\ match ex_steps ex_judge [2; 1] 3 (fst (reset [2; 1] e)) [3; 2] with Ok (e2, rs2) => rs2 = rs /\ st_list e2 = st_list e | _ => False end
  | _ => False
  end.
Proof. vm_compute. auto. Qed.
(** with skipping *)
Example C41_ex_skip :
  match ex_steps ex_skip [2; 1] 3 (ex_start [2; 1]) [3; 2; 2] with
  | Ok (e, rs) => rs = [mkResult 1 3 5 false; mkResult 2 1 9 false; mkResult 3 2 5 true] /\ st_list e = [[0]; [0; 1; 1]; [1]; [1; 0; 2]]%Z
  | _ => False
  end.
Proof. vm_compute. auto. Qed.
Example C41_ex_actions :
  match actions 0 [2; 1] 3 (fun _ _ => 5) ex_judge (fun l => rev l) true (ex_start [2; 1]) with Ok (_, l) => l = [3; 2] | _ => False end.
Proof. vm_compute. reflexivity. Qed.
Example C41_ex_safe : plays 0 [2; 1] 3 (fun _ _ => 5) ex_judge (fun l => l) (init_env 0) (ex_start [2; 1]) /\ offered [2; 1] [0%Z] 3 /\ history 0 [2; 1] 3 (fun _ _ => 5) ex_judge (fun l => l) (ex_start [2; 1]).
Proof.
  split; [|split].
  - eapply plays_more; [apply play_reset|apply plays_none].
  - cbn. lia.
  - exists 0. eapply moves_more; [apply move_reset|apply moves_none].
Qed.

(** With the larger state size the settings admit, 5, an offered action may be undefined: the edge of the measurement before is
    looked up among those of the current one. *)
Theorem C41_size_refuted : exists e, ex_steps ex_judge [3; 1; 1] 5 (ex_start [3; 1; 1]) [4; 2] = Ok e
  /\ offered [3; 1; 1] (nth (st_cur (fst e)) (st_list (fst e)) []) 2
  /\ step 0 [3; 1; 1] 5 (fun _ _ => 5) ex_judge (fst e) 2 = UB.
Proof. eexists. split; [vm_compute; reflexivity|]. split; [vm_compute; lia|vm_compute; reflexivity]. Qed.
(** The state size 1, which the settings structure admits but the program's options do not, makes the first step undefined. *)
Theorem C41_size_one_refuted cs : step 0 cs 1 (fun _ _ => 5) ex_judge (ex_start cs) 0 = UB.
Proof. unfold ex_start, reset, internal2state. cbn. destruct cs as [|[|n] cs]; reflexivity. Qed.

Print Assumptions C41_codes.
Print Assumptions C41_numbers.
Print Assumptions C41_step.
Print Assumptions C41_repeat.
Print Assumptions C41_actions.
Print Assumptions C41_next.
Print Assumptions C41_ends.
Print Assumptions C41_safe.
Print Assumptions C41_size_refuted.
Print Assumptions C41_size_one_refuted.
