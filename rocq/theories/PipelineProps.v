(** C80: the life of a matcher or comparator with its exporters, see Pipeline.v. *)
From Verif Require Import Base ListAux Coordinator CoordinatorProofs CoordinatorProps Pipeline PipelineProofs.

Lemma perm_filter {A} (f : A -> bool) l l' : Permutation l l' -> Permutation (filter f l) (filter f l').
Proof.
  induction 1; cbn; auto.
  - destruct (f x); [constructor|]; assumption.
  - destruct (f x), (f y); try reflexivity. apply perm_swap.
  - etransitivity; eassumption.
Qed.

Section C80.
  Context {T R : Type}.
  Variables threads queue_size k export_size : nat.
  Variable passes : T -> nat.
  Variable result : nat -> T -> R.
  Hypothesis passes_le : forall x, passes x <= k.
  Hypothesis threads_pos : 0 < threads.
  Hypothesis queue_pos : 0 < queue_size.
  Hypothesis export_pos : 0 < export_size.
  Notation sys := (@sys T R).
  Notation owner_step := (@owner_step T R queue_size k).
  Notation thread_step := (@thread_step T R threads k export_size passes result).
  Notation sys_step := (@sys_step T R threads queue_size k export_size passes result).
  Notation reachable := (@reachable T R threads queue_size k export_size passes result).
  Notation begin := (@begin T R queue_size export_size).

  Lemma gone_exit s : reachable s -> thrown s = false -> gone s -> disp (m s) = DExit /\ forall j, j < k -> disp (es s j) = DExit.
  Proof.
    intros Re Th G. pose proof (pinv_reachable _ _ _ _ _ _ passes_le threads_pos queue_pos export_pos _ Re) as I. split.
    - apply (pv_joined_m _ _ _ _ _ _ _ I). unfold joined_m. rewrite Th. destruct G as [-> | [-> | ->]]; reflexivity.
    - intros j Hj. apply (pv_joined_e _ _ _ _ _ _ _ I j Hj). destruct G as [-> | [-> | ->]]; reflexivity.
  Qed.

  (** C80.  If the tracks are read to their end, then once the members of the matcher are destroyed no thread is left: nothing that is destroyed is
      used, and only the owner acts. *)
  Theorem C80_safe s : reachable s -> thrown s = false -> gone s -> ~ uses_destroyed s /\ forall s', ~ thread_step s s'.
  Proof.
    intros Re Th G. destruct (gone_exit s Re Th G) as [Dm De]. pose proof (pinv_reachable _ _ _ _ _ _ passes_le threads_pos queue_pos export_pos _ Re) as I.
    destruct (exit_quiet _ _ _ threads_pos (pv_m _ _ _ _ _ _ _ I) Dm) as (Rn & P & _). split.
    - intros [_ [[x X]|[X|[[x [X|X]]|[_ X]]]]]; [rewrite Rn in X; exact X|congruence|congruence|congruence|congruence].
    - intros s' S. destruct S as [s c H E|s x r L P'|s x a b pa pb j H E L J C Q|s x a b pa pb j H E L J C|s x a b pa pb H E L|s x a b pa n pb H E L|s j c J H].
      + exact (exit_final _ _ _ _ threads_pos (pv_m _ _ _ _ _ _ _ I) Dm H).
      + congruence.
      + rewrite Rn in H. destruct a; discriminate.
      + rewrite Rn in H. destruct a; discriminate.
      + rewrite Rn in H. destruct a; discriminate.
      + rewrite Rn in H. destruct a; discriminate.
      + exact (exit_final 1 _ _ _ ltac:(lia) (pv_e _ _ _ _ _ _ _ I j) (De j J) H).
  Qed.

  (** C80.  Then every accepted task was executed, except those that were accepted after the dispatcher saw its queue empty for the last time (late);
      each exporter wrote, in the order in which it got them, the results of exactly the executed tasks that pass it a result, except for such late
      ones, which are the last. *)
  Theorem C80_results s : reachable s -> thrown s = false -> gone s ->
    Permutation (accepted (m s)) (done (m s) ++ late (m s))
    /\ forall j, j < k -> exists got, Permutation got (map (result j) (filter (fun x => j <? passes x) (done (m s)))) /\ got = done (es s j) ++ late (es s j).
  Proof.
    intros Re Th G. destruct (gone_exit s Re Th G) as [Dm De]. pose proof (pinv_reachable _ _ _ _ _ _ passes_le threads_pos queue_pos export_pos _ Re) as I.
    pose proof (reachable_m _ _ _ _ _ _ passes_le threads_pos queue_pos export_pos _ Re) as Rm.
    split; [apply (C26_join_waits threads queue_size (m s) threads_pos Rm Dm)|].
    intros j Hj. exists (accepted (es s j)). pose proof (reachable_e _ _ _ _ _ _ passes_le threads_pos queue_pos export_pos s j Re Hj) as Rj.
    destruct (exit_quiet _ _ _ threads_pos (pv_m _ _ _ _ _ _ _ I) Dm) as (Rn & _ & _).
    destruct (exit_quiet 1 _ _ ltac:(lia) (pv_e _ _ _ _ _ _ _ I j) (De j Hj)) as (Re' & Pe & Qe). split.
    - pose proof (pv_results _ _ _ _ _ _ _ I j Hj) as P. rewrite (pv_lost _ _ _ _ _ _ _ I Th j), app_nil_r, Rn in P. cbn in P. rewrite app_nil_r in P. exact P.
    - rewrite (iv_order _ _ _ (pv_e _ _ _ _ _ _ _ I j)), Pe, Qe, (De j Hj), (single_order export_size _ Rj), Re'. cbn. rewrite app_nil_r. reflexivity.
  Qed.

  (** executions in which nothing is queued between the two reads of the loop condition of a dispatcher *)
  Definition calm (s s' : sys) : Prop :=
    (disp (m s) = DClosed -> accepted (m s') = accepted (m s)) /\ forall j, j < k -> disp (es s j) = DClosed -> accepted (es s' j) = accepted (es s j).
  Inductive calm_run : sys -> Prop :=
  | calm_begin : calm_run begin
  | calm_step s s' : calm_run s -> sys_step s s' -> calm s s' -> calm_run s'.
  Lemma calm_reachable s : calm_run s -> reachable s.
  Proof. induction 1; [constructor|econstructor; eassumption]. Qed.
  Lemma calm_m s : calm_run s -> run threads queue_size undisturbed (m s).
  Proof.
    induction 1 as [|s s' Ru IH S C]; [constructor|]. pose proof (pinv_reachable _ _ _ _ _ _ passes_le threads_pos queue_pos export_pos _ (calm_reachable _ Ru)) as I. destruct C as [C _].
    destruct S as [S|S].
    - destruct (owner_m _ _ _ _ _ _ _ _ I S) as [-> |X]; [exact IH|]. eapply run_step; [exact IH|left; exact X|exact C].
    - destruct (thread_m _ _ _ _ _ _ _ S) as [-> |X]; [exact IH|]. eapply run_step; [exact IH|right; exact X|exact C].
  Qed.
  Lemma calm_e s j : calm_run s -> j < k -> run 1 export_size undisturbed (es s j).
  Proof.
    intros Ru Hj. induction Ru as [|s s' Ru IH S C]; [constructor|]. pose proof (pinv_reachable _ _ _ _ _ _ passes_le threads_pos queue_pos export_pos _ (calm_reachable _ Ru)) as I.
    destruct C as [_ C]. specialize (C j Hj). destruct S as [S|S].
    - destruct (owner_e _ _ _ _ _ _ _ _ I S j Hj) as [-> |X]; [exact IH|]. eapply run_step; [exact IH|left; exact X|exact C].
    - destruct (thread_e _ _ _ _ _ _ _ S j Hj) as [-> |[X|X]]; [exact IH| |]; (eapply run_step; [exact IH| |exact C]); [left|right]; exact X.
  Qed.
  (** C80.  In such executions every accepted task is executed and every result is written, once. *)
  Theorem C80_complete s : calm_run s -> thrown s = false -> gone s ->
    Permutation (accepted (m s)) (done (m s))
    /\ forall j, j < k -> Permutation (map (result j) (filter (fun x => j <? passes x) (accepted (m s)))) (done (es s j)).
  Proof.
    intros Ru Th G. pose proof (calm_reachable _ Ru) as Re. destruct (gone_exit s Re Th G) as [Dm De]. destruct (C80_results s Re Th G) as [A B].
    rewrite (undisturbed_late threads queue_size (m s) (calm_m s Ru) ltac:(auto)), app_nil_r in A. split; [exact A|].
    intros j Hj. destruct (B j Hj) as (got & P & E). rewrite (undisturbed_late 1 export_size (es s j) (calm_e s j Ru Hj)), app_nil_r in E.
    - subst got. symmetry. rewrite P. apply Permutation_map. apply perm_filter. symmetry. exact A.
    - pose proof (De j Hj). auto.
  Qed.

  (** every schedule ends with the matcher freed *)
  Inductive always_freed : sys -> Prop :=
  | af_freed s : owner s = OFreed -> always_freed s
  | af_step s : (exists s', sys_step s s') -> (forall s', sys_step s s' -> always_freed s') -> always_freed s.
  (** C80.  Once reading has ended, in whatever way, nothing blocks forever: neither a full queue of an exporter nor the joins of the owner. *)
  Theorem C80_ends s : reachable s -> owner s <> OStart -> owner s <> ORead -> (forall j, owner s <> OConstruct j) -> always_freed s.
  Proof.
    intros Re N1 N2 N3. assert (En : ended s) by (unfold ended; destruct (owner s) as [j| | | | | | | | ]; try exact Logic.I; [destruct (N3 j eq_refl)|destruct (N1 eq_refl)|destruct (N2 eq_refl)]).
    clear N1 N2 N3. remember (rank k (owner s)) as r eqn:Er. revert s Re En Er. induction r as [r IHr] using lt_wf_ind.
    intros s. induction s as [s IHs] using (less_ind threads queue_size k export_size passes threads_pos queue_pos export_pos). intros Re En Er.
    pose proof (pinv_reachable _ _ _ _ _ _ passes_le threads_pos queue_pos export_pos _ Re) as I.
    assert (D : owner s = OFreed \/ owner s <> OFreed) by (destruct (owner s); auto; right; discriminate). destruct D as [D|D]; [apply af_freed; exact D|].
    apply af_step; [exact (ended_step _ _ _ _ _ _ passes_le threads_pos queue_pos export_pos s I En D)|].
    intros s' S. pose proof (ended_stays _ _ _ _ _ _ s s' En S) as En'. assert (Re' : reachable s') by (econstructor; eassumption). destruct S as [S|S].
    - apply (IHr (rank k (owner s'))); auto. subst r. exact (owner_rank threads queue_size k export_size threads_pos queue_pos export_pos s s' En S).
    - apply IHs; auto. { exact (thread_less _ _ _ _ _ _ threads_pos queue_pos export_pos s s' S). } rewrite (thread_owner _ _ _ _ _ s s' S). exact Er.
  Qed.

  (** C80.  While tracks are read, the threads come to rest if nothing is queued, and then everything accepted so far is executed and written; so the
      owner never waits forever for a place in the queue. *)
  Theorem C80_reading s : reachable s -> owner s = ORead ->
    Acc (fun s' s => thread_step s s') s
    /\ ((forall s', ~ thread_step s s') -> q (m s) = [] /\ Permutation (accepted (m s)) (done (m s))
        /\ forall j, j < k -> Permutation (map (result j) (filter (fun x => j <? passes x) (accepted (m s)))) (done (es s j))).
  Proof.
    intros Re O. split; [exact (threads_end _ _ _ _ _ _ threads_pos queue_pos export_pos s)|]. intros N. pose proof (pinv_reachable _ _ _ _ _ _ passes_le threads_pos queue_pos export_pos _ Re) as I.
    assert (C : closed (m s) = false) by (rewrite (pv_closed_m _ _ _ _ _ _ _ I); unfold closed_m; rewrite O; reflexivity).
    edestruct (m_step _ _ _ _ _ _ passes_le threads_pos queue_pos export_pos s I) as [[s' S]|(_ & D & Q & P & Rn)].
    - rewrite O. reflexivity.
    - intros X. apply (pv_started_m _ _ _ _ _ _ _ I) in X. rewrite O in X. discriminate.
    - intros X. rewrite (iv_closed _ _ _ (pv_m _ _ _ _ _ _ _ I)) in C by auto. discriminate.
    - destruct (N _ S).
    - assert (A : Permutation (accepted (m s)) (done (m s))).
      { rewrite (iv_order _ _ _ (pv_m _ _ _ _ _ _ _ I)), P, D, Q. cbn. rewrite app_nil_r, (iv_started _ _ _ (pv_m _ _ _ _ _ _ _ I)), Rn. reflexivity. }
      split; [exact Q|]. split; [exact A|]. intros j Hj.
      assert (Cj : closed (es s j) = false) by (rewrite (pv_closed_e _ _ _ _ _ _ _ I j Hj), O; reflexivity).
      assert (B : Permutation (accepted (es s j)) (done (es s j))).
      { apply (C26_rests_only_when_done 1 export_size); auto; try lia.
        - exact (reachable_e _ _ _ _ _ _ passes_le threads_pos queue_pos export_pos s j Re Hj).
        - intros X. apply (pv_started_e _ _ _ _ _ _ _ I j Hj) in X. rewrite O in X. discriminate.
        - intros c X. apply (N (mkS (m s) (prog s) (upd (es s) j c) (owner s) (thrown s) (lost s))). apply t_export; assumption. }
      rewrite <- B. assert (Th : thrown s = false).
      { destruct (thrown s) eqn:E; [|reflexivity]. pose proof (pv_thrown _ _ _ _ _ _ _ I E) as X. rewrite O in X. destruct X. }
      pose proof (pv_results _ _ _ _ _ _ _ I j Hj) as X. rewrite (pv_lost _ _ _ _ _ _ _ I Th j), app_nil_r, Rn in X. cbn in X. rewrite app_nil_r in X. rewrite X.
      apply Permutation_map. apply perm_filter, A.
  Qed.

  (** C80.  An exception before the first task was accepted is harmless: nothing destroyed is used. *)
  Theorem C80_empty s : reachable s -> accepted (m s) = [] -> ~ uses_destroyed s.
  Proof.
    intros Re A [_ U]. pose proof (inv_reachable _ _ _ (reachable_m _ _ _ _ _ _ passes_le threads_pos queue_pos export_pos _ Re)) as I. pose proof (iv_order _ _ _ I) as O. rewrite A in O.
    symmetry in O. apply app_eq_nil in O as [O1 O]. apply app_eq_nil in O as [O2 O]. apply app_eq_nil in O as [O3 O4].
    pose proof (iv_started _ _ _ I) as P. rewrite O1 in P. apply Permutation_nil in P. apply app_eq_nil in P as [P _].
    destruct U as [[x X]|[X|[[x [X|X]]|[X _]]]]; [|congruence| | |congruence].
    - unfold executing in P. apply map_eq_nil in P. assert (Y : In (x, false) (filter (fun p => negb (snd p)) (running (m s)))) by (apply filter_In; auto).
      rewrite P in Y. exact Y.
    - rewrite X in O3. discriminate.
    - rewrite X in O3. discriminate.
  Qed.
End C80.

(** **** Executions of one worker and one exporter, queues of one place. *)
Definition small_reachable := @reachable nat nat 1 1 1 1 (fun _ => 1) (fun _ x => x).
Ltac norm H := cbv [with_m with_e at_owner begin initial c_start c_stop c_accept upd m prog es owner thrown lost Nat.eqb
  q closed disp sem pool pool_closed running exited accepted started done late app] in H.
Tactic Notation "ostep" hyp(R) tactic3(c) := let H := fresh "R" in
  eassert (H : small_reachable _) by (eapply reach_step; [exact R|left; c]); norm H; clear R; rename H into R.
Tactic Notation "tstep" hyp(R) tactic3(c) := let H := fresh "R" in
  eassert (H : small_reachable _) by (eapply reach_step; [exact R|right; c]); norm H; clear R; rename H into R.
Ltac triv := cbn; first [reflexivity|lia|discriminate].

(** C80 is false after an exception while tracks are read: the exporters and the other members of the matcher are destroyed while a worker still
    executes a task, because only the destructor of the base class, which comes last, waits for the workers. *)
Theorem C80_exception_refuted : exists s, small_reachable s /\ thrown s = true /\ owner s = OGone /\ running (m s) = [(7, false)] /\ uses_destroyed s
  /\ exists s', thread_step 1 1 1 (fun _ => 1) (fun _ x => x) s s' /\ lost s' 0 = [7].
Proof.
  assert (R : small_reachable (begin 1 1)) by constructor. norm R.
  ostep R (eapply (o_start_e 1 1 _ 0); triv).
  ostep R (eapply o_constructed; triv).
  ostep R (eapply o_start; triv).
  ostep R (eapply (o_queue _ _ _ 7); triv).
  tstep R (eapply t_other; [eapply d_empty_false; triv|triv]).
  tstep R (eapply t_other; [eapply d_pull; triv|triv]).
  tstep R (eapply t_other; [eapply d_acquire; triv|triv]).
  tstep R (eapply t_other; [eapply d_submit; triv|triv]).
  tstep R (eapply t_take; triv).
  ostep R (eapply o_throw; triv).
  ostep R (eapply (o_stop_e 1 1 _ 0); triv).
  ostep R (eapply o_stopped; triv).
  tstep R (eapply (t_export _ _ _ _ _ _ 0); [triv|eapply d_empty_true; triv]).
  tstep R (eapply (t_export _ _ _ _ _ _ 0); [triv|eapply d_closed_true; triv]).
  tstep R (eapply (t_export _ _ _ _ _ _ 0); [triv|eapply d_close; triv]).
  tstep R (eapply (t_export _ _ _ _ _ _ 0); [triv|eapply w_exit; triv]).
  tstep R (eapply (t_export _ _ _ _ _ _ 0); [triv|eapply d_join; triv]).
  ostep R (eapply (o_join_e 1 1 _ 0); triv).
  ostep R (eapply o_gone; triv).
  eexists. split; [exact R|]. split; [reflexivity|]. split; [reflexivity|]. split; [reflexivity|]. split.
  - split; [left; reflexivity|]. left. exists 7. left. reflexivity.
  - eexists. split; [eapply (t_drop _ _ _ _ _ _ 7 [] [] [] [] 0); triv|reflexivity].
Qed.

(** C80: without calm, a result that was computed and accepted by the exporter can be missing in the output although all went well. *)
Theorem C80_lost_refuted : exists s, small_reachable s /\ thrown s = false /\ owner s = OFreed
  /\ accepted (m s) = [7] /\ done (m s) = [7] /\ accepted (es s 0) = [7] /\ done (es s 0) = [].
Proof.
  assert (R : small_reachable (begin 1 1)) by constructor. norm R.
  ostep R (eapply (o_start_e 1 1 _ 0); triv).
  ostep R (eapply o_constructed; triv).
  ostep R (eapply o_start; triv).
  ostep R (eapply (o_queue _ _ _ 7); triv).
  tstep R (eapply t_other; [eapply d_empty_false; triv|triv]).
  tstep R (eapply t_other; [eapply d_pull; triv|triv]).
  tstep R (eapply t_other; [eapply d_acquire; triv|triv]).
  tstep R (eapply t_other; [eapply d_submit; triv|triv]).
  tstep R (eapply t_take; triv).
  tstep R (eapply (t_export _ _ _ _ _ _ 0); [triv|eapply d_empty_true; triv]).
  tstep R (eapply (t_pass _ _ _ _ _ _ 7 [] [] [] [] 0); triv).
  tstep R (eapply (t_execute _ _ _ _ _ _ 7 [] [] [] []); triv).
  tstep R (eapply (t_release _ _ _ _ _ _ 7 [] [] [] _ []); triv).
  ostep R (eapply o_end; triv).
  tstep R (eapply t_other; [eapply d_empty_true; triv|triv]).
  tstep R (eapply t_other; [eapply d_closed_true; triv|triv]).
  tstep R (eapply t_other; [eapply d_close; triv|triv]).
  tstep R (eapply t_other; [eapply w_exit; triv|triv]).
  tstep R (eapply t_other; [eapply d_join; triv|triv]).
  ostep R (eapply o_joined; triv).
  ostep R (eapply (o_stop_e 1 1 _ 0); triv).
  ostep R (eapply o_stopped; triv).
  tstep R (eapply (t_export _ _ _ _ _ _ 0); [triv|eapply d_closed_true; triv]).
  tstep R (eapply (t_export _ _ _ _ _ _ 0); [triv|eapply d_close; triv]).
  tstep R (eapply (t_export _ _ _ _ _ _ 0); [triv|eapply w_exit; triv]).
  tstep R (eapply (t_export _ _ _ _ _ _ 0); [triv|eapply d_join; triv]).
  ostep R (eapply (o_join_e 1 1 _ 0); triv).
  ostep R (eapply o_gone; triv).
  ostep R (eapply o_base; triv).
  ostep R (eapply o_freed; triv).
  eexists. split; [exact R|]. repeat split; reflexivity.
Qed.

(** a calm execution: task 5 passes its result, task 6 fails before; with two places in the queue of the matcher *)
Definition ex_passes (x : nat) : nat := if x =? 5 then 1 else 0.
Definition ex_calm := calm_run (T := nat) (R := nat) 1 2 1 1 ex_passes (fun j x => 10 * x + j).
Tactic Notation "cstep_" hyp(R) tactic3(c) := let H := fresh "R" in
  eassert (H : ex_calm _) by (eapply calm_step; [exact R|c|split; [cbn; intros X; first [discriminate X|reflexivity]|intros j Hj X; assert (j = 0) by lia; subst j; cbn in X |- *; first [discriminate X|reflexivity]]]);
  norm H; clear R; rename H into R.
Example C80_complete_ex : exists s, ex_calm s /\ thrown s = false /\ gone s /\ accepted (m s) = [5; 6] /\ done (es s 0) = [50].
Proof.
  assert (R : ex_calm (begin 2 1)) by constructor. norm R.
  cstep_ R (left; eapply (o_start_e 2 1 _ 0); triv).
  cstep_ R (left; eapply o_constructed; triv).
  cstep_ R (left; eapply o_start; triv).
  cstep_ R (left; eapply (o_queue _ _ _ 5); triv).
  cstep_ R (left; eapply (o_queue _ _ _ 6); triv).
  cstep_ R (right; eapply t_other; [eapply d_empty_false; triv|triv]).
  cstep_ R (right; eapply t_other; [eapply d_pull; triv|triv]).
  cstep_ R (right; eapply t_other; [eapply d_acquire; triv|triv]).
  cstep_ R (right; eapply t_other; [eapply d_submit; triv|triv]).
  cstep_ R (right; eapply t_take; triv).
  cstep_ R (right; eapply t_other; [eapply d_empty_false; triv|triv]).
  cstep_ R (right; eapply t_other; [eapply d_pull; triv|triv]).
  cstep_ R (right; eapply (t_pass _ _ _ _ _ _ 5 [] [] [] [] 0); triv).
  cstep_ R (right; eapply (t_execute _ _ _ _ _ _ 5 [] [] [] []); triv).
  cstep_ R (right; eapply (t_release _ _ _ _ _ _ 5 [] [] [] _ []); triv).
  cstep_ R (left; eapply o_end; triv).
  cstep_ R (right; eapply t_other; [eapply d_acquire; triv|triv]).
  cstep_ R (right; eapply t_other; [eapply d_submit; triv|triv]).
  cstep_ R (right; eapply t_take; triv).
  cstep_ R (right; eapply (t_execute _ _ _ _ _ _ 6 [] [] [] []); triv).
  cstep_ R (right; eapply (t_release _ _ _ _ _ _ 6 [] [] [] _ []); triv).
  cstep_ R (right; eapply t_other; [eapply d_empty_true; triv|triv]).
  cstep_ R (right; eapply t_other; [eapply d_closed_true; triv|triv]).
  cstep_ R (right; eapply t_other; [eapply d_close; triv|triv]).
  cstep_ R (right; eapply t_other; [eapply w_exit; triv|triv]).
  cstep_ R (right; eapply t_other; [eapply d_join; triv|triv]).
  cstep_ R (left; eapply o_joined; triv).
  cstep_ R (left; eapply (o_stop_e 2 1 _ 0); triv).
  cstep_ R (left; eapply o_stopped; triv).
  cstep_ R (right; eapply (t_export _ _ _ _ _ _ 0); [triv|eapply d_empty_false; triv]).
  cstep_ R (right; eapply (t_export _ _ _ _ _ _ 0); [triv|eapply d_pull; triv]).
  cstep_ R (right; eapply (t_export _ _ _ _ _ _ 0); [triv|eapply d_acquire; triv]).
  cstep_ R (right; eapply (t_export _ _ _ _ _ _ 0); [triv|eapply d_submit; triv]).
  cstep_ R (right; eapply (t_export _ _ _ _ _ _ 0); [triv|eapply w_take; triv]).
  cstep_ R (right; eapply (t_export _ _ _ _ _ _ 0); [triv|eapply (w_execute 1 _ _ [] []); triv]).
  cstep_ R (right; eapply (t_export _ _ _ _ _ _ 0); [triv|eapply (w_release 1 _ _ [] []); triv]).
  cstep_ R (right; eapply (t_export _ _ _ _ _ _ 0); [triv|eapply d_empty_true; triv]).
  cstep_ R (right; eapply (t_export _ _ _ _ _ _ 0); [triv|eapply d_closed_true; triv]).
  cstep_ R (right; eapply (t_export _ _ _ _ _ _ 0); [triv|eapply d_close; triv]).
  cstep_ R (right; eapply (t_export _ _ _ _ _ _ 0); [triv|eapply w_exit; triv]).
  cstep_ R (right; eapply (t_export _ _ _ _ _ _ 0); [triv|eapply d_join; triv]).
  cstep_ R (left; eapply (o_join_e 2 1 _ 0); triv).
  cstep_ R (left; eapply o_gone; triv).
  eexists. split; [exact R|]. split; [reflexivity|]. split; [left; reflexivity|]. split; reflexivity.
Qed.

Print Assumptions C80_safe.
Print Assumptions C80_results.
Print Assumptions C80_complete.
Print Assumptions C80_ends.
Print Assumptions C80_reading.
Print Assumptions C80_empty.
Print Assumptions C80_exception_refuted.
Print Assumptions C80_lost_refuted.
