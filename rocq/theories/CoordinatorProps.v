(** Property C26: the coordinator, for all schedules, thread counts, queue sizes and client behaviours. *)
From Verif Require Import Base ListAux Coordinator CoordinatorProofs.

Section Props.
  Context {T : Type}.
  Variables threads queue_size : nat.
  Notation state := (state T).
  Notation step := (@step T threads queue_size).
  Notation internal := (@internal T threads).
  Notation reachable_state := (@reachable_state T threads queue_size).

  (** C26.  In every reachable state each accepted task is in exactly one place: begun, waiting in the pool, held by the
      dispatcher, or waiting in the queue, and tasks begin in the order in which they were accepted.  Each begun task is
      either being executed or was executed once.  At most [threads] tasks are executed at the same time; at most
      [queue_size] tasks are submitted and not finished. *)
  Theorem C26_at_most_once s : reachable_state s ->
    accepted s = started s ++ pool s ++ held (disp s) ++ q s /\
    Permutation (started s) (executing (running s) ++ done s) /\
    length (executing (running s)) <= threads /\
    length (pool s) + length (running s) <= queue_size /\
    length (q s) <= queue_size.
  Proof.
    intros R. destruct (inv_reachable threads queue_size s R) as [I1 I2 I3 I4 I5 I6 I7 I8 I9 I10 I11].
    split; [exact I1|]. split; [exact I2|]. split; [|split; [lia|exact I5]].
    unfold executing. rewrite map_length. assert (Z := filter_length_le (fun p : T * bool => negb (snd p)) (running s)). lia.
  Qed.

  (** C26.  When [join] returns, [stop] was called, nothing is running or waiting in the pool, and every accepted task
      was executed exactly once, except those accepted after the dispatcher last found the queue empty. *)
  Theorem C26_join_waits s : 0 < threads -> reachable_state s -> disp s = DExit ->
    closed s = true /\ running s = [] /\ pool s = [] /\ q s = late s /\
    Permutation (accepted s) (done s ++ late s).
  Proof.
    intros Ht R D. destruct (inv_reachable threads queue_size s R) as [I1 I2 I3 I4 I5 I6 I7 I8 I9 I10 I11].
    assert (E := I10 D). assert (Rn : running s = []) by (destruct (running s); [reflexivity|cbn in *; lia]).
    destruct (I6 ltac:(lia)) as [_ P]. assert (L : q s = late s) by (apply I9; auto).
    split; [apply I8; auto|]. split; [exact Rn|]. split; [exact P|]. split; [exact L|].
    rewrite I1, P, D, L. cbn [held app]. apply Permutation_app_tail. rewrite I2, Rn. reflexivity.
  Qed.

  (** executions in which every step satisfies [P] *)
  Inductive run (P : state -> state -> Prop) : state -> Prop :=
  | run_init : run P (initial queue_size)
  | run_step s s' : run P s -> step s s' -> P s s' -> run P s'.

  Lemma run_reachable P s : run P s -> reachable_state s.
  Proof. induction 1; [constructor|econstructor; eassumption]. Qed.

  (** no task is accepted between the two reads of the loop condition of the dispatcher *)
  Definition undisturbed (s s' : state) : Prop := disp s = DClosed -> accepted s' = accepted s.

  Lemma undisturbed_late s : run undisturbed s ->
    disp s = DClosed \/ disp s = DClose \/ disp s = DJoin \/ disp s = DExit -> late s = [].
  Proof.
    induction 1 as [|s s' R IH S U]; [reflexivity|]. intros D.
    assert (IV := inv_reachable threads queue_size s (run_reachable _ _ R)).
    destruct S as [C|C].
    - destruct C as [s x Hc Hq|s x Hc|s|s Hd]; cbn in *; auto.
      + exfalso. destruct D as [D|D].
        * specialize (U D). symmetry in U. rewrite <- (app_nil_r (accepted s)) in U at 1. apply app_inv_head in U. discriminate.
        * rewrite (iv_closed _ _ _ IV D) in Hc. discriminate.
      + destruct D as [D|[D|[D|D]]]; discriminate.
    - destruct C; cbn in *; auto; try (destruct D as [D|[D|[D|D]]]; discriminate); apply IH; rewrite H; auto.
  Qed.

  (** C26.  In executions without such an interference every accepted task was executed exactly once when [join]
      returns. *)
  Theorem C26_exactly_once s : 0 < threads -> run undisturbed s -> disp s = DExit ->
    Permutation (accepted s) (done s).
  Proof.
    intros Ht R D. destruct (C26_join_waits s Ht (run_reachable _ _ R) D) as (_ & _ & _ & _ & P).
    rewrite (undisturbed_late s R ltac:(auto)), app_nil_r in P. exact P.
  Qed.

  (** every schedule of dispatcher and workers ends with the dispatcher having left *)
  Inductive always_joins : state -> Prop :=
  | aj_exit s : disp s = DExit -> always_joins s
  | aj_step s : (exists s', internal s s') -> (forall s', internal s s' -> always_joins s') -> always_joins s.

  Lemma no_idle s s' : internal s s' -> disp s <> DIdle -> disp s' <> DIdle.
  Proof. destruct 1; cbn; congruence. Qed.

  (** C26.  Once [stop] was called the coordinator cannot deadlock or run forever: every schedule leads to the return of
      [join]. *)
  Theorem C26_no_deadlock s : 0 < threads -> 0 < queue_size -> reachable_state s -> disp s <> DIdle -> closed s = true ->
    always_joins s.
  Proof.
    intros Ht Hq. remember (measure threads s) as n eqn:En. revert s En.
    induction n as [n IH] using lt_wf_ind. intros s En R NI C.
    destruct (disp s) as [| | | |x|x| | |] eqn:D; try congruence; try (apply aj_exit; exact D).
    all: apply aj_step; [
      destruct (progress threads queue_size s Ht Hq (inv_reachable _ _ s R)) as [P|(P & _)];
        [congruence|congruence|exact P|congruence]
    | intros s' S; eapply (IH (measure threads s'));
        [rewrite En; apply internal_decreases; assumption|reflexivity|eapply r_step; [exact R|right; exact S]
        |eapply no_idle; [exact S|congruence]|rewrite (internal_closed _ _ _ S); exact C]].
  Qed.

  (** calls of clients after [stop] change nothing, so they cannot prevent the above *)
  Theorem C26_clients_after_stop s s' : reachable_state s -> disp s <> DIdle -> closed s = true ->
    client queue_size s s' -> s' = s.
  Proof.
    intros R NI C S. destruct S as [s x Hc|s x Hc|s|s Hd]; try congruence.
    destruct s; cbn in *. subst. reflexivity.
  Qed.

  (** C26.  Before [stop]: the started coordinator only rests when every accepted task has been executed, so a full
      queue is always emptied again. *)
  Theorem C26_rests_only_when_done s : 0 < threads -> 0 < queue_size -> reachable_state s -> disp s <> DIdle -> closed s = false ->
    (forall s', ~ internal s s') -> q s = [] /\ Permutation (accepted s) (done s).
  Proof.
    intros Ht Hq R NI C N. assert (I := inv_reachable _ _ s R).
    destruct (progress threads queue_size s Ht Hq I NI) as [(s' & P)|(_ & D & Q & P & Rn)].
    - intros D. rewrite (iv_closed _ _ _ I) in C by auto. discriminate.
    - exfalso. eapply N. exact P.
    - split; [exact Q|]. rewrite (iv_order _ _ _ I), P, D, Q. cbn [held app]. rewrite app_nil_r.
      rewrite (iv_started _ _ _ I), Rn. reflexivity.
  Qed.
End Props.

(** C26 without that restriction is false: for every thread count and queue size there is an execution in which a task
    accepted before [stop] is never begun although [join] returns.  The dispatcher reads [empty()] as true, then a
    client queues a task and calls [stop], then the dispatcher reads [closed()] as true. *)
Theorem C26_lost_task_refuted : forall threads queue_size, 0 < queue_size -> exists s : state nat,
  reachable_state threads queue_size s /\ disp s = DExit /\ accepted s = [7] /\ started s = [] /\ done s = [].
Proof.
  intros threads n Hn.
  assert (H : forall k, k <= threads -> reachable_state threads n (mkC [7] true DJoin n [] true [] k [7] [] [] [7])).
  { induction k as [|k IH]; intros Hk.
    - eapply r_step; [|right; apply (d_close threads (mkC [7] true DClose n [] false [] 0 [7] [] [] [7])); reflexivity].
      eapply r_step; [|right; apply (d_closed_true threads (mkC [7] true DClosed n [] false [] 0 [7] [] [] [7])); reflexivity].
      eapply r_step; [|left; apply (stop n (mkC [7] false DClosed n [] false [] 0 [7] [] [] [7]))].
      eapply r_step; [|left; apply (queue_accept n (mkC [] false DClosed n [] false [] 0 [] [] [] []) 7); [reflexivity|exact Hn]].
      eapply r_step; [|right; apply (d_empty_true threads (mkC [] false DEmpty n [] false [] 0 [] [] [] [])); reflexivity].
      eapply r_step; [|left; apply (start n (initial n)); reflexivity].
      apply r_init.
    - eapply r_step; [apply IH; lia|]. right.
      apply (w_exit threads (mkC [7] true DJoin n [] true [] k [7] [] [] [7])); cbn; [lia|reflexivity|reflexivity]. }
  exists (mkC [7] true DExit n [] true [] threads [7] [] [] [7]).
  split; [|repeat split].
  eapply r_step; [apply (H threads); lia|]. right.
  apply (d_join threads (mkC [7] true DJoin n [] true [] threads [7] [] [] [7])); reflexivity.
Qed.

Ltac und := intros D; cbn in D; first [discriminate D | reflexivity].
Tactic Notation "cstep" hyp(R) tactic3(c) := let H := fresh "R" in
  eassert (H : run 2 4 undisturbed _) by (eapply run_step; [exact R|left; c|und]); cbn in H; clear R; rename H into R.
Tactic Notation "istep" hyp(R) tactic3(c) := let H := fresh "R" in
  eassert (H : run 2 4 undisturbed _) by (eapply run_step; [exact R|right; c|und]); cbn in H; clear R; rename H into R.

(** an undisturbed execution that has two tasks running at the same time when [stop] is called, with the dispatcher
    waiting on the empty queue: the hypotheses of the theorems are met *)
Example C26_case : exists s : state nat, run 2 4 undisturbed s /\ disp s = DPull /\ closed s = true /\
  executing (running s) = [5; 6] /\ accepted s = [5; 6].
Proof.
  assert (R : run 2 4 undisturbed (initial 4 : state nat)) by constructor. unfold initial in R.
  cstep R (apply start; reflexivity).
  cstep R (apply (queue_accept 4 _ 5); [reflexivity|cbn; lia]).
  cstep R (apply (queue_accept 4 _ 6); [reflexivity|cbn; lia]).
  istep R (apply d_empty_false; [reflexivity|discriminate]).
  istep R (eapply d_pull; reflexivity).
  istep R (eapply d_acquire; reflexivity).
  istep R (eapply d_submit; reflexivity).
  istep R (apply d_empty_false; [reflexivity|discriminate]).
  istep R (eapply d_pull; reflexivity).
  istep R (eapply d_acquire; reflexivity).
  istep R (eapply d_submit; reflexivity).
  istep R (eapply w_take; [cbn; lia|reflexivity]).
  istep R (apply d_empty_true; reflexivity).
  istep R (eapply w_take; [cbn; lia|reflexivity]).
  istep R (apply d_closed_false; reflexivity).
  cstep R (apply stop).
  eexists. split; [exact R|]. repeat split; reflexivity.
Qed.

Print Assumptions C26_at_most_once.
Print Assumptions C26_join_waits.
Print Assumptions C26_exactly_once.
Print Assumptions C26_no_deadlock.
Print Assumptions C26_clients_after_stop.
Print Assumptions C26_rests_only_when_done.
Print Assumptions C26_lost_task_refuted.
