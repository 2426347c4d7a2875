(** Proofs about the coordinator model. *)
From Verif Require Import Base ListAux Coordinator.

Section Proofs.
  Context {T : Type}.
  Variables threads queue_size : nat.
  Notation state := (state T).
  Notation step := (@step T threads queue_size).
  Notation internal := (@internal T threads).
  Notation client := (@client T queue_size).
  Notation reachable_state := (@reachable_state T threads queue_size).

  (** the task held by the dispatcher *)
  Definition held (d : dpc T) : list T := match d with DAcquire x | DSubmit x => [x] | _ => [] end.
  (** semaphore permits held by the dispatcher *)
  Definition permit (d : dpc T) : nat := match d with DSubmit _ => 1 | _ => 0 end.
  (** tasks being executed right now *)
  Definition executing (l : list (T * bool)) : list T := map fst (filter (fun p => negb (snd p)) l).

  Record Inv (s : state) : Prop := {
    iv_order : accepted s = started s ++ pool s ++ held (disp s) ++ q s;
    iv_started : Permutation (started s) (executing (running s) ++ done s);
    iv_sem : sem s + permit (disp s) + length (pool s) + length (running s) = queue_size;
    iv_workers : exited s + length (running s) <= threads;
    iv_qlen : length (q s) <= queue_size;
    iv_left : exited s > 0 -> pool_closed s = true /\ pool s = [];
    iv_pclosed : pool_closed s = true <-> disp s = DJoin \/ disp s = DExit;
    iv_closed : disp s = DClose \/ disp s = DJoin \/ disp s = DExit -> closed s = true;
    iv_late : disp s = DClosed \/ disp s = DClose \/ disp s = DJoin \/ disp s = DExit -> q s = late s;
    iv_exit : disp s = DExit -> exited s = threads;
    iv_idle : disp s = DIdle -> pool s = [] /\ running s = []
  }.

  Lemma executing_app a b : executing (a ++ b) = executing a ++ executing b.
  Proof. unfold executing. rewrite filter_app, map_app. reflexivity. Qed.

  Lemma executing_cons x b l : executing ((x, b) :: l) = if b then executing l else x :: executing l.
  Proof. unfold executing. destruct b; reflexivity. Qed.
  Lemma executing_nil : executing [] = [].
  Proof. reflexivity. Qed.
  Arguments executing : simpl never.

  Lemma inv_initial : Inv (initial queue_size).
  Proof.
    constructor; cbn; try lia; try reflexivity; auto.
    - split; [discriminate|intros [H|H]; discriminate].
    - intros [H|[H|H]]; discriminate.
    - discriminate.
  Qed.

  Lemma inv_client s s' : Inv s -> client s s' -> Inv s'.
  Proof.
    intros I C. destruct I as [I1 I2 I3 I4 I5 I6 I7 I8 I9 I10 I11]. destruct C as [s x Hc Hq|s x Hc|s|s Hd].
    - constructor; cbn; try assumption.
      + rewrite I1, <- !app_assoc. reflexivity.
      + rewrite app_length. cbn. lia.
      + intros H. rewrite (I9 H). reflexivity.
    - constructor; assumption.
    - constructor; cbn; try assumption; reflexivity.
    - constructor; cbn; rewrite ?Hd in *; cbn in *; try assumption; try discriminate.
      + rewrite I7. split; intros [H|H]; discriminate.
      + intros [H|[H|H]]; discriminate.
      + intros [H|[H|[H|H]]]; discriminate.
  Qed.

  Ltac easyd := repeat match goal with
    | |- _ <-> _ => split
    | |- _ -> _ => intro
    | H : _ \/ _ |- _ => destruct H
    end; try discriminate; try (left; reflexivity); try (right; reflexivity); auto.

  Lemma inv_internal s s' : Inv s -> internal s s' -> Inv s'.
  Proof.
    intros I C. destruct I as [I1 I2 I3 I4 I5 I6 I7 I8 I9 I10 I11].
    destruct C as [s Hd Hq|s Hd Hq|s Hd Hc|s Hd Hc|s x r Hd Hq|s Hd Hq Hc|s x n Hd Hs|s x Hd|s Hd|s Hd He|s x r Hw Hp
                  |s x a b Hr|s x a b Hr|s Hw Hp Hc].
    - constructor; cbn; rewrite ?Hd in *; cbn in *; try assumption; try discriminate.
      + rewrite I7. easyd.
      + easyd.
      + intros _. exact Hq.
    - constructor; cbn; rewrite ?Hd in *; cbn in *; try assumption; try discriminate.
      + rewrite I7. easyd.
      + easyd.
      + easyd.
    - constructor; cbn; rewrite ?Hd in *; cbn in *; try assumption; try discriminate.
      + rewrite I7. easyd.
      + intros _. exact Hc.
      + intros _. apply I9. auto.
    - constructor; cbn; rewrite ?Hd in *; cbn in *; try assumption; try discriminate.
      + rewrite I7. easyd.
      + easyd.
      + easyd.
    - constructor; cbn; rewrite ?Hd, ?Hq in *; cbn in *; try assumption; try discriminate; try lia.
      + rewrite I7. easyd.
      + easyd.
      + easyd.
    - constructor; cbn; rewrite ?Hd in *; cbn in *; try assumption; try discriminate.
      + rewrite I7. easyd.
      + easyd.
      + easyd.
    - constructor; cbn; rewrite ?Hd in *; cbn in *; try assumption; try discriminate; try lia.
      + rewrite I7. easyd.
      + easyd.
      + easyd.
    - constructor; cbn; rewrite ?Hd in *; cbn in *; try assumption; try discriminate.
      + rewrite I1, <- !app_assoc. reflexivity.
      + rewrite app_length. cbn. lia.
      + intros H. destruct (I6 H) as [P _]. apply I7 in P. easyd.
      + rewrite I7. easyd.
      + easyd.
      + easyd.
    - constructor; cbn; rewrite ?Hd in *; cbn in *; try assumption; try discriminate.
      + intros H. destruct (I6 H) as [P _]. apply I7 in P. easyd.
      + easyd.
      + intros _. apply I8. auto.
      + intros _. apply I9. auto.
    - constructor; cbn; rewrite ?Hd in *; cbn in *; try assumption; try discriminate.
      + rewrite I7. easyd.
      + intros _. apply I8. auto.
      + intros _. apply I9. auto.
      + intros _. exact He.
    - assert (Hidle : disp s <> DIdle) by (intros Hd; destruct (I11 Hd) as [P _]; congruence).
      constructor; cbn; try assumption.
      + rewrite I1, Hp, <- !app_assoc. reflexivity.
      + rewrite executing_app, executing_cons, executing_nil. rewrite I2. rewrite <- !app_assoc. apply Permutation_app_head, Permutation_app_comm.
      + rewrite app_length. cbn. rewrite Hp in I3. cbn in I3. lia.
      + rewrite app_length. cbn. lia.
      + intros H. destruct (I6 H) as [_ P]. congruence.
      + intros H. congruence.
    - assert (Len : length (a ++ (x, true) :: b) = length (a ++ (x, false) :: b)) by (rewrite !app_length; reflexivity).
      constructor; cbn; try assumption.
      + rewrite I2, Hr, !executing_app, !executing_cons. rewrite <- !app_assoc. apply Permutation_app_head.
        cbn [app]. rewrite (Permutation_app_comm (done s) [x]). cbn. rewrite Permutation_middle. reflexivity.
      + rewrite Len, <- Hr. exact I3.
      + rewrite Len, <- Hr. exact I4.
      + intros H. destruct (I11 H) as [P R]. rewrite Hr in R. destruct a; discriminate.
    - assert (Len : length (running s) = S (length (a ++ b))) by (rewrite Hr, !app_length; cbn; lia).
      constructor; cbn; try assumption; try lia.
      + rewrite I2, Hr, !executing_app, !executing_cons. reflexivity.
      + intros H. destruct (I11 H) as [P R]. rewrite Hr in R. destruct a; discriminate.
    - constructor; cbn; try assumption; try lia.
      + intros _. split; assumption.
      + intros H. rewrite H in *. assert (E := I10 eq_refl). lia.
  Qed.

  Lemma inv_reachable s : reachable_state s -> Inv s.
  Proof.
    induction 1 as [|s s' R IH [C|C]]; [apply inv_initial|eapply inv_client; eassumption|eapply inv_internal; eassumption].
  Qed.

  (** progress *)
  Lemma running_step s : running s <> [] -> exists s', internal s s'.
  Proof.
    destruct (running s) as [|[x b] r] eqn:E; [congruence|]. intros _. destruct b.
    - eexists. apply (w_release threads s x [] r). exact E.
    - eexists. apply (w_execute threads s x [] r). exact E.
  Qed.

  Lemma progress s : 0 < threads -> 0 < queue_size -> Inv s -> disp s <> DIdle -> disp s <> DExit ->
    (exists s', internal s s') \/ (closed s = false /\ disp s = DPull /\ q s = [] /\ pool s = [] /\ running s = []).
  Proof.
    intros Ht Hq I NI NE.
    destruct (running s) as [|y r] eqn:ER; [|left; apply running_step; rewrite ER; discriminate].
    destruct I as [I1 I2 I3 I4 I5 I6 I7 I8 I9 I10 I11]. rewrite ER in *. cbn in *.
    destruct (pool s) as [|x p] eqn:EP.
    2:{ left. eexists. eapply w_take; [|exact EP]. rewrite ER. cbn.
        destruct (exited s) eqn:EE; [lia|]. destruct (I6 ltac:(lia)) as [_ Z]. discriminate. }
    destruct (disp s) as [| | | |x|x| | |] eqn:ED; try congruence.
    - left. destruct (q s) eqn:EQ.
      + eexists. apply d_empty_true; assumption.
      + eexists. apply d_empty_false; [assumption|congruence].
    - left. destruct (closed s) eqn:EC.
      + eexists. apply d_closed_true; assumption.
      + eexists. apply d_closed_false; assumption.
    - destruct (q s) as [|x r] eqn:EQ.
      + destruct (closed s) eqn:EC.
        * left. eexists. apply d_pull_closed; assumption.
        * right. auto.
      + left. eexists. eapply d_pull; eassumption.
    - left. destruct (sem s) as [|n] eqn:ES; [cbn in I3; lia|]. eexists. eapply d_acquire; eassumption.
    - left. eexists. eapply d_submit; eassumption.
    - left. eexists. apply d_close; assumption.
    - left. destruct (Nat.eq_dec (exited s) threads) as [E|E].
      + eexists. apply d_join; assumption.
      + eexists. apply w_exit; [rewrite ER; cbn; lia|exact EP|]. apply I7. auto.
  Qed.

  (** termination after stop: a measure that every internal step decreases *)
  Definition dweight (l : list T) (d : dpc T) : nat :=
    match d with
    | DIdle => 0
    | DExit => 0 | DJoin => 1 | DClose => 2 | DClosed => 3 | DEmpty => 4
    | DPull => match l with [] => 5 | _ => 3 end
    | DSubmit _ => 8 | DAcquire _ => 9
    end.
  Definition rweight (l : list (T * bool)) : nat := length l + length (executing l).
  Definition measure (s : state) : nat :=
    10 * length (q s) + dweight (q s) (disp s) + 3 * length (pool s) + rweight (running s) + (threads - exited s).

  Lemma internal_closed s s' : internal s s' -> closed s' = closed s.
  Proof. destruct 1; reflexivity. Qed.

  Lemma internal_decreases s s' : closed s = true -> internal s s' -> measure s' < measure s.
  Proof.
    intros C H. unfold measure, rweight.
    destruct H as [s Hd Hq|s Hd Hq|s Hd Hc|s Hd Hc|s x r Hd Hq|s Hd Hq Hc|s x n Hd Hs|s x Hd|s Hd|s Hd He|s x r Hw Hp
                  |s x a b Hr|s x a b Hr|s Hw Hp Hc];
      cbn [q closed disp sem pool pool_closed running exited accepted started done late]; rewrite ?Hd, ?Hq, ?Hp, ?Hr; cbn [dweight length].
    - lia.
    - destruct (q s); [congruence|]. lia.
    - lia.
    - congruence.
    - lia.
    - lia.
    - lia.
    - rewrite app_length. cbn. lia.
    - lia.
    - lia.
    - rewrite !app_length, executing_app, app_length, executing_cons, executing_nil. cbn. lia.
    - rewrite !executing_app, !app_length, !executing_cons. cbn. lia.
    - rewrite !executing_app, !app_length, !executing_cons. cbn. lia.
    - lia.
  Qed.
End Proofs.
