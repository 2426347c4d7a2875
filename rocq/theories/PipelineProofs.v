(** Proofs about the pipeline of a matcher and its exporters. *)
From Verif Require Import Base ListAux Coordinator CoordinatorProofs Pipeline.

Ltac internal_cases H := destruct H as [s Hd Hq|s Hd Hq|s Hd Hc|s Hd Hc|s x r Hd Hq|s Hd Hq Hc|s x n Hd Hs|s x Hd|s Hd|s Hd He|s x r Hw Hp
                  |s x a b Hr|s x a b Hr|s Hw Hp Hc].

(** **** More about one coordinator. *)
Section One.
  Context {T : Type}.
  Variables threads queue_size : nat.
  Notation Inv := (@Inv T threads queue_size).

  Lemma exit_final (s s' : state T) : 0 < threads -> Inv s -> disp s = DExit -> ~ internal threads s s'.
  Proof.
    intros Ht [I1 I2 I3 I4 I5 I6 I7 I8 I9 I10 I11] D H. pose proof (I10 D) as E.
    assert (Rn : running s = []) by (destruct (running s); [reflexivity|cbn in *; lia]).
    destruct (I6 ltac:(lia)) as [_ P].
    internal_cases H; try congruence; try (rewrite Rn in *; cbn in *; lia); try (destruct a; cbn in Hr; congruence); lia.
  Qed.
  Lemma exit_quiet (s : state T) : 0 < threads -> Inv s -> disp s = DExit -> running s = [] /\ pool s = [] /\ q s = late s.
  Proof.
    intros Ht [I1 I2 I3 I4 I5 I6 I7 I8 I9 I10 I11] D. pose proof (I10 D) as E.
    split; [destruct (running s); [reflexivity|cbn in *; lia]|]. split; [apply I6; lia|]. apply I9. auto.
  Qed.
  Lemma internal_kind (s s' : state T) : internal threads s s' ->
    running s' = running s
    \/ (exists x r, exited s + length (running s) < threads /\ pool s = x :: r /\ s' =
         mkC (q s) (closed s) (disp s) (sem s) r (pool_closed s) (running s ++ [(x, false)]) (exited s) (accepted s) (started s ++ [x]) (done s) (late s))
    \/ running s <> [].
  Proof.
    intros H. internal_cases H; cbn; auto.
    - right. left. exists x, r. auto.
    - right. right. intros E. rewrite E in Hr. destruct a; discriminate.
    - right. right. intros E. rewrite E in Hr. destruct a; discriminate.
  Qed.

  (** a measure that every internal step decreases, also before [stop] *)
  Definition dweight_open (d : dpc T) : nat :=
    match d with
    | DIdle => 0 | DExit => 0 | DJoin => 1 | DClose => 2 | DPull => 3 | DClosed => 4 | DEmpty => 5 | DSubmit _ => 9 | DAcquire _ => 10
    end.
  Definition work (s : state T) : nat :=
    if closed s then measure threads s
    else 10 * length (q s) + dweight_open (disp s) + 3 * length (pool s) + rweight (running s) + (threads - exited s).
  Lemma internal_work (s s' : state T) : internal threads s s' -> work s' < work s.
  Proof.
    intros H. unfold work. rewrite (internal_closed _ _ _ H). destruct (closed s) eqn:C; [apply internal_decreases; assumption|].
    unfold rweight.
    internal_cases H;
      cbn [q closed disp sem pool pool_closed running exited accepted started done late]; rewrite ?Hd, ?Hq, ?Hp, ?Hr; cbn [dweight_open length].
    - lia.
    - lia.
    - lia.
    - lia.
    - lia.
    - congruence.
    - lia.
    - rewrite app_length. cbn. lia.
    - lia.
    - lia.
    - rewrite !app_length, executing_app, app_length, executing_cons, executing_nil. cbn. lia.
    - rewrite !executing_app, !app_length, !executing_cons. cbn. lia.
    - rewrite !executing_app, !app_length, !executing_cons. cbn. lia.
    - lia.
  Qed.

  Lemma accept_client (s : state T) x : closed s = false -> length (q s) < queue_size -> client queue_size s (c_accept s x).
  Proof. intros. apply queue_accept; assumption. Qed.
  Lemma stop_client (s : state T) : client queue_size s (c_stop s).
  Proof. apply stop. Qed.
  Lemma start_client (s : state T) : disp s = DIdle -> client queue_size s (c_start s).
  Proof. intros. apply start; assumption. Qed.
End One.

(** with one thread the tasks end in the order in which they are accepted *)
Section Single.
  Context {T : Type}.
  Variable queue_size : nat.
  Lemma single_order (s : state T) : reachable_state 1 queue_size s -> started s = done s ++ executing (running s).
  Proof.
    induction 1 as [|s s' R IH S]; [reflexivity|]. pose proof (iv_workers _ _ _ (inv_reachable 1 queue_size s R)) as W.
    destruct S as [C|C].
    - destruct C; cbn; assumption.
    - internal_cases C; cbn; try assumption.
      + rewrite IH. assert (Rn : running s = []) by (destruct (running s); [reflexivity|cbn in *; lia]). rewrite Rn. cbn. rewrite app_nil_r. reflexivity.
      + rewrite Hr in *. rewrite app_length in W. cbn in W. destruct a as [|]; [|cbn in W; lia]. destruct b; [|cbn in W; lia].
        rewrite IH. cbn. rewrite app_nil_r. reflexivity.
      + rewrite Hr in *. rewrite app_length in W. cbn in W. destruct a as [|]; [|cbn in W; lia]. destruct b; [|cbn in W; lia].
        rewrite IH. cbn. reflexivity.
  Qed.
End Single.

Section Pipe.
  Context {T R : Type}.
  Variables threads queue_size k export_size : nat.
  Variable passes : T -> nat.
  Variable result : nat -> T -> R.
  Hypothesis passes_le : forall x, passes x <= k.
  Hypothesis Tpos : 0 < threads.
  Hypothesis Qpos : 0 < queue_size.
  Hypothesis Epos : 0 < export_size.
  Notation sys := (@sys T R).
  Notation owner_step := (@owner_step T R queue_size k).
  Notation thread_step := (@thread_step T R threads k export_size passes result).
  Notation sys_step := (@sys_step T R threads queue_size k export_size passes result).
  Notation reachable := (@reachable T R threads queue_size k export_size passes result).
  Notation begin := (@begin T R queue_size export_size).

  Lemma upd_same {A} (f : nat -> A) j a : upd f j a j = a.
  Proof. unfold upd. rewrite Nat.eqb_refl. reflexivity. Qed.
  Lemma upd_other {A} (f : nat -> A) j a i : i <> j -> upd f j a i = f i.
  Proof. intros N. unfold upd. rewrite (proj2 (Nat.eqb_neq _ _) N). reflexivity. Qed.
  Lemma upd_cases {A} (f : nat -> A) j a i : (i = j /\ upd f j a i = a) \/ (i <> j /\ upd f j a i = f i).
  Proof. destruct (Nat.eq_dec i j) as [->|N]; [left|right]; auto using upd_same, upd_other. Qed.

  (** the states of the coordinators that belong to a place of the owner *)
  Definition started_m (o : opc) : bool := match o with OConstruct _ | OStart => false | _ => true end.
  Definition started_e (o : opc) (j : nat) : bool := match o with OConstruct i => j <? i | _ => true end.
  Definition stopped_e (o : opc) (j : nat) : bool := match o with OConstruct _ | OStart | ORead | OJoin => false | OStop i => j <? i | _ => true end.
  Definition joined_e (o : opc) (j : nat) : bool := match o with OJoinE i => j <? i | OGone | OBase | OFreed => true | _ => false end.
  Definition joined_m (s : sys) : bool := match owner s with OStop _ | OJoinE _ | OGone | OBase => negb (thrown s) | OFreed => true | _ => false end.
  Definition closed_m (s : sys) : bool := match owner s with OConstruct _ | OStart | ORead => false | OJoin | OBase | OFreed => true | _ => negb (thrown s) end.
  Definition within (o : opc) : Prop := match o with OConstruct j | OStop j | OJoinE j => j <= k | _ => True end.

  (** results that workers have passed to exporter [j] and that are not counted by [done] *)
  Fixpoint passed (j : nat) (r : list (T * bool)) (p : list nat) : list T :=
    match r, p with
    | (x, b) :: r', n :: p' => (if negb b && (j <? n) then [x] else []) ++ passed j r' p'
    | _, _ => []
    end.
  Lemma passed_app j a b pa pb : length pa = length a -> passed j (a ++ b) (pa ++ pb) = passed j a pa ++ passed j b pb.
  Proof.
    revert pa. induction a as [|[x f] a IH]; intros [|n pa] L; try discriminate; [reflexivity|].
    cbn. rewrite IH by (cbn in L; lia). rewrite app_assoc. reflexivity.
  Qed.

  Record PInv (s : sys) : Prop := {
    pv_m : Inv threads queue_size (m s);
    pv_e : forall j, Inv 1 export_size (es s j);
    pv_len : length (prog s) = length (running (m s));
    pv_prog : Forall2 (fun x n => n <= passes (fst x) /\ (snd x = true -> n = passes (fst x))) (running (m s)) (prog s);
    pv_within : within (owner s);
    pv_started_m : disp (m s) = DIdle <-> started_m (owner s) = false;
    pv_started_e : forall j, j < k -> (disp (es s j) = DIdle <-> started_e (owner s) j = false);
    pv_closed_e : forall j, j < k -> closed (es s j) = stopped_e (owner s) j;
    pv_joined_e : forall j, j < k -> joined_e (owner s) j = true -> disp (es s j) = DExit;
    pv_closed_m : closed (m s) = closed_m s;
    pv_joined_m : joined_m s = true -> disp (m s) = DExit;
    pv_thrown : thrown s = true -> match owner s with OConstruct _ | OStart | ORead | OJoin => False | _ => True end;
    pv_lost : thrown s = false -> forall j, lost s j = [];
    pv_results : forall j, j < k -> Permutation (accepted (es s j) ++ lost s j)
      (map (result j) (filter (fun x => j <? passes x) (done (m s)) ++ passed j (running (m s)) (prog s)))
  }.

  Lemma pinv_begin : PInv begin.
  Proof.
    constructor; cbn; auto using inv_initial; try discriminate; try tauto; try lia.
  Qed.

  Lemma idle_internal {A} nt (s s' : state A) : internal nt s s' -> (disp s' = DIdle <-> disp s = DIdle).
  Proof. intros H. internal_cases H; cbn; try tauto; split; congruence. Qed.

  Ltac fields := cbn [m prog es owner thrown lost with_m with_e at_owner q closed disp sem pool pool_closed running exited accepted started done late
    within started_m started_e stopped_e joined_e c_start c_stop c_accept] in *.

  Lemma pinv_owner s s' : PInv s -> owner_step s s' -> PInv s'.
  Proof.
    intros I S. destruct I as [Im Ie Il Ip Iw Ism Ise Ice Ije Icm Ijm It Ilo Ir].
    destruct S as [s j O L|s O|s O|s x O C L|s O|s O|s O D|s j O L|s O|s j O L D|s O|s O|s O D]; unfold joined_m, closed_m in *; rewrite O in *; fields.
    - constructor; fields; unfold joined_m, closed_m; fields; auto; try lia.
      + intros i. destruct (upd_cases (es s) j (c_start (es s j)) i) as [[-> ->]|[_ ->]]; [|auto].
        eapply inv_client; [apply Ie|]. apply start_client. apply Ise; [exact L|]. apply Nat.ltb_irrefl.
      + intros i Hi. destruct (upd_cases (es s) j (c_start (es s j)) i) as [[-> ->]|[N ->]].
        * fields. rewrite (proj2 (Nat.ltb_lt j (S j))) by lia. split; discriminate.
        * rewrite (Ise i Hi). destruct (Nat.ltb_spec i j), (Nat.ltb_spec i (S j)); try tauto; lia.
      + intros i Hi. destruct (upd_cases (es s) j (c_start (es s j)) i) as [[-> ->]|[N ->]]; [|auto]. fields. auto.
      + intros i Hi. destruct (upd_cases (es s) j (c_start (es s j)) i) as [[-> ->]|[N ->]]; [|auto]. fields. auto.
    - constructor; fields; unfold joined_m, closed_m; fields; auto; try discriminate.
      intros j Hj. rewrite (Ise j Hj). rewrite (proj2 (Nat.ltb_lt _ _) Hj). tauto.
    - constructor; fields; unfold joined_m, closed_m; fields; auto; try discriminate.
      + eapply inv_client; [exact Im|]. apply start_client. apply Ism. reflexivity.
      + split; discriminate.
    - constructor; fields; unfold joined_m, closed_m; fields; auto; try discriminate.
      eapply inv_client; [exact Im|]. apply accept_client; assumption.
    - constructor; fields; unfold joined_m, closed_m; fields; auto; try discriminate.
      eapply inv_client; [exact Im|]. apply stop_client.
    - constructor; fields; unfold joined_m, closed_m; fields; auto; try lia; try discriminate.
    - constructor; fields; unfold joined_m, closed_m; fields; auto; try lia; try discriminate.
      + rewrite Icm. destruct (thrown s); [destruct (It eq_refl)|reflexivity].
    - constructor; fields; unfold joined_m, closed_m; fields; auto; try lia.
      + intros i. destruct (upd_cases (es s) j (c_stop (es s j)) i) as [[-> ->]|[_ ->]]; [|auto].
        eapply inv_client; [apply Ie|]. apply stop_client.
      + intros i Hi. destruct (upd_cases (es s) j (c_stop (es s j)) i) as [[-> ->]|[_ ->]]; [|auto]. fields. auto.
      + intros i Hi. destruct (upd_cases (es s) j (c_stop (es s j)) i) as [[-> ->]|[N ->]].
        * fields. symmetry. apply Nat.ltb_lt. lia.
        * rewrite (Ice i Hi). destruct (Nat.ltb_spec i j), (Nat.ltb_spec i (S j)); try reflexivity; lia.
      + intros i Hi. destruct (upd_cases (es s) j (c_stop (es s j)) i) as [[-> ->]|[_ ->]]; [|auto]. fields. auto.
    - constructor; fields; unfold joined_m, closed_m; fields; auto; try lia.
      + intros j Hj. rewrite (Ice j Hj). apply Nat.ltb_lt. exact Hj.
    - constructor; fields; unfold joined_m, closed_m; fields; auto; try lia.
      intros i Hi E. apply Nat.ltb_lt in E. destruct (Nat.eq_dec i j) as [->|N]; [exact D|]. apply Ije; [exact Hi|]. apply Nat.ltb_lt. lia.
    - constructor; fields; unfold joined_m, closed_m; fields; auto; try discriminate.
      intros j Hj _. apply Ije; [exact Hj|]. apply Nat.ltb_lt. exact Hj.
    - constructor; fields; unfold joined_m, closed_m; fields; auto; try discriminate.
      eapply inv_client; [exact Im|]. apply stop_client.
    - constructor; fields; unfold joined_m, closed_m; fields; auto; try discriminate.
  Qed.

  Lemma forall2_at {A B} (P : A -> B -> Prop) a x b pa y pb : length pa = length a -> Forall2 P (a ++ x :: b) (pa ++ y :: pb) ->
    Forall2 P a pa /\ P x y /\ Forall2 P b pb.
  Proof.
    revert pa. induction a as [|z a IH]; intros [|w pa] L F; try discriminate; cbn in F; inversion F; subst; [auto|].
    destruct (IH pa) as (F1 & F2 & F3); [cbn in L; lia|assumption|]. auto.
  Qed.
  Lemma forall2_in {A B} (P : A -> B -> Prop) a x b pa y pb : Forall2 P a pa -> P x y -> Forall2 P b pb -> Forall2 P (a ++ x :: b) (pa ++ y :: pb).
  Proof. intros F1 F2 F3. apply Forall2_app; auto. Qed.

  Lemma pinv_thread s s' : PInv s -> thread_step s s' -> PInv s'.
  Proof.
    intros I S. destruct I as [Im Ie Il Ip Iw Ism Ise Ice Ije Icm Ijm It Ilo Ir].
    destruct S as [s c H E|s x r L P|s x a b pa pb j H E L J C Q|s x a b pa pb j H E L J C|s x a b pa pb H E L|s x a b pa n pb H E L|s j c J H];
      unfold joined_m, closed_m in *; fields.
    - constructor; fields; unfold joined_m, closed_m; fields; rewrite ?E; auto.
      + eapply inv_internal; eassumption.
      + rewrite (idle_internal _ _ _ H). exact Ism.
      + rewrite (internal_closed _ _ _ H). exact Icm.
      + intros X. apply Ijm in X. exfalso. exact (exit_final _ _ _ _ Tpos Im X H).
      + intros j Hj. replace (done c) with (done (m s)); [auto|]. destruct H; cbn in E |- *; try reflexivity.
        exfalso. rewrite H in E. apply app_inv_head in E. discriminate.
    - constructor; fields; unfold joined_m, closed_m; fields; auto; try discriminate.
      + eapply inv_internal; [exact Im|]. eapply w_take; eassumption.
      + rewrite !app_length, Il. reflexivity.
      + apply Forall2_app; [exact Ip|]. constructor; [|constructor]. cbn. split; [lia|discriminate].
      + intros j Hj. rewrite passed_app by exact Il. cbn [passed]. rewrite (proj2 (Nat.ltb_ge j 0)) by lia. cbn [negb andb app]. rewrite app_nil_r. auto.
    - rewrite H, E in *. destruct (forall2_at _ _ _ _ _ _ _ L Ip) as (F1 & F2 & F3). fields.
      pose proof (passes_le x) as Lx.
      constructor; fields; unfold joined_m, closed_m; fields; rewrite ?H; auto.
      + intros i. destruct (upd_cases (es s) j (c_accept (es s j) (result j x)) i) as [[-> ->]|[_ ->]]; [|auto].
        eapply inv_client; [apply Ie|]. apply accept_client; assumption.
      + rewrite app_length in *. cbn in *. lia.
      + apply forall2_in; auto. cbn. split; [lia|discriminate].
      + intros i Hi. destruct (upd_cases (es s) j (c_accept (es s j) (result j x)) i) as [[-> ->]|[_ ->]]; [|auto]. fields. auto.
      + intros i Hi. destruct (upd_cases (es s) j (c_accept (es s j) (result j x)) i) as [[-> ->]|[_ ->]]; [|auto]. fields. auto.
      + intros i Hi X. destruct (upd_cases (es s) j (c_accept (es s j) (result j x)) i) as [[-> ->]|[_ ->]]; [|auto]. fields. auto.
      + intros i Hi. specialize (Ir i Hi). rewrite !passed_app in Ir |- * by exact L. cbn [passed negb andb] in Ir |- *.
        destruct (upd_cases (es s) j (c_accept (es s j) (result j x)) i) as [[-> ->]|[N ->]].
        * fields. rewrite Nat.ltb_irrefl in Ir. rewrite (proj2 (Nat.ltb_lt j (S j))) by lia. rewrite <- app_assoc. cbn [app] in Ir |- *.
          rewrite app_assoc in Ir |- *. rewrite map_app in Ir |- *. cbn [map].
          transitivity (result j x :: accepted (es s j) ++ lost s j); [symmetry; apply Permutation_middle|]. rewrite Ir. apply Permutation_middle.
        * replace (i <? S j) with (i <? j); [exact Ir|]. destruct (Nat.ltb_spec i j), (Nat.ltb_spec i (S j)); try reflexivity; lia.
    - rewrite H, E in *. destruct (forall2_at _ _ _ _ _ _ _ L Ip) as (F1 & F2 & F3). fields.
      pose proof (passes_le x) as Lx.
      constructor; fields; unfold joined_m, closed_m; fields; rewrite ?H; auto.
      + rewrite app_length in *. cbn in *. lia.
      + apply forall2_in; auto. cbn. split; [lia|discriminate].
      + intros X i. exfalso. rewrite (Ice j) in C by lia. rewrite X in *. cbn [negb] in *.
        assert (D : disp (m s) = DExit) by (apply Ijm; destruct (owner s); try discriminate; reflexivity).
        destruct (exit_quiet _ _ _ Tpos Im D) as [Rn _]. rewrite Rn in H. destruct a; discriminate.
      + intros i Hi. specialize (Ir i Hi). rewrite !passed_app in Ir |- * by exact L. cbn [passed negb andb] in Ir |- *.
        destruct (upd_cases (lost s) j (lost s j ++ [result j x]) i) as [[-> ->]|[N ->]].
        * fields. rewrite Nat.ltb_irrefl in Ir. rewrite (proj2 (Nat.ltb_lt j (S j))) by lia. cbn [app] in Ir |- *.
          rewrite app_assoc in Ir |- *. rewrite app_assoc. rewrite map_app in Ir |- *. cbn [map].
          rewrite Ir. rewrite <- app_assoc. apply Permutation_app_head. symmetry. apply Permutation_cons_append.
        * replace (i <? S j) with (i <? j); [exact Ir|]. destruct (Nat.ltb_spec i j), (Nat.ltb_spec i (S j)); try reflexivity; lia.
    - rewrite H, E in *. destruct (forall2_at _ _ _ _ _ _ _ L Ip) as (F1 & F2 & F3). fields.
      constructor; fields; unfold joined_m, closed_m; fields; rewrite ?E; auto.
      + eapply inv_internal; [exact Im|]. eapply w_execute; eassumption.
      + rewrite !app_length in *. cbn in *. lia.
      + apply forall2_in; auto.
      + intros i Hi. specialize (Ir i Hi). rewrite !passed_app in Ir |- * by exact L. cbn [passed negb andb app] in Ir |- *.
        rewrite filter_app. cbn [filter]. destruct (i <? passes x); cbn [app] in *; rewrite ?app_nil_r; [|exact Ir].
        rewrite Ir. apply Permutation_map. rewrite <- app_assoc. apply Permutation_app_head. cbn [app]. symmetry. apply Permutation_middle.
    - rewrite H, E in *. destruct (forall2_at _ _ _ _ _ _ _ L Ip) as (F1 & F2 & F3). fields.
      constructor; fields; unfold joined_m, closed_m; fields; auto; try discriminate.
      + eapply inv_internal; [exact Im|]. eapply w_release; eassumption.
      + rewrite !app_length in *. cbn in *. lia.
      + apply Forall2_app; auto.
      + intros i Hi. specialize (Ir i Hi). rewrite !passed_app in Ir |- * by exact L. cbn [passed negb andb app] in Ir. exact Ir.
    - constructor; fields; unfold joined_m, closed_m; fields; auto; try discriminate.
      + intros i. destruct (upd_cases (es s) j c i) as [[-> ->]|[_ ->]]; [|auto]. eapply inv_internal; [apply Ie|exact H].
      + intros i Hi. destruct (upd_cases (es s) j c i) as [[-> ->]|[_ ->]]; [|auto]. rewrite (idle_internal _ _ _ H). auto.
      + intros i Hi. destruct (upd_cases (es s) j c i) as [[-> ->]|[_ ->]]; [|auto]. rewrite (internal_closed _ _ _ H). auto.
      + intros i Hi X. destruct (upd_cases (es s) j c i) as [[-> ->]|[_ ->]]; [|auto]. exfalso. eapply (exit_final 1); [lia|apply Ie|apply Ije; eassumption|exact H].
      + intros i Hi. destruct (upd_cases (es s) j c i) as [[-> ->]|[_ ->]]; [|auto]. replace (accepted c) with (accepted (es s j)); [auto|].
        destruct H; reflexivity.
  Qed.

  Lemma pinv_reachable s : reachable s -> PInv s.
  Proof. induction 1 as [|s s' _ IH [S|S]]; [apply pinv_begin|eapply pinv_owner; eassumption|eapply pinv_thread; eassumption]. Qed.

  (** **** A step of the whole is at most one step of each coordinator. *)
  Lemma owner_m s s' : PInv s -> owner_step s s' -> m s' = m s \/ client queue_size (m s) (m s').
  Proof.
    intros I S. destruct S as [s j O L|s O|s O|s x O C L|s O|s O|s O D|s j O L|s O|s j O L D|s O|s O|s O D]; cbn; auto using stop_client.
    - right. apply start_client. apply (pv_started_m _ I). rewrite O. reflexivity.
    - right. apply accept_client; assumption.
  Qed.
  Lemma owner_e s s' : PInv s -> owner_step s s' -> forall j, j < k -> es s' j = es s j \/ client export_size (es s j) (es s' j).
  Proof.
    intros I S i Hi. destruct S as [s j O L|s O|s O|s x O C L|s O|s O|s O D|s j O L|s O|s j O L D|s O|s O|s O D]; cbn [es with_e with_m at_owner]; auto.
    - destruct (upd_cases (es s) j (c_start (es s j)) i) as [[-> ->]|[_ ->]]; [|auto]. right. apply start_client.
      apply (pv_started_e _ I); [exact Hi|]. rewrite O. apply Nat.ltb_irrefl.
    - destruct (upd_cases (es s) j (c_stop (es s j)) i) as [[-> ->]|[_ ->]]; [|auto]. right. apply stop_client.
  Qed.
  Lemma thread_m s s' : thread_step s s' -> m s' = m s \/ internal threads (m s) (m s').
  Proof.
    intros S. destruct S as [s c H E|s x r L P|s x a b pa pb j H E L J C Q|s x a b pa pb j H E L J C|s x a b pa pb H E L|s x a b pa n pb H E L|s j c J H]; cbn; auto; right.
    - eapply w_take; eassumption.
    - eapply w_execute; eassumption.
    - eapply w_release; eassumption.
  Qed.
  Lemma thread_e s s' : thread_step s s' -> forall j, j < k -> es s' j = es s j \/ client export_size (es s j) (es s' j) \/ internal 1 (es s j) (es s' j).
  Proof.
    intros S i Hi. destruct S as [s c H E|s x r L P|s x a b pa pb j H E L J C Q|s x a b pa pb j H E L J C|s x a b pa pb H E L|s x a b pa n pb H E L|s j c J H];
      cbn [es]; auto.
    - destruct (upd_cases (es s) j (c_accept (es s j) (result j x)) i) as [[-> ->]|[_ ->]]; [|auto]. right. left. apply accept_client; assumption.
    - destruct (upd_cases (es s) j c i) as [[-> ->]|[_ ->]]; auto.
  Qed.
  Lemma reachable_m s : reachable s -> reachable_state threads queue_size (m s).
  Proof.
    induction 1 as [|s s' R0 IH S]; [constructor|]. destruct S as [S|S].
    - destruct (owner_m _ _ (pinv_reachable _ R0) S) as [-> |C]; [exact IH|]. eapply r_step; [exact IH|left; exact C].
    - destruct (thread_m _ _ S) as [-> |C]; [exact IH|]. eapply r_step; [exact IH|right; exact C].
  Qed.
  Lemma reachable_e s j : reachable s -> j < k -> reachable_state 1 export_size (es s j).
  Proof.
    intros R0 Hj. induction R0 as [|s s' R0 IH S]; [constructor|]. destruct S as [S|S].
    - destruct (owner_e _ _ (pinv_reachable _ R0) S j Hj) as [-> |C]; [exact IH|]. eapply r_step; [exact IH|left; exact C].
    - destruct (thread_e _ _ S j Hj) as [-> |[C|C]]; [exact IH| |]; (eapply r_step; [exact IH|]); [left|right]; exact C.
  Qed.

  (** **** Progress. *)
  (** as long as a worker is busy, some thread can go on *)
  Lemma busy_step s : PInv s -> started_e (owner s) = (fun _ => true) -> running (m s) <> [] -> exists s', thread_step s s'.
  Proof.
    intros I St N. destruct (running (m s)) as [|[x b] r] eqn:E; [congruence|]. pose proof (pv_prog _ I) as P. pose proof (pv_len _ I) as L. rewrite E in P, L.
    destruct (prog s) as [|n p] eqn:G; [discriminate|]. inversion P as [|? ? ? ? [P1 P2] _]; subst. cbn in P1, P2. destruct b.
    - eexists. exact (t_release _ _ _ _ _ s x [] r [] n p E G eq_refl).
    - destruct (Nat.eq_dec n (passes x)) as [->|Nn].
      + eexists. exact (t_execute _ _ _ _ _ s x [] r [] p E G eq_refl).
      + assert (Ln : n < passes x) by lia. pose proof (passes_le x) as Lx.
        destruct (closed (es s n)) eqn:C.
        * eexists. exact (t_drop _ _ _ _ _ s x [] r [] p n E G eq_refl Ln C).
        * destruct (Nat.lt_ge_cases (length (q (es s n))) export_size) as [Q|Q].
          -- eexists. exact (t_pass _ _ _ _ _ s x [] r [] p n E G eq_refl Ln C Q).
          -- assert (D1 : disp (es s n) <> DIdle). { intros D. apply (pv_started_e _ I) in D; [|lia]. rewrite St in D. discriminate. }
             assert (D2 : disp (es s n) <> DExit). { intros D. rewrite (iv_closed _ _ _ (pv_e _ I n)) in C by auto. discriminate. }
             destruct (progress 1 export_size (es s n) ltac:(lia) Epos (pv_e _ I n) D1 D2) as [[c Hc]|(_ & _ & Qn & _)].
             ++ eexists. apply t_export; [|exact Hc]. lia.
             ++ rewrite Qn in Q. cbn in Q. lia.
  Qed.
  Lemma idle_workers_step s c : running (m s) = [] -> internal threads (m s) c -> exists s', thread_step s s'.
  Proof.
    intros E H. destruct (internal_kind _ _ _ H) as [K|[(x & r & K1 & K2 & _)|K]]; [|eexists; eapply t_take; eassumption|congruence].
    eexists. apply t_other; eassumption.
  Qed.
  Lemma m_step s : PInv s -> started_e (owner s) = (fun _ => true) -> disp (m s) <> DIdle -> disp (m s) <> DExit ->
    (exists s', thread_step s s') \/ (closed (m s) = false /\ disp (m s) = DPull /\ q (m s) = [] /\ pool (m s) = [] /\ running (m s) = []).
  Proof.
    intros I St D1 D2. destruct (running (m s)) as [|y r] eqn:E.
    - destruct (progress threads queue_size (m s) Tpos Qpos (pv_m _ I) D1 D2) as [[c Hc]|(A & B & C & D & _)]; [|auto 10].
      left. exact (idle_workers_step s c E Hc).
    - left. apply busy_step; auto. rewrite E. discriminate.
  Qed.
  Definition ended (s : sys) : Prop := match owner s with OConstruct _ | OStart | ORead => False | _ => True end.
  Lemma exit_dec {A} (d : dpc A) : d = DExit \/ d <> DExit.
  Proof. destruct d; auto; right; discriminate. Qed.
  Lemma m_closed_step s : PInv s -> ended s -> closed (m s) = true -> disp (m s) <> DExit -> exists s', sys_step s s'.
  Proof.
    intros I En C D. unfold ended in En.
    assert (St : started_e (owner s) = (fun _ => true)) by (destruct (owner s); try destruct En; reflexivity).
    assert (D1 : disp (m s) <> DIdle). { intros X. apply (pv_started_m _ I) in X. destruct (owner s); try destruct En; discriminate. }
    destruct (m_step s I St D1 D) as [[s' S]|(X & _)]; [exists s'; right; exact S|congruence].
  Qed.
  Lemma ended_step s : PInv s -> ended s -> owner s <> OFreed -> exists s', sys_step s s'.
  Proof.
    intros I En N. pose proof En as En'. unfold ended in En'. pose proof (pv_within _ I) as W. pose proof (pv_closed_m _ I) as Cm. unfold closed_m in Cm.
    destruct (owner s) as [j| | | |j|j| | |] eqn:O; try destruct En'; try congruence; cbn in W.
    - destruct (exit_dec (disp (m s))) as [D|D]; [eexists; left; apply o_joined; assumption|]. apply m_closed_step; assumption.
    - destruct (Nat.eq_dec j k) as [->|Nj]; eexists; left; [apply o_stopped; exact O|apply o_stop_e; [exact O|lia]].
    - destruct (Nat.eq_dec j k) as [->|Nj]; [eexists; left; apply o_gone; exact O|].
      assert (Lj : j < k) by lia.
      assert (Cl : closed (es s j) = true) by (rewrite (pv_closed_e _ I j Lj), O; reflexivity).
      assert (D1 : disp (es s j) <> DIdle). { intros D. apply (pv_started_e _ I) in D; [|exact Lj]. rewrite O in D. discriminate. }
      destruct (exit_dec (disp (es s j))) as [D|D]; [eexists; left; eapply o_join_e; eassumption|].
      destruct (progress 1 export_size (es s j) ltac:(lia) Epos (pv_e _ I j) D1 D) as [[c Hc]|(C & _)]; [|congruence].
      eexists. right. apply t_export; eassumption.
    - eexists. left. apply o_base. exact O.
    - destruct (exit_dec (disp (m s))) as [D|D]; [eexists; left; apply o_freed; assumption|]. apply m_closed_step; assumption.
  Qed.
  Lemma ended_stays s s' : ended s -> sys_step s s' -> ended s'.
  Proof.
    intros En [S|S].
    - destruct S as [s j O L|s O|s O|s x O C L|s O|s O|s O D|s j O L|s O|s j O L D|s O|s O|s O D]; unfold ended in *; cbn; auto; rewrite O in En; destruct En.
    - destruct S; exact En.
  Qed.

  (** **** Termination: lexicographically decreasing. *)
  Fixpoint total (n : nat) (f : nat -> nat) : nat := match n with 0 => 0 | S i => f i + total i f end.
  Lemma total_ext n f g : (forall i, i < n -> f i = g i) -> total n f = total n g.
  Proof. induction n as [|n IH]; intros H; [reflexivity|]. cbn. rewrite H by lia. rewrite IH by (intros; apply H; lia). reflexivity. Qed.
  Lemma total_less n f g j : j < n -> g j < f j -> (forall i, i <> j -> g i = f i) -> total n g < total n f.
  Proof.
    induction n as [|n IH]; intros L D H; [lia|]. cbn. destruct (Nat.eq_dec j n) as [->|N].
    - rewrite (total_ext n g f) by (intros i Hi; apply H; lia). lia.
    - rewrite (H n) by congruence. specialize (IH ltac:(lia) D H). lia.
  Qed.
  Fixpoint remaining (r : list (T * bool)) (p : list nat) : nat :=
    match r, p with (x, _) :: r', n :: p' => (passes x - n) + remaining r' p' | _, _ => 0 end.
  Lemma remaining_app a b pa pb : length pa = length a -> remaining (a ++ b) (pa ++ pb) = remaining a pa + remaining b pb.
  Proof.
    revert pa. induction a as [|[x f] a IH]; intros [|n pa] L; try discriminate; [reflexivity|].
    cbn. rewrite IH by (cbn in L; lia). lia.
  Qed.
  Definition less (s' s : sys) : Prop :=
    work threads (m s') < work threads (m s)
    \/ work threads (m s') = work threads (m s) /\ (remaining (running (m s')) (prog s') < remaining (running (m s)) (prog s)
       \/ remaining (running (m s')) (prog s') = remaining (running (m s)) (prog s)
          /\ total k (fun j => work 1 (es s' j)) < total k (fun j => work 1 (es s j))).
  Lemma thread_less s s' : thread_step s s' -> less s' s.
  Proof.
    intros S. destruct (thread_m _ _ S) as [E|H].
    2:{ left. apply internal_work. exact H. }
    destruct S as [s c H E'|s x r L P|s x a b pa pb j H E' L J C Q|s x a b pa pb j H E' L J C|s x a b pa pb H E' L|s x a b pa n pb H E' L|s j c J H]; cbn [m] in E.
    - subst c. apply internal_work in H. lia.
    - apply (f_equal (fun c => length (pool c))) in E. cbn in E. rewrite P in E. cbn in E. lia.
    - right. split; [reflexivity|]. left. cbn [m prog]. rewrite H, E'. rewrite !remaining_app by exact L. cbn. lia.
    - right. split; [reflexivity|]. left. cbn [m prog]. rewrite H, E'. rewrite !remaining_app by exact L. cbn. lia.
    - apply (f_equal (fun c => length (done c))) in E. cbn in E. rewrite app_length in E. cbn in E. lia.
    - apply (f_equal (fun c => sem c)) in E. cbn in E. lia.
    - right. split; [reflexivity|]. right. split; [reflexivity|]. cbn [es]. apply (total_less k _ _ j J).
      + rewrite upd_same. apply internal_work. exact H.
      + intros i N. rewrite upd_other by exact N. reflexivity.
  Qed.
  Lemma thread_owner s s' : thread_step s s' -> owner s' = owner s.
  Proof. destruct 1; reflexivity. Qed.
  Definition rank (o : opc) : nat :=
    match o with
    | OConstruct _ | OStart | ORead => 0 | OFreed => 0 | OBase => 1 | OGone => 2 | OJoinE j => 3 + (k - j) | OStop j => 4 + k + (k - j) | OJoin => 5 + k + k
    end.
  Lemma owner_rank s s' : ended s -> owner_step s s' -> rank (owner s') < rank (owner s).
  Proof.
    intros En S. unfold ended in En.
    destruct S as [s j O L|s O|s O|s x O C L|s O|s O|s O D|s j O L|s O|s j O L D|s O|s O|s O D]; rewrite O in *; cbn [rank owner with_e with_m at_owner]; try destruct En; lia.
  Qed.

  Lemma less_ind (P : sys -> Prop) : (forall s, (forall s', less s' s -> P s') -> P s) -> forall s, P s.
  Proof.
    intros H. assert (G : forall a b c s, work threads (m s) = a -> remaining (running (m s)) (prog s) = b -> total k (fun j => work 1 (es s j)) = c -> P s).
    { induction a as [a IHa] using lt_wf_ind. induction b as [b IHb] using lt_wf_ind. induction c as [c IHc] using lt_wf_ind.
      intros s Ea Eb Ec. apply H. intros s' [L|[E1 [L|[E2 L]]]].
      - eapply (IHa (work threads (m s'))); [lia|reflexivity|reflexivity|reflexivity].
      - eapply (IHb (remaining (running (m s')) (prog s'))); [lia|lia|reflexivity|reflexivity].
      - eapply (IHc (total k (fun j => work 1 (es s' j)))); [lia|lia|lia|reflexivity]. }
    intros s. eapply G; reflexivity.
  Qed.
  Lemma threads_end (s : sys) : Acc (fun s' s => thread_step s s') s.
  Proof. induction s as [s IH] using less_ind. constructor. intros s' S. apply IH, thread_less, S. Qed.
End Pipe.
