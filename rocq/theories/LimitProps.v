(** C91: the time limit in the candidate search, the tables of the hidden Markov model and the Viterbi algorithm. *)
From Coq Require Import ZArith NArith Lia.
From Verif Require Import Base ListAux RichLine Route Utils UtilsProps Matcher MatcherProps.
From Verif Require Import CandCreate CandCreateProps CandAdopt CandAdoptProps Viterbi ViterbiProofs ViterbiProps.
From Verif Require Import Value Policy ValueProps Deadline DeadlineProofs DeadlineProps Limit.
Local Open Scope nat_scope.

Section Generic.
  Context {C : Type}.
  Variable look : C -> C * bool.
  Notation calm := (calm look).
  Notation stopped := (stopped look).
  Notation gave_up := (gave_up look).

  Lemma watched_spec {A X : Type} (f : A -> X -> A) : forall l a c a' late c', watched look f l a c = (a', late, c') ->
    if late then stopped c c' else calm (length l) c c' /\ a' = fold_left f l a.
  Proof.
    induction l as [|x l IH]; intros a c a' late c' E; cbn [watched] in E; [injection E as <- <- <-; split; [constructor|reflexivity]|].
    destruct (look c) as [c1 b] eqn:El. destruct b; [injection E as _ <- <-; apply stopped_now, El|]. specialize (IH _ _ _ _ _ E).
    destruct late; [apply (stopped_after _ 1 _ c1); [apply calm_1, El|exact IH]|]. destruct IH as [H1 H2]. split; [apply (calm_S _ _ _ c1); assumption|exact H2].
  Qed.

  Section Search.
    Context {P : Type}.
    Variable dist : P -> P -> Q.
    Variable eqp : P -> P -> bool.
    Variable seg_dist : P -> P -> P -> Q.
    Variable query : P -> Q -> list (nat * P * @candidate P) -> list (nat * P * @candidate P).
    Variable source target : nat -> nat.
    Variable vertex_point : nat -> P.
    Variable individual : nat -> list (@candidate P).
    Variable use_nearby reverse use_siblings : bool.
    Notation l_search := (l_search look dist eqp seg_dist query source target vertex_point individual use_nearby reverse use_siblings).

    (** the measurements with the candidates found for each *)
    Definition measured (points : list P) : list (P * list (@candidate P)) := map (fun x => (snd x, individual (fst x))) (combine (seq 0 (length points)) points).
    (** the looks of a search that is in time *)
    Definition search_looks (n : nat) : nat := n + (if use_nearby then n + n + 1 + n else 0) + (if use_siblings then n else 0) + n.

    Lemma fold_snoc {X Y : Type} (g : X -> list Y) : forall l acc, fold_left (fun v x => v ++ g x) l acc = acc ++ concat (map g l).
    Proof. induction l as [|x l IH]; intros acc; cbn [fold_left map concat]; [rewrite app_nil_r; reflexivity|]. rewrite IH, <- app_assoc. reflexivity. Qed.
    Lemma values_eq : forall (st : list (P * list (@candidate P))) i, concat (map (fun x => map (fun e => (fst x, fst (snd x), e)) (filter (fun e => negb (adopted e)) (snd (snd x)))) (combine (seq i (length st)) st)) = index_values i st.
    Proof. induction st as [|[p s] st IH]; intros i; [reflexivity|]. cbn [length seq combine map concat index_values fst snd]. rewrite IH. reflexivity. Qed.
    Lemma finals_eq (st : list (P * list (@candidate P))) : forall l k acc, l = skipn k st ->
      fold_left (fun fs i => match skipn i st with
        | (p, s) :: r => fs ++ [mkF i (match r with (q, _) :: _ => eqp p q | [] => false end) (nodes_of dist source target vertex_point p s) s]
        | [] => fs end) (seq k (length l)) acc = acc ++ finals dist eqp source target vertex_point k l.
    Proof.
      induction l as [|[p s] l IH]; intros k acc E; [cbn; rewrite app_nil_r; reflexivity|]. cbn [length seq fold_left finals]. rewrite <- E. cbn iota.
      rewrite IH; [rewrite <- app_assoc; reflexivity|]. clear - E. revert k E. induction st as [|x st IHs]; intros k E; [rewrite skipn_nil in E; discriminate|].
      destruct k as [|k]; cbn [skipn] in E |- *; [congruence|]. apply IHs, E.
    Qed.
    Lemma upd_length : forall i f (st : list (P * list (@candidate P))), length (upd i f st) = length st.
    Proof. induction i as [|i IH]; intros f [|[p s] st]; cbn [upd length]; try reflexivity. rewrite IH. reflexivity. Qed.
    Lemma fold_length {A X : Type} (f : list A -> X -> list A) : (forall a x, length (f a x) = length a) -> forall l a, length (fold_left f l a) = length a.
    Proof. intros H. induction l as [|x l IH]; intros a; cbn [fold_left]; [reflexivity|]. rewrite IH. apply H. Qed.
    Lemma nearby_length values (st : list (P * list (@candidate P))) i : length (nearby_one dist eqp seg_dist query reverse values st i) = length st.
    Proof.
      unfold nearby_one. destruct (nth_error st i) as [[p s]|]; [|reflexivity]. destruct (hd_error (rev s)) as [l|]; [|reflexivity]. destruct (lessQ 0 (distance l)); [|reflexivity].
      apply fold_length. intros a [[j q] e]. unfold nearby_step. destruct (i =? j); [reflexivity|]. destruct reverse; rewrite ?upd_length; reflexivity.
    Qed.
    Lemma siblings_length (st : list (P * list (@candidate P))) i : length (siblings_one dist eqp st i) = length st.
    Proof. unfold siblings_one. rewrite upd_length. destruct i; rewrite ?upd_length; reflexivity. Qed.

    Lemma l_nearby_spec st c st' late c' : l_nearby look dist eqp seg_dist query reverse st c = (st', late, c') ->
      if late then stopped c c' else calm (length st + length st + 1 + length st) c c' /\ st' = nearby dist eqp seg_dist query reverse st.
    Proof.
      unfold l_nearby. destruct (watched look _ st 0 c) as [[n1 late1] c1] eqn:E1. apply watched_spec in E1. destruct late1; [intros [= <- <- <-]; exact E1|]. destruct E1 as [E1 _].
      destruct (watched look _ (combine (seq 0 (length st)) st) [] c1) as [[v late2] c2] eqn:E2. apply watched_spec in E2. destruct late2; [intros [= <- <- <-]; apply (stopped_after _ _ _ _ _ E1 E2)|].
      destruct E2 as [E2 Ev]. rewrite combine_length, seq_length, Nat.min_id in E2. rewrite fold_snoc, values_eq in Ev. cbn [app] in Ev. pose proof (calm_app _ _ _ _ E1 _ _ E2) as E12.
      destruct (look c2) as [c3 late3] eqn:E3. destruct late3; [intros [= <- <- <-]; apply (stopped_after _ _ _ _ _ E12), stopped_now, E3|].
      pose proof (calm_app _ _ _ _ E12 _ _ (calm_1 _ _ _ E3)) as E13. intros H. apply watched_spec in H. rewrite seq_length in H.
      destruct late; [apply (stopped_after _ _ _ _ _ E13 H)|]. destruct H as [H ->]. split; [apply (calm_app _ _ _ _ E13 _ _ H)|]. unfold nearby. rewrite Ev. reflexivity.
    Qed.

    (** The search under a limit gives the candidates it gives without one, each of its looks being in time, or it gives none, and the clock has just said that the time is up. *)
    Theorem C91_search points c :
      match l_search points c with
      | (fs, c') => (calm (search_looks (length points)) c c' /\ fs = finalize dist eqp seg_dist query source target vertex_point use_nearby reverse use_siblings (measured points))
                    \/ (stopped c c' /\ fs = [])
      end.
    Proof.
      unfold Limit.l_search. destruct (watched look _ (combine (seq 0 (length points)) points) [] c) as [[st0 late0] c0] eqn:E0. apply watched_spec in E0. destruct late0; [right; auto|].
      destruct E0 as [E0 S0]. rewrite (fold_snoc (fun x => [(snd x, individual (fst x))])) in S0. cbn [app] in S0. rewrite combine_length, seq_length, Nat.min_id in E0.
      assert (M0 : st0 = measured points). { rewrite S0. unfold measured. generalize (combine (seq 0 (length points)) points). intros l. induction l as [|x l IH]; cbn; [reflexivity|]. rewrite IH. reflexivity. }
      assert (L0 : length st0 = length points). { rewrite M0. unfold measured. rewrite map_length, combine_length, seq_length, Nat.min_id. reflexivity. }
      assert (K1 : exists st1 late1 c1, (if use_nearby then l_nearby look dist eqp seg_dist query reverse st0 c0 else (st0, false, c0)) = (st1, late1, c1)
        /\ if late1 then stopped c c1 else calm (length points + (if use_nearby then length points + length points + 1 + length points else 0)) c c1 /\ st1 = (if use_nearby then nearby dist eqp seg_dist query reverse st0 else st0)).
      { destruct use_nearby.
        - destruct (l_nearby look dist eqp seg_dist query reverse st0 c0) as [[st1 late1] c1] eqn:E1. exists st1, late1, c1. split; [reflexivity|]. apply l_nearby_spec in E1. rewrite L0 in E1.
          destruct late1; [apply (stopped_after _ _ _ _ _ E0 E1)|]. destruct E1 as [E1 ->]. split; [apply (calm_app _ _ _ _ E0 _ _ E1)|reflexivity].
        - exists st0, false, c0. split; [reflexivity|]. rewrite Nat.add_0_r. split; [exact E0|reflexivity]. }
      destruct K1 as (st1 & late1 & c1 & -> & K1). destruct late1; [right; auto|]. destruct K1 as [K1 S1].
      assert (L1 : length st1 = length points). { rewrite S1, <- L0. destruct use_nearby; [|reflexivity]. unfold nearby. apply fold_length. intros a x. apply nearby_length. }
      assert (K2 : exists st2 late2 c2, (if use_siblings then l_siblings look dist eqp st1 c1 else (st1, false, c1)) = (st2, late2, c2)
        /\ if late2 then stopped c c2 else calm (length points + (if use_nearby then length points + length points + 1 + length points else 0) + (if use_siblings then length points else 0)) c c2
             /\ st2 = (if use_siblings then siblings dist eqp st1 else st1)).
      { destruct use_siblings.
        - destruct (l_siblings look dist eqp st1 c1) as [[st2 late2] c2] eqn:E2. exists st2, late2, c2. split; [reflexivity|]. unfold l_siblings in E2. apply watched_spec in E2. rewrite seq_length, L1 in E2.
          destruct late2; [apply (stopped_after _ _ _ _ _ K1 E2)|]. destruct E2 as [E2 ->]. split; [apply (calm_app _ _ _ _ K1 _ _ E2)|unfold siblings; rewrite L1; reflexivity].
        - exists st1, false, c1. split; [reflexivity|]. rewrite Nat.add_0_r. split; [exact K1|reflexivity]. }
      destruct K2 as (st2 & late2 & c2 & -> & K2). destruct late2; [right; auto|]. destruct K2 as [K2 S2].
      assert (L2 : length st2 = length points). { rewrite S2, <- L1. destruct use_siblings; [|reflexivity]. unfold siblings. apply fold_length. intros a x. apply siblings_length. }
      destruct (l_finals look dist eqp source target vertex_point st2 c2) as [[fs late3] c3] eqn:E3. unfold l_finals in E3. apply watched_spec in E3. rewrite seq_length, L2 in E3.
      destruct late3; [right; split; [apply (stopped_after _ _ _ _ _ K2 E3)|reflexivity]|]. destruct E3 as [E3 ->]. left. split; [apply (calm_app _ _ _ _ K2 _ _ E3)|].
      rewrite <- L2, (finals_eq st2 st2 0 [] eq_refl). cbn [app]. unfold finalize, adoptions. rewrite S2, S1, M0. reflexivity.
    Qed.
  End Search.

  Section Hmm.
    Context {Line Cand V : Type}.
    Variable log_inv : nat -> V.
    Variable width : Cand -> nat.
    Variable obs : list Cand -> nat -> nat -> V.
    Variable trans : list Cand -> nat -> nat -> nat -> V.
    Variable search : Line -> C -> list Cand * C.
    Variable filter : bool.
    Variable simplify median : option (Line -> Line).
    Variable full_search : Line -> list Cand.
    (** what the search does with the clock, as C91_search has it *)
    Hypothesis search_spec : forall l c cs c', search l c = (cs, c') -> ((exists n, calm n c c') /\ cs = full_search l) \/ stopped c c'.
    Notation l_set := (l_set look log_inv width obs trans search filter simplify median).

    Definition full_line (track : Line) : Line := (match median with Some f => f | None => fun l => l end) ((match simplify with Some f => f | None => fun l => l end) track).
    (** the tables of [Viterbi.v] *)
    Definition full_tables (cs : list Cand) : trellis V := hmm_tables log_inv (obs cs) (trans cs) (map (fun x => repeat tt (width x)) cs).
    Definition full_env (track : Line) : hmm Line Cand V :=
      let cs := full_search (full_line track) in mkHmm (full_line track) cs (observations (full_tables cs)) (transitions (full_tables cs)).

    Lemma size_eq cs i : size_at width cs i = length (nth i (map (fun x => repeat tt (width x)) cs) []).
    Proof.
      unfold size_at. revert i. induction cs as [|x cs IH]; intros i; [destruct i; reflexivity|]. destruct i as [|i]; cbn [nth_error nth map]; [rewrite repeat_length; reflexivity|]. apply IH.
    Qed.
    Lemma rows_eq {X : Type} (g : nat -> X) : forall l acc, fold_left (fun a i => a ++ [g i]) l acc = acc ++ map g l.
    Proof. induction l as [|x l IH]; intros acc; cbn [fold_left map]; [rewrite app_nil_r; reflexivity|]. rewrite IH, <- app_assoc. reflexivity. Qed.
    Lemma obs_eq cs : map (obs_row width obs cs) (seq 0 (length cs)) = observations (full_tables cs).
    Proof. unfold full_tables, hmm_tables. cbn [observations]. rewrite map_length. apply map_ext. intros i. unfold obs_row. rewrite size_eq. reflexivity. Qed.
    Lemma trans_eq cs : map (trans_row log_inv width trans cs) (seq 0 (length cs)) = transitions (full_tables cs).
    Proof. unfold full_tables, hmm_tables. cbn [transitions]. rewrite map_length. apply map_ext. intros i. unfold trans_row. rewrite !size_eq. destruct i; rewrite ?size_eq; reflexivity. Qed.

    (** Setting the environment gives the prepared line, the candidates of it and their tables, or the clock has said that the time is up. *)
    Theorem C91_set track c : latches look -> match l_set track c with (e, c') => ((exists n, 0 < n /\ calm n c c') /\ e = full_env track) \/ gave_up c c' end.
    Proof.
      intros L. unfold Limit.l_set.
      assert (K1 : exists c1 late1, (if filter then look c else (c, false)) = (c1, late1) /\ if late1 then stopped c c1 else exists n, calm n c c1).
      { destruct filter; [|exists c, false; split; [reflexivity|exists 0; constructor]]. destruct (look c) as [c1 b] eqn:E. exists c1, b. split; [reflexivity|]. destruct b; [apply stopped_now, E|exists 1; apply calm_1, E]. }
      destruct K1 as (c1 & late1 & -> & K1). destruct late1; [right; apply stopped_gave_up, K1|]. destruct K1 as [n1 K1].
      set (line2 := match simplify with Some f => f track | None => track end).
      assert (K2 : exists c2 late2, (match simplify with Some _ => look c1 | None => (c1, false) end) = (c2, late2) /\ if late2 then stopped c c2 else exists n, calm n c c2).
      { destruct simplify; [|exists c1, false; eauto]. destruct (look c1) as [c2 b] eqn:E. exists c2, b. split; [reflexivity|].
        destruct b; [apply (stopped_after _ _ _ _ _ K1), stopped_now, E|eexists; apply (calm_app _ _ _ _ K1 _ _ (calm_1 _ _ _ E))]. }
      destruct K2 as (c2 & late2 & -> & K2). destruct late2; [right; apply stopped_gave_up, K2|]. destruct K2 as [n2 K2].
      assert (K3 : exists c3 late3, (match median with Some _ => look c2 | None => (c2, false) end) = (c3, late3) /\ if late3 then stopped c c3 else exists n, calm n c c3).
      { destruct median; [|exists c2, false; eauto]. destruct (look c2) as [c3 b] eqn:E. exists c3, b. split; [reflexivity|].
        destruct b; [apply (stopped_after _ _ _ _ _ K2), stopped_now, E|eexists; apply (calm_app _ _ _ _ K2 _ _ (calm_1 _ _ _ E))]. }
      destruct K3 as (c3 & late3 & -> & K3). destruct late3; [right; apply stopped_gave_up, K3|]. destruct K3 as [n3 K3].
      assert (El : (match median with Some f => f line2 | None => line2 end) = full_line track) by (unfold full_line, line2; destruct median, simplify; reflexivity).
      rewrite El. clear El line2. destruct (search (full_line track) c3) as [cs c4] eqn:E4. destruct (look c4) as [c5 late5] eqn:E5. destruct (search_spec _ _ _ _ E4) as [[[n4 K4] Ecs]|K4].
      2:{ destruct (stopped_look look _ _ _ _ L (stopped_after _ _ _ _ _ K3 K4) E5) as [-> G]. right. exact G. }
      pose proof (calm_app _ _ _ _ K3 _ _ K4) as K34. destruct late5; [right; apply stopped_gave_up, (stopped_after _ _ _ _ _ K34), stopped_now, E5|].
      pose proof (calm_app _ _ _ _ K34 _ _ (calm_1 _ _ _ E5)) as K5.
      destruct (watched look (fun os i => os ++ [obs_row width obs cs i]) (seq 0 (length cs)) [] c5) as [[os late6] c6] eqn:E6. apply watched_spec in E6.
      destruct late6; [right; apply stopped_gave_up, (stopped_after _ _ _ _ _ K5 E6)|]. destruct E6 as [E6 ->]. pose proof (calm_app _ _ _ _ K5 _ _ E6) as K6.
      destruct (watched look (fun ts i => ts ++ [trans_row log_inv width trans cs i]) (seq 0 (length cs)) [] c6) as [[ts late7] c7] eqn:E7. apply watched_spec in E7.
      destruct late7; [right; apply stopped_gave_up, (stopped_after _ _ _ _ _ K6 E7)|]. destruct E7 as [E7 ->]. left.
      split; [eexists; split; [|apply (calm_app _ _ _ _ K6 _ _ E7)]; lia|]. rewrite !rows_eq. cbn [app]. rewrite obs_eq, trans_eq. unfold full_env. rewrite Ecs. reflexivity.
    Qed.
  End Hmm.

  (** *** Viterbi *)
  Lemma calm_answers n c c' : calm n c c' -> looks look n c = c' /\ forall i, i < n -> answer look c i = false.
  Proof.
    induction 1 as [c|n c c1 c2 E H [I1 I2]]; [split; [reflexivity|lia]|]. cbn [looks]. rewrite E. cbn [fst]. split; [exact I1|]. intros [|i] Hi; unfold answer; cbn [looks]; rewrite E; [reflexivity|].
    cbn [fst]. apply I2. lia.
  Qed.
  Lemma until_spec : forall n c c' late, until look n c = (c', late) -> if late then stopped c c' /\ exists i, i < n /\ answer look c i = true else calm n c c'.
  Proof.
    induction n as [|n IH]; intros c c' late E; cbn [until] in E; [injection E as <- <-; constructor|]. destruct (look c) as [c1 b] eqn:El. destruct b.
    - injection E as <- <-. split; [apply stopped_now, El|]. exists 0. split; [lia|]. unfold answer. cbn [looks]. rewrite El. reflexivity.
    - specialize (IH _ _ _ E). destruct late.
      + destruct IH as [I1 (i & Hi & I2)]. split; [apply (stopped_after _ 1 _ c1); [apply calm_1, El|exact I1]|]. exists (S i). split; [lia|]. unfold answer in *. cbn [looks]. rewrite El. exact I2.
      + apply (calm_S _ _ _ c1); assumption.
  Qed.
  Lemma viterbi_ext {V} (bot : V) add ltb log_inv M a b : (forall i, i < needed M -> a i = b i) -> viterbi bot add ltb log_inv M a = viterbi bot add ltb log_inv M b.
  Proof.
    intros H. unfold viterbi. rewrite (H 0) by (unfold needed; destruct (observations M); cbn [length]; lia). destruct (b 0); [reflexivity|].
    unfold needed in H. destruct (observations M) as [|o0 rest] eqn:Eo; [reflexivity|]. cbn [length] in *. cbn zeta.
    assert (E1 : existsb a (seq 1 (S (length rest))) = existsb b (seq 1 (S (length rest)))).
    { assert (G : forall l, (forall i, In i l -> a i = b i) -> existsb a l = existsb b l).
      { induction l as [|x l IH]; intros Hl; [reflexivity|]. cbn [existsb]. rewrite (Hl x) by (left; reflexivity). rewrite IH; [reflexivity|]. intros i Hi. apply Hl. right. exact Hi. }
      apply G. intros i Hi. apply in_seq in Hi. apply H. lia. }
    rewrite E1. destruct (existsb b (seq 1 (S (length rest)))); [reflexivity|]. destruct (first_column add M o0) as [T0|x| |]; try reflexivity. cbn [bindO].
    assert (G : forall ts poll ini Tl K, (forall i, poll <= i < poll + length ts -> a i = b i) -> columns bot add ltb log_inv M a poll ini Tl K ts = columns bot add ltb log_inv M b poll ini Tl K ts).
    { induction ts as [|t ts IH]; intros poll ini Tl K Hp; [reflexivity|]. cbn [columns]. cbn [length] in Hp. destruct (nth_error (observations M) t); [|reflexivity]. cbn [derefO].
      destruct (mapO _ _) as [col|x| |]; try reflexivity. cbn [bindO]. rewrite (Hp poll) by lia. destruct (b poll); [reflexivity|]. apply IH. intros i Hi. apply Hp. lia. }
    rewrite G; [reflexivity|]. intros i Hi. rewrite seq_length in Hi. apply H. lia.
  Qed.

  (** The algorithm under a limit gives its result without one, or nothing, and then the clock has said that the time is up. *)
  Theorem C91_viterbi {V} (bot : V) add ltb log_inv M c : score_laws bot add ltb -> shaped M ->
    match l_viterbi look bot add ltb log_inv M c with
    | (r, c') => (calm (needed M) c c' /\ r = viterbi bot add ltb log_inv M never) \/ (stopped c c' /\ r = Ok [])
    end.
  Proof.
    intros SL SH. unfold l_viterbi. destruct (until look (needed M) c) as [c' late] eqn:E. cbn [fst]. apply until_spec in E. destruct late.
    - destruct E as [E (i & Hi & A)]. right. split; [exact E|]. apply (C15_aborted_empty bot add ltb log_inv M (answer look c) i SL SH); [|exact A].
      unfold polls, needed, steps in *. destruct (observations M); exact Hi.
    - left. split; [exact E|]. apply viterbi_ext. intros i Hi. apply (proj2 (calm_answers _ _ _ E)), Hi.
  Qed.
  (** When the clock has said so before, nothing is read of the tables, which may be unfinished. *)
  Theorem C91_unfinished {V} (bot : V) add ltb log_inv M c c0 : latches look -> look c0 = (c, true) -> fst (l_viterbi look bot add ltb log_inv M c) = Ok [].
  Proof.
    intros L E. unfold l_viterbi. cbn [fst]. unfold viterbi. replace (answer look c 0) with true; [reflexivity|]. unfold answer. cbn [looks]. destruct (look c) as [c1 b] eqn:El. cbn [snd]. symmetry. apply (L _ _ _ _ E El).
  Qed.
End Generic.

(** *** Together: never undefined *)
Section Safe.
  Context {C : Type}.
  Variable look : C -> C * bool.
  Context {Line Cand V : Type}.
  Variable bot : V.
  Variable add : V -> V -> V.
  Variable ltb : V -> V -> bool.
  Variable log_inv : nat -> V.
  Variable width : Cand -> nat.
  Variable obs : list Cand -> nat -> nat -> V.
  Variable trans : list Cand -> nat -> nat -> nat -> V.
  Variable search : Line -> C -> list Cand * C.
  Variable filter : bool.
  Variable simplify median : option (Line -> Line).
  Variable full_search : Line -> list Cand.
  Hypothesis search_spec : forall l c cs c', search l c = (cs, c') -> ((exists n, calm look n c c') /\ cs = full_search l) \/ stopped look c c'.

  (** the tables as the algorithm finds them in the environment *)
  Definition tables (e : hmm Line Cand V) : trellis V := {| observations := h_obs e; transitions := h_trans e |}.

  Lemma gave_up_late c c1 c2 b : latches look -> gave_up look c c1 -> look c1 = (c2, b) -> b = true.
  Proof. intros L (n & c0 & c' & _ & E & [->|F]) G; [exact (L _ _ _ _ E G)|exact (L _ _ _ _ F G)]. Qed.

  (** Whenever the time is up, in the preparation, the search, either table or the algorithm, and however often it was looked at before: there is an answer. It is the one of the full
      tables without a limit, or nothing, and then some look was late. *)
  Theorem C91_safe track c : score_laws bot add ltb -> latches look ->
    match l_set look log_inv width obs trans search filter simplify median track c with
    | (e, c1) => match l_viterbi look bot add ltb log_inv (tables e) c1 with
                 | (r, c2) => (exists n, calm look n c c2) /\ e = full_env log_inv width obs trans simplify median full_search track /\ r = viterbi bot add ltb log_inv (tables e) never
                                /\ (exists p, r = Ok p /\ forall t s, In (t, s) p -> exists x, nth_error (h_cands e) t = Some x /\ s < width x)
                              \/ (exists n c0 c', calm look n c c0 /\ look c0 = (c', true)) /\ r = Ok []
                 end
    end.
  Proof.
    intros SL L. pose proof (C91_set look log_inv width obs trans search filter simplify median full_search search_spec track c L) as S.
    destruct (l_set look log_inv width obs trans search filter simplify median track c) as [e c1].
    destruct S as [[(n & _ & Hn) Ee]|G].
    - assert (Et : tables e = full_tables log_inv width obs trans (full_search (full_line simplify median track))) by (rewrite Ee; reflexivity).
      pose proof (C91_viterbi look bot add ltb log_inv (tables e) c1 SL) as W. rewrite Et in W at 1. specialize (W (hmm_shaped _ _ _ _)).
      destruct (l_viterbi look bot add ltb log_inv (tables e) c1) as [r c2]. destruct W as [[W Er]|[W Er]]; [left|right].
      + split; [exists (n + needed (tables e)); apply (calm_app _ _ _ _ Hn _ _ W)|]. split; [exact Ee|]. split; [exact Er|].
        destruct (C15_on_hmm bot add ltb log_inv (obs (full_search (full_line simplify median track))) (trans (full_search (full_line simplify median track)))
          (map (fun x => repeat tt (width x)) (full_search (full_line simplify median track))) never SL) as (p & Hp & Hin).
        exists p. split; [rewrite Er, Et; exact Hp|]. intros t s Hts. destruct (Hin _ _ Hts) as [H1 H2]. rewrite map_length in H1. rewrite Ee. cbn [h_cands full_env].
        rewrite <- size_eq in H2. unfold size_at in H2. destruct (nth_error (full_search (full_line simplify median track)) t) as [x|]; [eauto|lia].
      + split; [|exact Er]. destruct W as (m & c0 & Hm & E). exists (n + m), c0, c2. split; [apply (calm_app _ _ _ _ Hn _ _ Hm)|exact E].
    - unfold l_viterbi. right. split; [destruct G as (n & c0 & c' & H & E & _); eauto|]. unfold viterbi.
      replace (answer look c1 0) with true; [reflexivity|]. unfold answer. cbn [looks]. destruct (look c1) as [c3 b] eqn:El. cbn [snd]. symmetry. apply (gave_up_late _ _ _ _ L G El).
  Qed.
End Safe.

(** *** The track *)
Lemma calls_ask now a k : asks (map (fun i => CBoth (now i)) (seq a k)).
Proof. intros c Hc. apply in_map_iff in Hc. destruct Hc as (i & <- & _). eauto. Qed.
(** what is seen of a run in time, and of one given up, in the time helper *)
Lemma calm_run now t n t' k : calm (timer_look now) n (t, 0) (t', k) -> t' = trun t (map (fun i => CBoth (now i)) (seq 0 k)).
Proof. intros H. pose proof (calm_calls _ _ _ _ H) as A. destruct (timer_calm _ _ _ _ H) as (I1 & _). cbn [fst snd] in *. subst k. exact A. Qed.
Lemma gave_up_run now t t' k : gave_up (timer_look now) (t, 0) (t', k) -> tm_reached (trun t (map (fun i => CBoth (now i)) (seq 0 k))) = true.
Proof. intros H. pose proof (gave_up_calls _ _ _ _ _ H) as A. rewrite Nat.sub_0_r in A. rewrite <- A. apply (timer_gave_up _ _ _ _ _ H). Qed.

Section Composed.
  Context {P V : Type}.
  Variable dist : P -> P -> Q.
  Variable eqp : P -> P -> bool.
  Variable seg_dist : P -> P -> P -> Q.
  Variable query : P -> Q -> list (nat * P * @candidate P) -> list (nat * P * @candidate P).
  Variable source target : nat -> nat.
  Variable vertex_point : nat -> P.
  Variable individual : list P -> nat -> list (@candidate P).
  Variable use_nearby reverse use_siblings : bool.
  Variable filter : bool.
  Variable simplify median : option (list P -> list P).
  Variable result_line : list P -> list (nat * nat) -> outcome (@route P).
  Variable edges_list : @route P -> outcome (list nat).
  Variable export_edges_route : list nat -> @route P.
  Variable edge_ids : list nat -> list N.
  Variable export_edges export_edge_ids : bool.
  Notation search now line := (l_search (timer_look now) dist eqp seg_dist query source target vertex_point (individual line) use_nearby reverse use_siblings line).
  (** the candidates of a line without a limit, [CandAdopt.v] *)
  Definition found (line : list P) : list (@CandAdopt.final P) := finalize dist eqp seg_dist query source target vertex_point use_nearby reverse use_siblings (measured (individual line) line).
  Lemma found_spec now line c cs c' : search now line c = (cs, c') -> ((exists n, calm (timer_look now) n c c') /\ cs = found line) \/ stopped (timer_look now) c c'.
  Proof.
    intros E. pose proof (C91_search (timer_look now) dist eqp seg_dist query source target vertex_point (individual line) use_nearby reverse use_siblings line c) as H. rewrite E in H.
    destruct H as [[H ->]|[H _]]; [left; split; [eauto|reflexivity]|right; exact H].
  Qed.

  (** **** The hidden Markov model *)
  Variable bot : V.
  Variable add : V -> V -> V.
  Variable ltb : V -> V -> bool.
  Variable log_inv : nat -> V.
  Variable obs : list (@CandAdopt.final P) -> nat -> nat -> V.
  Variable trans : list (@CandAdopt.final P) -> nat -> nat -> nat -> V.
  Variable result_hmm : hmm (list P) (@CandAdopt.final P) V -> list (nat * nat) -> outcome (@route P).
  Definition hmm_set (now : list P -> timer -> nat -> Z) (tr : list P) (t : timer) : list tcall * hmm (list P) (@CandAdopt.final P) V :=
    match l_set (timer_look (now tr t)) log_inv (fun x => length (CandAdopt.edges x)) obs trans (fun line c => search (now tr t) line c) filter simplify median tr (t, 0) with
    | (e, (_, k)) => (map (fun i => CBoth (now tr t i)) (seq 0 k), e)
    end.
  Definition hmm_learner (now : hmm (list P) (@CandAdopt.final P) V -> timer -> nat -> Z) (e : hmm (list P) (@CandAdopt.final P) V) (t : timer) : list tcall * outcome (list (nat * nat)) :=
    match l_viterbi (timer_look (now e t)) bot add ltb log_inv (tables e) (t, 0) with
    | (r, (_, k)) => (map (fun i => CBoth (now e t i)) (seq 0 k), r)
    end.

  (** A track matched with the hidden Markov model and not marked as aborted has the result it has without a limit, whatever the clocks show. *)
  Theorem C91_track_hmm now_set now_learn clock first max tracks m t r :
    match_track eqp (hmm_set now_set) (hmm_learner now_learn) h_line result_hmm edges_list export_edges_route edge_ids export_edges export_edge_ids clock first max tracks = Ok (m, t, r) -> m_aborted m = false ->
    forall clock' first' max', (max' <= 0)%Z ->
    exists t', match_track eqp (hmm_set now_set) (hmm_learner now_learn) h_line result_hmm edges_list export_edges_route edge_ids export_edges export_edge_ids clock' first' max' tracks = Ok (m, t', r).
  Proof.
    refine (C90_complete eqp _ _ _ _ _ _ _ _ _ (full_env log_inv (fun x => length (CandAdopt.edges x)) obs trans simplify median found) (fun e => viterbi bot add ltb log_inv (tables e) never) _ _ _ _ clock first max tracks m t r).
    - intros tr t0. unfold hmm_set. destruct (l_set _ _ _ _ _ _ _ _ _ _ _) as [e [t1 k]]. apply calls_ask.
    - intros tr t0. unfold hmm_set.
      pose proof (C91_set (timer_look (now_set tr t0)) log_inv (fun x => length (CandAdopt.edges x)) obs trans (fun line c => search (now_set tr t0) line c) filter simplify median found (found_spec _) tr (t0, 0) (timer_latches _)) as S.
      destruct (l_set _ _ _ _ _ _ _ _ _ _ _) as [e [t1 k]]. cbn [fst snd]. intros R. destruct S as [[_ S]|S]; [exact S|]. rewrite (gave_up_run _ _ _ _ S) in R. discriminate.
    - intros e t0. unfold hmm_learner. destruct (l_viterbi _ _ _ _ _ _ _) as [x [t1 k]]. apply calls_ask.
    - intros e t0. unfold hmm_learner, l_viterbi. destruct (until (timer_look (now_learn e t0)) (needed (tables e)) (t0, 0)) as [[t1 k] late] eqn:E. cbn [fst snd]. intros R. apply until_spec in E. destruct late.
      + destruct E as [E _]. rewrite (gave_up_run _ _ _ _ (stopped_gave_up _ _ _ E)) in R. discriminate.
      + apply viterbi_ext. intros i Hi. apply (proj2 (calm_answers _ _ _ _ E)), Hi.
  Qed.

  (** **** The step-wise environment with the search for candidates in [init] *)
  Variable acts : list (@CandAdopt.final P) -> nat -> list nat.
  Variable stp : list (@CandAdopt.final P) -> nat -> nat -> nat * nat * Q * bool.
  Variable start : nat.
  Variable candidate_of : list (@CandAdopt.final P) -> nat -> nat.
  Variable edge : nat -> Z.
  Variable discount threshold : Q.
  Variable fuel extraV extraP : nat.
  Definition single_value (now : list P -> timer -> nat -> Z) (e : list P) (t : timer) :=
    limited (now e t) (l_value (timer_look (now e t)) (search (now e t) e) acts stp start discount threshold candidate_of edge fuel extraV) t.
  Definition single_policy (now : list P -> timer -> nat -> Z) (e : list P) (t : timer) :=
    limited (now e t) (l_policy (timer_look (now e t)) (search (now e t) e) acts stp start discount threshold candidate_of edge fuel extraV extraP) t.

  Lemma limited_spec now run full (t : timer) :
    (match run (t, 0) with
     | Ok (Some x, c') => (exists n, calm (timer_look now) n (t, 0) c') /\ full = Ok x
     | Ok (None, c') => gave_up (timer_look now) (t, 0) c'
     | UB => full = UB | Fuel => full = Fuel | Throw _ => False
     end) ->
    asks (fst (limited now run t)) /\ (tm_reached (trun t (fst (limited now run t))) = false -> snd (limited now run t) = bindO full fst (fun x => Ok (fst x))).
  Proof.
    unfold limited. destruct (run (t, 0)) as [[[x|] [t' k]]|y| |]; intros H; cbn [fst snd].
    - split; [apply calls_ask|]. intros _. destruct H as [_ ->]. destruct x. reflexivity.
    - split; [apply calls_ask|]. intros R. rewrite (gave_up_run _ _ _ _ H) in R. discriminate.
    - contradiction.
    - rewrite H. split; [intros c []|reflexivity].
    - rewrite H. split; [intros c []|reflexivity].
  Qed.
  Lemma single_value_spec now e t :
    asks (fst (single_value now e t)) /\ (tm_reached (trun t (fst (single_value now e t))) = false ->
      snd (single_value now e t) = bindO (learn (acts (found e)) (stp (found e)) start discount threshold (candidate_of (found e)) edge fuel extraV) fst (fun x => Ok (fst x))).
  Proof.
    apply limited_spec. unfold l_value. destruct (search (now e t) e (t, 0)) as [cs c1] eqn:E. destruct (found_spec _ _ _ _ _ E) as [[[n Hn] ->]|G].
    - pose proof (d_learn_spec (timer_look (now e t)) (acts (found e)) (stp (found e)) start discount threshold (candidate_of (found e)) edge fuel extraV c1 (timer_latches _)) as D.
      destruct (d_learn _ _ _ _ _ _ _ _ _ _ _) as [[[x|] c']|y| |]; try contradiction.
      + destruct D as [(k & _ & Hk) D]. split; [exists (n + k); apply (calm_app _ _ _ _ Hn _ _ Hk)|exact D].
      + apply (gave_up_after _ _ _ _ _ Hn D).
      + exact D.
      + exact (proj1 D).
    - unfold d_learn. destruct (timer_look (now e t) c1) as [c2 b] eqn:El. destruct (stopped_look _ _ _ _ _ (timer_latches _) G El) as [-> K]. exact K.
  Qed.
  Lemma single_policy_spec now e t :
    asks (fst (single_policy now e t)) /\ (tm_reached (trun t (fst (single_policy now e t))) = false ->
      snd (single_policy now e t) = bindO (plearn (acts (found e)) (stp (found e)) start discount threshold (candidate_of (found e)) edge fuel extraV extraP) fst (fun x => Ok (fst x))).
  Proof.
    apply limited_spec. unfold l_policy. destruct (search (now e t) e (t, 0)) as [cs c1] eqn:E. destruct (found_spec _ _ _ _ _ E) as [[[n Hn] ->]|G].
    - pose proof (p_learn_spec (timer_look (now e t)) (acts (found e)) (stp (found e)) start discount threshold (candidate_of (found e)) edge fuel extraV extraP c1 (timer_latches _)) as D.
      destruct (p_learn _ _ _ _ _ _ _ _ _ _ _ _) as [[[x|] c']|y| |]; try contradiction.
      + destruct D as [(k & _ & Hk) D]. split; [exists (n + k); apply (calm_app _ _ _ _ Hn _ _ Hk)|exact D].
      + apply (gave_up_after _ _ _ _ _ Hn D).
      + exact D.
      + exact (proj1 D).
    - unfold p_learn. destruct (timer_look (now e t) c1) as [c2 b] eqn:El. destruct (stopped_look _ _ _ _ _ (timer_latches _) G El) as [-> K]. exact K.
  Qed.

  (** The same for a track matched with value iteration or policy iteration, the time spent on the search for candidates counted. *)
  Theorem C91_track_value now_set now_learn clock first max tracks m t r :
    match_track eqp (set_line filter simplify median now_set) (single_value now_learn) (fun e => e) result_line edges_list export_edges_route edge_ids export_edges export_edge_ids clock first max tracks = Ok (m, t, r) ->
    m_aborted m = false -> forall clock' first' max', (max' <= 0)%Z ->
    exists t', match_track eqp (set_line filter simplify median now_set) (single_value now_learn) (fun e => e) result_line edges_list export_edges_route edge_ids export_edges export_edge_ids clock' first' max' tracks = Ok (m, t', r).
  Proof.
    refine (C90_complete eqp _ _ _ _ _ _ _ _ _ _ _ (fun tr t0 => proj1 (C90_set (now_set tr t0) filter simplify median tr t0)) (fun tr t0 => proj2 (C90_set (now_set tr t0) filter simplify median tr t0))
      (fun e t0 => proj1 (single_value_spec now_learn e t0)) (fun e t0 => proj2 (single_value_spec now_learn e t0)) clock first max tracks m t r).
  Qed.
  Theorem C91_track_policy now_set now_learn clock first max tracks m t r :
    match_track eqp (set_line filter simplify median now_set) (single_policy now_learn) (fun e => e) result_line edges_list export_edges_route edge_ids export_edges export_edge_ids clock first max tracks = Ok (m, t, r) ->
    m_aborted m = false -> forall clock' first' max', (max' <= 0)%Z ->
    exists t', match_track eqp (set_line filter simplify median now_set) (single_policy now_learn) (fun e => e) result_line edges_list export_edges_route edge_ids export_edges export_edge_ids clock' first' max' tracks = Ok (m, t', r).
  Proof.
    refine (C90_complete eqp _ _ _ _ _ _ _ _ _ _ _ (fun tr t0 => proj1 (C90_set (now_set tr t0) filter simplify median tr t0)) (fun tr t0 => proj2 (C90_set (now_set tr t0) filter simplify median tr t0))
      (fun e t0 => proj1 (single_policy_spec now_learn e t0)) (fun e t0 => proj2 (single_policy_spec now_learn e t0)) clock first max tracks m t r).
  Qed.
End Composed.

(** *** Examples *)
(** the track of three points of C58: the search needs nineteen looks; a clock that is late at its tenth look ends it there, and it has not found anything *)
Definition walk_points : list Q := map fst CandAdoptProps.walk.
Definition walk_search {C} (look : C -> C * bool) (line : list Q) (c : C) :=
  l_search look away equalQ seg_away whole (fun e => e) S (fun v => inject_Z (Z.of_nat v)) (fun i => nth i (map snd CandAdoptProps.walk) []) true false true line c.
Definition late_from (n c : nat) : nat * bool := (S c, n <=? c).
Lemma late_latches n : latches (late_from n).
Proof. intros c c1 c2 b H1 H2. unfold late_from in *. injection H1 as <- H1. injection H2 as _ <-. apply Nat.leb_le in H1. apply Nat.leb_le. lia. Qed.
Definition once_at (n c : nat) : nat * bool := (S c, c =? n).
Example C91_ex_search :
  (summary (fst (walk_search (late_from 19) walk_points 0)), snd (walk_search (late_from 19) walk_points 0)) = ([[(false, 0); (true, 1)]; [(true, 0); (false, 1); (true, 2)]; [(false, 2); (true, 1)]], 19)
  /\ walk_search (late_from 18) walk_points 0 = ([], 19) /\ walk_search (late_from 9) walk_points 0 = ([], 10) /\ search_looks true true 3 = 19 /\ latches (late_from 9).
Proof.
  split; [vm_compute; reflexivity|]. split; [vm_compute; reflexivity|]. split; [vm_compute; reflexivity|]. split; [reflexivity|].
  apply late_latches.
Qed.
(** the tables of these candidates: an edge costs its distance from the one before *)
Definition walk_obs (cs : list (@CandAdopt.final Q)) (i g : nat) : zb := Some (- Z.of_nat g)%Z.
Definition walk_trans (cs : list (@CandAdopt.final Q)) (i g s : nat) : zb := if (g =? 2) && (s =? 2) then None else Some (- Z.of_nat (g + 2 * s))%Z.
Definition walk_set {C} (look : C -> C * bool) := l_set look (fun n => Some (- Z.of_nat n)%Z) (fun x => length (CandAdopt.edges x)) walk_obs walk_trans (walk_search look) true (Some (fun l => removelast l)) None.
Definition walk_run {C} (look : C -> C * bool) (c : C) :=
  let '(e, c1) := walk_set look (walk_points ++ [99%Q]) c in
  (length (h_cands e), length (h_obs e), length (h_trans e), l_viterbi look None zadd zltb (fun n => Some (- Z.of_nat n)%Z) (tables e) c1).
(** thirty-four looks in time; the time is up in the search, in the second table, in the algorithm *)
Example C91_ex_hmm : walk_run (late_from 34) 0 = (3, 3, 3, (Ok [(0, 0); (1, 0); (2, 0)], 34))
  /\ walk_run (late_from 12) 0 = (0, 0, 0, (Ok [], 15))
  /\ walk_run (late_from 26) 0 = (3, 3, 2, (Ok [], 28))
  /\ walk_run (late_from 33) 0 = (3, 3, 3, (Ok [], 34)).
Proof. vm_compute. auto. Qed.
(** two parts of a track with the hidden Markov model, not marked and marked *)
Definition walk_track (max : Z) (tracks : list (list Q)) :=
  match match_track Qeq_bool
      (hmm_set away equalQ seg_away whole (fun e => e) S (fun v => inject_Z (Z.of_nat v)) (fun _ i => nth i (map snd CandAdoptProps.walk) []) true false true true None None (fun n => Some (- Z.of_nat n)%Z) walk_obs walk_trans
         (fun _ t i => tm_current t + Z.of_nat i + 1)%Z)
      (hmm_learner None zadd zltb (fun n => Some (- Z.of_nat n)%Z) (fun _ t i => tm_current t + Z.of_nat i + 1)%Z) h_line
      (fun e p => Ok (match p with [] => flagged true | _ => of_lines [h_line e] end)) (fun _ => Ok []) (fun _ => of_lines []) (map N.of_nat) false false (fun i => 100 + 50 * Z.of_nat i)%Z 100%Z max tracks with
  | Ok (m, t, r) => Some (m_policies m, m_aborted m, lines r)
  | _ => None
  end.
Example C91_ex_track :
  walk_track 0 [walk_points; [4; 5]]%Q = Some ([[(0, 0); (1, 0); (2, 0)]; [(0, 0); (1, 0)]], false, [walk_points; [4; 5]%Q])
  /\ walk_track 70 [walk_points; [4; 5]]%Q = walk_track 0 [walk_points; [4; 5]]%Q
  /\ walk_track 52 [walk_points; [4; 5]]%Q = Some ([[(0, 0); (1, 0); (2, 0)]; []], true, [walk_points]).
Proof. vm_compute. auto. Qed.

(** *** What does not hold *)
(** The alarm has to stay: if it were gone at the next look, the algorithm would read the rows of a table that are not there. *)
Theorem C91_alarm_refuted : exists n, let '(_, _, ts, (r, _)) := walk_run (once_at n) 0 in ts < 3 /\ r = UB.
Proof. exists 26. vm_compute. auto. Qed.
(** A search given up leaves no candidates, also for the measurements done: nothing tells it from a track without roads around. *)
Theorem C91_given_up_refuted : exists look points, latches look /\ fst (walk_search look points 0) = [] /\ points <> [] /\ fst (walk_search (late_from 100) points 0) <> [].
Proof. exists (late_from 18), walk_points. split; [apply late_latches|]. repeat split; vm_compute; congruence. Qed.

Print Assumptions C91_search.
Print Assumptions C91_set.
Print Assumptions C91_viterbi.
Print Assumptions C91_unfinished.
Print Assumptions C91_safe.
Print Assumptions C91_track_hmm.
Print Assumptions C91_track_value.
Print Assumptions C91_track_policy.
Print Assumptions C91_alarm_refuted.
Print Assumptions C91_given_up_refuted.
