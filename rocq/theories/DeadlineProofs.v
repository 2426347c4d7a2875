(** Proofs for [Deadline.v]. *)
From Verif Require Import Base ListAux Utils UtilsProps.
From Verif Require Import Value Policy ValueProps PolicyProps Deadline.
From Coq Require Import Lia.
Open Scope nat_scope.

Section Calm.
  Context {C : Type}.
  Variable look : C -> C * bool.
  (** [n] looks at the clock, all of them in time *)
  Inductive calm : nat -> C -> C -> Prop :=
  | calm_0 c : calm 0 c c
  | calm_S n c c1 c2 : look c = (c1, false) -> calm n c1 c2 -> calm (S n) c c2.
  Lemma calm_app n c c1 : calm n c c1 -> forall m c2, calm m c1 c2 -> calm (n + m) c c2.
  Proof. induction 1 as [c|n c c1 c2 E H IH]; intros m c3 H3; [exact H3|]. cbn [Nat.add]. apply (calm_S _ _ c1); auto. Qed.
  (** the first look that is too late *)
  Definition stopped (c c' : C) : Prop := exists n c0, calm n c c0 /\ look c0 = (c', true).
  Lemma stopped_after n c c1 c' : calm n c c1 -> stopped c1 c' -> stopped c c'.
  Proof. intros H (m & c0 & Hm & E). exists (n + m), c0. split; [apply (calm_app _ _ _ H _ _ Hm)|exact E]. Qed.
  Lemma stopped_now c c' : look c = (c', true) -> stopped c c'.
  Proof. intros E. exists 0, c. split; [constructor|exact E]. Qed.
  Lemma calm_1 c c1 : look c = (c1, false) -> calm 1 c c1.
  Proof. intros E. apply (calm_S _ _ c1); [exact E|constructor]. Qed.

  Variable acts : nat -> list nat.
  Variable stp : nat -> nat -> nat * nat * Q * bool.
  Variable start : nat.
  Variable discount threshold : Q.
  Variable candidate : nat -> nat.
  Variable edge : nat -> Z.

  (** *** What comes without exceptions and ends *)
  Lemma action_value_plain V s a : (exists x, action_value stp discount V s a = Ok x) \/ action_value stp discount V s a = UB.
  Proof. unfold action_value. destruct (stp s a) as [[[n b] r] d]. destruct d; [eauto|]. destruct (nth_error V n); cbn; eauto. Qed.
  Lemma best_plain V s : forall l m, (exists x, best stp discount V s l m = Ok x) \/ best stp discount V s l m = UB.
  Proof.
    induction l as [|a l IH]; intros m; cbn [best]; [eauto|]. destruct (action_value_plain V s a) as [[x ->]|E]; [cbn [bindO]; apply IH|rewrite E; cbn; auto].
  Qed.
  Lemma esweep_plain pol : forall l V value, (exists x, esweep stp discount pol l V value = Ok x) \/ esweep stp discount pol l V value = UB.
  Proof.
    induction l as [|s l IH]; intros V value; cbn [esweep]; [eauto|]. destruct (nth_error pol s) as [a|]; cbn; [|auto].
    destruct (action_value_plain V s a) as [[x ->]|E]; [|rewrite E; cbn; auto]. cbn [bindO]. destruct (Value.update V s x); cbn; [apply IH|auto].
  Qed.
  Lemma initial_plain : forall l pol, (exists x, initial acts l pol = Ok x) \/ initial acts l pol = UB.
  Proof.
    induction l as [|s l IH]; intros pol; cbn [initial]; [eauto|]. destruct (acts s) as [|a r]; [apply IH|]. destruct (assign pol s a); cbn; [apply IH|auto].
  Qed.
  Lemma follow_plain V : forall fuel s p r, (exists x, follow acts stp discount candidate edge fuel V s p r = Ok x) \/ follow acts stp discount candidate edge fuel V s p r = UB \/ follow acts stp discount candidate edge fuel V s p r = Fuel.
  Proof.
    induction fuel as [|f IH]; intros s p r; cbn [follow]; destruct (acts s) as [|a l]; eauto. destruct (best_plain V s (a :: l) None) as [[x ->]|E]; [|rewrite E; cbn; auto].
    cbn [bindO]. destruct x as [[b y]|]; [|auto]. destruct (stp s b) as [[[n b1] w] d]. destruct d; [eauto|]. apply IH.
  Qed.
  Lemma obey_plain pol : forall fuel s p r, (exists x, obey acts stp candidate edge fuel pol s p r = Ok x) \/ obey acts stp candidate edge fuel pol s p r = UB \/ obey acts stp candidate edge fuel pol s p r = Fuel.
  Proof.
    induction fuel as [|f IH]; intros s p r; cbn [obey]; destruct (acts s) as [|a l]; eauto. destruct (nth_error pol s) as [b|]; cbn; [|auto].
    destruct (stp s b) as [[[n b1] w] d]. destruct d; [eauto|]. apply IH.
  Qed.

  (** *** Value iteration *)
  Lemma d_discover_spec s : forall l acc c acc' c' late, d_discover look stp s l acc c = (acc', c', late) ->
    if late then stopped c c' else calm (length l) c c' /\ acc' = fold_left (discover stp s) l acc.
  Proof.
    induction l as [|a l IH]; intros acc c acc' c' late E; cbn [d_discover] in E.
    - injection E as <- <- <-. split; [constructor|reflexivity].
    - destruct (look c) as [c1 b] eqn:El. destruct b.
      + injection E as _ <- <-. apply stopped_now, El.
      + specialize (IH _ _ _ _ _ E). destruct late; [apply (stopped_after 1 _ c1); [apply calm_1, El|exact IH]|].
        destruct IH as [H1 H2]. split; [cbn [length]; apply (calm_S _ _ c1); assumption|exact H2].
  Qed.
  Lemma discover_todo s : forall l states todo highest states1 todo1 highest1, fold_left (discover stp s) l (states, todo, highest) = (states1, todo1, highest1) ->
    length todo1 <= length todo + length l.
  Proof.
    induction l as [|a l IH]; intros states todo highest states1 todo1 highest1 E; cbn [fold_left length] in *; [injection E as _ <- _; lia|].
    unfold discover at 2 in E. destruct (stp s a) as [[[n b] w] d]. destruct (negb d && negb (existsb (Nat.eqb n) states)); apply IH in E; rewrite ?app_length in E; cbn in E; lia.
  Qed.

  Lemma d_generate_spec : forall fuel states todo highest c,
    match d_generate look acts stp fuel states todo highest c with
    | Ok (states', highest', c') => (exists n, calm n c c' /\ generate acts stp fuel states todo highest = Ok (states', highest')) \/ stopped c c'
    | Fuel => generate acts stp fuel states todo highest = Fuel /\ exists n c', calm n c c' /\ fuel < n + length todo
    | _ => False
    end.
  Proof.
    induction fuel as [|f IH]; intros states todo highest c; destruct todo as [|s todo]; cbn [d_generate generate].
    - left. exists 0. split; [constructor|reflexivity].
    - split; [reflexivity|]. exists 0, c. split; [constructor|cbn; lia].
    - left. exists 0. split; [constructor|reflexivity].
    - destruct (d_discover look stp s (acts s) (states, todo, highest) c) as [[[[states1 todo1] highest1] c1] late] eqn:Ed.
      pose proof (d_discover_spec _ _ _ _ _ _ _ Ed) as D. destruct late; [right; exact D|]. destruct D as [D1 D2]. rewrite <- D2.
      pose proof (discover_todo _ _ _ _ _ _ _ _ (eq_sym D2)) as D3.
      specialize (IH states1 todo1 highest1 c1). destruct (d_generate look acts stp f states1 todo1 highest1 c1) as [[[states' highest'] c']|x| |]; try contradiction.
      + destruct IH as [(n & Hn & E)|H]; [left; exists (length (acts s) + n); split; [apply (calm_app _ _ _ D1 _ _ Hn)|exact E]|right; apply (stopped_after _ _ _ _ D1 H)].
      + destruct IH as (E & n & c' & Hn & L). split; [exact E|]. exists (length (acts s) + n), c'. split; [apply (calm_app _ _ _ D1 _ _ Hn)|cbn [length]; lia].
  Qed.

  Lemma d_sweep_spec : forall l V value trained c,
    match d_sweep look acts stp discount l V value trained c with
    | Ok (Some x, c') => calm (length l) c c' /\ sweep acts stp discount l V value trained = Ok x
    | Ok (None, c') => stopped c c'
    | UB => sweep acts stp discount l V value trained = UB
    | _ => False
    end.
  Proof.
    induction l as [|s l IH]; intros V value trained c; cbn [d_sweep sweep]; [split; [constructor|reflexivity]|].
    destruct (best_plain V s (acts s) None) as [[m ->]|E]; [|rewrite E; reflexivity]. cbn [bindO].
    assert (K : forall V1 value1 trained1, match (let '(c1, late) := look c in if late then Ok (None, c1) else d_sweep look acts stp discount l V1 value1 trained1 c1) with
      | Ok (Some x, c') => calm (length (s :: l)) c c' /\ sweep acts stp discount l V1 value1 trained1 = Ok x
      | Ok (None, c') => stopped c c'
      | UB => sweep acts stp discount l V1 value1 trained1 = UB
      | _ => False
      end).
    { intros V1 value1 trained1. destruct (look c) as [c1 b] eqn:El. destruct b; [apply stopped_now, El|]. specialize (IH V1 value1 trained1 c1).
      destruct (d_sweep look acts stp discount l V1 value1 trained1 c1) as [[[x|] c']|x| |]; try contradiction.
      - destruct IH as [H1 H2]. split; [apply (calm_S _ _ c1); assumption|exact H2].
      - apply (stopped_after 1 _ c1); [apply calm_1, El|exact IH].
      - exact IH. }
    destruct m as [[a x]|]; cbn [derefO]; [|apply K]. destruct (Value.update V s x) as [V1|]; cbn [option_map derefO]; [apply K|reflexivity].
  Qed.
  Lemma d_iterate_spec states : forall fuel V value delta trained c,
    match d_iterate look acts stp discount threshold fuel states V value delta trained c with
    | Ok (Some x, c') => (exists n, calm n c c') /\ iterate acts stp discount threshold fuel states V value delta trained = Ok x
    | Ok (None, c') => stopped c c'
    | UB => iterate acts stp discount threshold fuel states V value delta trained = UB
    | Fuel => iterate acts stp discount threshold fuel states V value delta trained = Fuel /\ exists n c', calm n c c' /\ fuel * length states <= n
    | Throw _ => False
    end.
  Proof.
    induction fuel as [|f IH]; intros V value delta trained c; cbn [d_iterate iterate]; destruct (go_on threshold delta).
    - split; [reflexivity|]. exists 0, c. split; [constructor|cbn; lia].
    - split; [exists 0; constructor|reflexivity].
    - pose proof (d_sweep_spec (rev states) V 0 trained c) as S1. destruct (d_sweep look acts stp discount (rev states) V 0 trained c) as [[[[[V1 value1] trained1]|] c1]|x| |]; try contradiction; cbn [bindO].
      + destruct S1 as [S1 ->]. cbn [bindO]. set (delta1 := if less _ _ then _ else _). specialize (IH V1 value1 delta1 trained1 c1).
        destruct (d_iterate look acts stp discount threshold f states V1 value1 delta1 trained1 c1) as [[[x|] c']|x| |].
        * destruct IH as [[n Hn] E]. split; [exists (length (rev states) + n); apply (calm_app _ _ _ S1 _ _ Hn)|exact E].
        * apply (stopped_after _ _ _ _ S1 IH).
        * exact IH.
        * exact IH.
        * destruct IH as (E & n & c' & Hn & L). split; [exact E|]. exists (length (rev states) + n), c'. split; [apply (calm_app _ _ _ S1 _ _ Hn)|]. rewrite rev_length. cbn [Nat.mul]. lia.
      + exact S1.
      + rewrite S1. reflexivity.
    - split; [exists 0; constructor|reflexivity].
  Qed.

  Lemma generate_states_start : forall fuel states todo highest states' highest', generate acts stp fuel states todo highest = Ok (states', highest') -> length states <= length states'.
  Proof.
    assert (D : forall s l states todo highest states1 todo1 highest1, fold_left (discover stp s) l (states, todo, highest) = (states1, todo1, highest1) -> length states <= length states1).
    { induction l as [|a l IH]; intros states todo highest states1 todo1 highest1 E; cbn [fold_left] in *; [injection E as <- _ _; lia|].
      unfold discover at 2 in E. destruct (stp s a) as [[[n b] w] d]. destruct (negb d && negb (existsb (Nat.eqb n) states)); apply IH in E; rewrite ?app_length in E; cbn in E; lia. }
    induction fuel as [|f IH]; intros states todo highest states' highest' E; destruct todo as [|s todo]; cbn [generate] in E; try discriminate; try (injection E as <- _; lia).
    destruct (fold_left (discover stp s) (acts s) (states, todo, highest)) as [[states1 todo1] highest1] eqn:Ed. apply D in Ed. apply IH in E. lia.
  Qed.

  (** a clock whose alarm stays *)
  Definition latches : Prop := forall c c1 c2 b, look c = (c1, true) -> look c1 = (c2, b) -> b = true.
  (** the first look that is too late, or one more *)
  Definition gave_up (c c' : C) : Prop := exists n c0 c1, calm n c c0 /\ look c0 = (c1, true) /\ (c' = c1 \/ look c1 = (c', true)).
  Lemma stopped_gave_up c c' : stopped c c' -> gave_up c c'.
  Proof. intros (n & c0 & H & E). exists n, c0, c'. auto. Qed.
  Lemma gave_up_after n c c1 c' : calm n c c1 -> gave_up c1 c' -> gave_up c c'.
  Proof. intros H (m & c0 & c2 & Hm & E). exists (n + m), c0, c2. split; [apply (calm_app _ _ _ H _ _ Hm)|exact E]. Qed.
  Lemma stopped_look c c1 c2 b : latches -> stopped c c1 -> look c1 = (c2, b) -> b = true /\ gave_up c c2.
  Proof.
    intros L (n & c0 & H & E) El. pose proof (L _ _ _ _ E El) as ->. split; [reflexivity|]. exists n, c0, c1. auto.
  Qed.

  Lemma d_learn_spec fuel extra c : latches ->
    match d_learn look acts stp start discount threshold candidate edge fuel extra c with
    | Ok (Some x, c') => (exists n, 2 <= n /\ calm n c c') /\ learn acts stp start discount threshold candidate edge fuel extra = Ok x
    | Ok (None, c') => gave_up c c'
    | UB => learn acts stp start discount threshold candidate edge fuel extra = UB
    | Fuel => learn acts stp start discount threshold candidate edge fuel extra = Fuel
        /\ ((exists n c', calm n c c' /\ fuel < n)
            \/ exists states highest V, generate_states acts stp start fuel = Ok (states, highest) /\ iterate acts stp discount threshold fuel states (repeat 0%Q (S highest + extra)) 0 None false = Ok (V, true)
                 /\ follow acts stp discount candidate edge fuel V start [] [] = Fuel)
    | Throw _ => False
    end.
  Proof.
    intros L. unfold d_learn, learn, generate_states. destruct (look c) as [c1 b] eqn:E1. destruct b; [apply stopped_gave_up, stopped_now, E1|].
    pose proof (d_generate_spec fuel [start] [start] start c1) as G. destruct (d_generate look acts stp fuel [start] [start] start c1) as [[[states highest] c2]|x| |]; try contradiction; cbn [bindO].
    2:{ destruct G as (-> & n & c' & Hn & Ln). split; [reflexivity|]. left. exists (S n), c'. split; [apply (calm_S _ _ c1); assumption|]. cbn in Ln. lia. }
    destruct (look c2) as [c3 b] eqn:E3. destruct G as [(n & Hn & Eg)|G].
    2:{ destruct (stopped_look _ _ _ _ L G E3) as [-> G']. apply (gave_up_after 1 _ c1); [apply calm_1, E1|exact G']. }
    pose proof (calm_S _ _ _ _ E1 Hn) as Hn1.
    rewrite Eg. cbn [bindO]. destruct b; [apply (gave_up_after _ _ _ _ Hn1), stopped_gave_up, stopped_now, E3|].
    pose proof (calm_app _ _ _ Hn1 _ _ (calm_1 _ _ E3)) as Hn3.
    pose proof (generate_states_start _ _ _ _ _ _ Eg) as Ls. cbn [length] in Ls.
    pose proof (d_iterate_spec states fuel (repeat 0%Q (S highest + extra)) 0 None false c3) as I. destruct (d_iterate look acts stp discount threshold fuel states (repeat 0%Q (S highest + extra)) 0 None false c3) as [[[[V trained]|] c4]|x| |] eqn:Ei; try contradiction; cbn [bindO].
    - destruct I as [[m Hm] I]. rewrite I. cbn [bindO]. pose proof (calm_app _ _ _ Hn3 _ _ Hm) as Hn4. assert (K : exists n, 2 <= n /\ calm n c c4) by (eexists; split; [|exact Hn4]; lia).
      destruct trained; [|split; [exact K|reflexivity]]. destruct (follow_plain V fuel start [] []) as [[x Ex]|[Ex|Ex]]; rewrite Ex; cbn [bindO].
      + split; [exact K|reflexivity].
      + reflexivity.
      + split; [reflexivity|]. right. exists states, highest, V. repeat split; assumption.
    - apply (gave_up_after _ _ _ _ Hn3), stopped_gave_up, I.
    - rewrite I. reflexivity.
    - destruct I as (I & m & c' & Hm & Lm). rewrite I. split; [reflexivity|]. left. exists (S n + 1 + m), c'. split; [apply (calm_app _ _ _ Hn3 _ _ Hm)|nia].
  Qed.

  (** *** Policy iteration *)
  Lemma p_generate_spec : forall fuel states todo highest c,
    match p_generate look acts stp fuel states todo highest c with
    | Ok (states', highest', c') => (exists n, calm n c c' /\ generate acts stp fuel states todo highest = Ok (states', highest')) \/ stopped c c'
    | Fuel => generate acts stp fuel states todo highest = Fuel /\ exists n c', calm n c c' /\ fuel <= n
    | _ => False
    end.
  Proof.
    induction fuel as [|f IH]; intros states todo highest c; destruct todo as [|s todo]; cbn [p_generate generate].
    - left. exists 0. split; [constructor|reflexivity].
    - split; [reflexivity|]. exists 0, c. split; [constructor|cbn; lia].
    - left. exists 0. split; [constructor|reflexivity].
    - destruct (fold_left (discover stp s) (acts s) (states, todo, highest)) as [[states1 todo1] highest1]. destruct (look c) as [c1 b] eqn:El. destruct b; [right; apply stopped_now, El|].
      specialize (IH states1 todo1 highest1 c1). destruct (p_generate look acts stp f states1 todo1 highest1 c1) as [[[states' highest'] c']|x| |]; try contradiction.
      + destruct IH as [(n & Hn & E)|H]; [left; exists (S n); split; [apply (calm_S _ _ c1); assumption|exact E]|right; apply (stopped_after 1 _ c1); [apply calm_1, El|exact H]].
      + destruct IH as (E & n & c' & Hn & L). split; [exact E|]. exists (S n), c'. split; [apply (calm_S _ _ c1); assumption|lia].
  Qed.
  Lemma p_evaluate_spec states pol : forall fuel V value delta c,
    match p_evaluate look stp discount threshold fuel states pol V value delta c with
    | Ok (Some x, c') => (exists n, (go_on threshold delta = true -> 1 <= n) /\ calm n c c') /\ evaluate stp discount threshold fuel states pol V value delta = Ok x
    | Ok (None, c') => stopped c c'
    | UB => evaluate stp discount threshold fuel states pol V value delta = UB
    | Fuel => evaluate stp discount threshold fuel states pol V value delta = Fuel /\ exists n c', calm n c c' /\ fuel <= n
    | Throw _ => False
    end.
  Proof.
    induction fuel as [|f IH]; intros V value delta c; cbn [p_evaluate evaluate]; destruct (go_on threshold delta).
    - split; [reflexivity|]. exists 0, c. split; [constructor|lia].
    - split; [exists 0; split; [discriminate|constructor]|reflexivity].
    - destruct (esweep_plain pol (rev states) V 0) as [[[V1 value1] ->]|E]; [|rewrite E; reflexivity]. cbn [bindO]. destruct (look c) as [c1 b] eqn:El. destruct b; [apply stopped_now, El|].
      set (delta1 := if less _ _ then _ else _). specialize (IH V1 value1 delta1 c1).
      destruct (p_evaluate look stp discount threshold f states pol V1 value1 delta1 c1) as [[[x|] c']|x| |].
      + destruct IH as [(n & _ & Hn) E]. split; [exists (S n); split; [lia|apply (calm_S _ _ c1); assumption]|exact E].
      + apply (stopped_after 1 _ c1); [apply calm_1, El|exact IH].
      + exact IH.
      + exact IH.
      + destruct IH as (E & n & c' & Hn & L). split; [exact E|]. exists (S n), c'. split; [apply (calm_S _ _ c1); assumption|lia].
    - split; [exists 0; split; [discriminate|constructor]|reflexivity].
  Qed.
  Lemma p_improve_spec V : forall l pol stable trained c,
    match p_improve look acts stp discount V l pol stable trained c with
    | Ok (Some x, c') => calm (length l) c c' /\ improve acts stp discount V l pol stable trained = Ok x
    | Ok (None, c') => stopped c c'
    | UB => improve acts stp discount V l pol stable trained = UB
    | _ => False
    end.
  Proof.
    induction l as [|s l IH]; intros pol stable trained c; cbn [p_improve improve]; [split; [constructor|reflexivity]|].
    destruct (nth_error pol s) as [old|]; cbn [derefO]; [|reflexivity].
    destruct (best_plain V s (acts s) None) as [[m ->]|E]; [|rewrite E; reflexivity]. cbn [bindO].
    assert (K : forall pol1 stable1 trained1, match (let '(c1, late) := look c in if late then Ok (None, c1) else p_improve look acts stp discount V l pol1 stable1 trained1 c1) with
      | Ok (Some x, c') => calm (length (s :: l)) c c' /\ improve acts stp discount V l pol1 stable1 trained1 = Ok x
      | Ok (None, c') => stopped c c'
      | UB => improve acts stp discount V l pol1 stable1 trained1 = UB
      | _ => False
      end).
    { intros V1 value1 trained1. destruct (look c) as [c1 b] eqn:El. destruct b; [apply stopped_now, El|]. specialize (IH V1 value1 trained1 c1).
      destruct (p_improve look acts stp discount V l V1 value1 trained1 c1) as [[[x|] c']|x| |]; try contradiction.
      - destruct IH as [H1 H2]. split; [apply (calm_S _ _ c1); assumption|exact H2].
      - apply (stopped_after 1 _ c1); [apply calm_1, El|exact IH].
      - exact IH. }
    destruct m as [[a x]|]; cbn [derefO]; [|apply K]. destruct (assign pol s a) as [pol1|]; cbn [option_map derefO]; [apply K|reflexivity].
  Qed.
  Lemma p_rounds_spec states : forall fuel V pol trained c,
    match p_rounds look acts stp discount threshold fuel states V pol trained c with
    | Ok (Some x, c') => (exists n, calm n c c') /\ rounds acts stp discount threshold fuel states V pol trained = Ok x
    | Ok (None, c') => stopped c c'
    | UB => rounds acts stp discount threshold fuel states V pol trained = UB
    | Fuel => rounds acts stp discount threshold fuel states V pol trained = Fuel /\ exists n c', calm n c c' /\ fuel <= n
    | Throw _ => False
    end.
  Proof.
    induction fuel as [|f IH]; intros V pol trained c; cbn [p_rounds rounds]; [split; [reflexivity|]; exists 0, c; split; [constructor|lia]|].
    pose proof (p_evaluate_spec states pol (S f) V 0 None c) as E. destruct (p_evaluate look stp discount threshold (S f) states pol V 0 None c) as [[[V1|] c1]|x| |]; try contradiction; cbn [bindO].
    - destruct E as [(n & Hp & Hn) ->]. cbn [bindO]. specialize (Hp eq_refl).
      pose proof (p_improve_spec V1 (rev states) pol true trained c1) as I. destruct (p_improve look acts stp discount V1 (rev states) pol true trained c1) as [[[[[pol1 stable] trained1]|] c2]|x| |]; try contradiction; cbn [bindO].
      + destruct I as [I1 ->]. cbn [bindO]. pose proof (calm_app _ _ _ Hn _ _ I1) as Hn2. destruct stable; [split; [eauto|reflexivity]|].
        specialize (IH V1 pol1 trained1 c2). destruct (p_rounds look acts stp discount threshold f states V1 pol1 trained1 c2) as [[[x|] c']|x| |].
        * destruct IH as [[m Hm] E]. split; [eexists; apply (calm_app _ _ _ Hn2 _ _ Hm)|exact E].
        * apply (stopped_after _ _ _ _ Hn2 IH).
        * exact IH.
        * exact IH.
        * destruct IH as (E & m & c' & Hm & L). split; [exact E|]. eexists _, c'. split; [apply (calm_app _ _ _ Hn2 _ _ Hm)|lia].
      + apply (stopped_after _ _ _ _ Hn I).
      + rewrite I. reflexivity.
    - exact E.
    - rewrite E. reflexivity.
    - destruct E as (E & n & c' & Hn & L). rewrite E. split; [reflexivity|]. eauto.
  Qed.

  Lemma p_learn_spec fuel extraV extraP c : latches ->
    match p_learn look acts stp start discount threshold candidate edge fuel extraV extraP c with
    | Ok (Some x, c') => (exists n, 2 <= n /\ calm n c c') /\ plearn acts stp start discount threshold candidate edge fuel extraV extraP = Ok x
    | Ok (None, c') => gave_up c c'
    | UB => plearn acts stp start discount threshold candidate edge fuel extraV extraP = UB
    | Fuel => plearn acts stp start discount threshold candidate edge fuel extraV extraP = Fuel
        /\ ((exists n c', calm n c c' /\ fuel < n)
            \/ exists states highest pol0 V pol, generate_states acts stp start fuel = Ok (states, highest) /\ initial acts (rev states) (repeat 0 (S highest + extraP)) = Ok pol0
                 /\ rounds acts stp discount threshold fuel states (repeat 0%Q (S highest + extraV)) pol0 false = Ok (V, pol, true)
                 /\ obey acts stp candidate edge fuel pol start [] [] = Fuel)
    | Throw _ => False
    end.
  Proof.
    intros L. unfold p_learn, plearn, generate_states. destruct (look c) as [c1 b] eqn:E1. destruct b; [apply stopped_gave_up, stopped_now, E1|].
    pose proof (p_generate_spec fuel [start] [start] start c1) as G. destruct (p_generate look acts stp fuel [start] [start] start c1) as [[[states highest] c2]|x| |]; try contradiction; cbn [bindO].
    2:{ destruct G as (-> & n & c' & Hn & Ln). split; [reflexivity|]. left. exists (S n), c'. split; [apply (calm_S _ _ c1); assumption|]. lia. }
    destruct (look c2) as [c3 b] eqn:E3. destruct G as [(n & Hn & Eg)|G].
    2:{ destruct (stopped_look _ _ _ _ L G E3) as [-> G']. apply (gave_up_after 1 _ c1); [apply calm_1, E1|exact G']. }
    pose proof (calm_S _ _ _ _ E1 Hn) as Hn1.
    rewrite Eg. cbn [bindO]. destruct b; [apply (gave_up_after _ _ _ _ Hn1), stopped_gave_up, stopped_now, E3|].
    pose proof (calm_app _ _ _ Hn1 _ _ (calm_1 _ _ E3)) as Hn3.
    destruct (initial_plain (rev states) (repeat 0 (S highest + extraP))) as [[pol0 E0]|E0]; rewrite E0; cbn [bindO]; [|reflexivity].
    pose proof (p_rounds_spec states fuel (repeat 0%Q (S highest + extraV)) pol0 false c3) as I.
    destruct (p_rounds look acts stp discount threshold fuel states (repeat 0%Q (S highest + extraV)) pol0 false c3) as [[[[[V pol] trained]|] c4]|x| |] eqn:Ei; try contradiction; cbn [bindO].
    - destruct I as [[m Hm] I]. rewrite I. cbn [bindO]. pose proof (calm_app _ _ _ Hn3 _ _ Hm) as Hn4. assert (K : exists n, 2 <= n /\ calm n c c4) by (eexists; split; [|exact Hn4]; lia).
      destruct trained; [|split; [exact K|reflexivity]]. destruct (obey_plain pol fuel start [] []) as [[x Ex]|[Ex|Ex]]; rewrite Ex; cbn [bindO].
      + split; [exact K|reflexivity].
      + reflexivity.
      + split; [reflexivity|]. right. exists states, highest, pol0, V, pol. repeat split; assumption.
    - apply (gave_up_after _ _ _ _ Hn3), stopped_gave_up, I.
    - rewrite I. reflexivity.
    - destruct I as (I & m & c' & Hm & Lm). rewrite I. split; [reflexivity|]. left. exists (S n + 1 + m), c'. split; [apply (calm_app _ _ _ Hn3 _ _ Hm)|lia].
  Qed.

  (** *** Value iteration stays within its vectors *)
  Lemma sweep_fits : forall l V value trained, (forall s, In s l -> fits acts stp V s) ->
    exists V' value' trained', sweep acts stp discount l V value trained = Ok (V', value', trained') /\ length V' = length V.
  Proof.
    induction l as [|s l IH]; intros V value trained H; cbn [sweep]; [eauto|].
    pose proof (H s (or_introl eq_refl)) as F. destruct (best_ok acts stp discount V s F (acts s) None (incl_refl _)) as (m & -> & _). cbn [bindO].
    destruct m as [[a x]|]; [|apply IH; intros t Ht; apply H; right; exact Ht].
    destruct (update_ok V s x (proj1 F)) as (V1 & E & L1 & _). rewrite E. cbn [derefO].
    destruct (IH V1 (value + x)%Q true) as (V' & value' & trained' & E' & L').
    - intros t Ht. apply (fits_same acts stp V); [exact L1|]. apply H. right. exact Ht.
    - exists V', value', trained'. split; [exact E'|congruence].
  Qed.
  Lemma iterate_fits states : forall fuel V value delta trained, (forall s, In s states -> fits acts stp V s) ->
    (exists V' trained', iterate acts stp discount threshold fuel states V value delta trained = Ok (V', trained') /\ length V' = length V)
    \/ iterate acts stp discount threshold fuel states V value delta trained = Fuel.
  Proof.
    induction fuel as [|f IH]; intros V value delta trained H; cbn [iterate]; destruct (go_on threshold delta); eauto.
    destruct (sweep_fits (rev states) V 0 trained) as (V1 & value1 & trained1 & -> & L1); [intros s Hs; apply H, in_rev, Hs|]. cbn [bindO].
    set (delta1 := if less _ _ then _ else _). destruct (IH V1 value1 delta1 trained1) as [(V' & trained' & E & L)|E].
    - intros s Hs. apply (fits_same acts stp V); [exact L1|apply H, Hs].
    - left. exists V', trained'. split; [exact E|congruence].
    - right. exact E.
  Qed.
  Lemma follow_fits states V : (forall s a, In s states -> In a (acts s) -> final stp s a = false -> In (next stp s a) states) -> (forall s, In s states -> fits acts stp V s) ->
    forall fuel s p r, In s states -> follow acts stp discount candidate edge fuel V s p r <> UB.
  Proof.
    intros Cl H. induction fuel as [|f IH]; intros s p r Hs; cbn [follow]; destruct (acts s) as [|a l] eqn:Ea; try discriminate.
    destruct (best_spec acts stp discount V s (H s Hs)) as (b & E & Hb & _); [rewrite Ea; discriminate|]. rewrite Ea in E. rewrite E. cbn [bindO].
    rewrite (stp_eq stp s b). destruct (final stp s b) eqn:F; [discriminate|]. apply IH, (Cl s b); [exact Hs|rewrite Ea in *; exact Hb|exact F].
  Qed.
  Lemma learn_defined fuel extra : learn acts stp start discount threshold candidate edge fuel extra <> UB.
  Proof.
    unfold learn. destruct (generate_states acts stp start fuel) as [[states highest]|x| |] eqn:Eg; cbn [bindO]; try discriminate.
    - destruct (C49_states _ _ _ _ _ _ Eg) as (_ & H & _).
      destruct (iterate_fits states fuel (repeat 0%Q (S highest + extra)) 0%Q None false) as [(V & trained & E & Lv)|E]; [intros s Hs; apply (init_fits _ _ _ _ _ _ _ Eg), Hs| |rewrite E; discriminate].
      rewrite E. cbn [bindO]. destruct trained; [|discriminate]. apply (follow_fits states).
      + apply (gen_closed _ _ _ _ _ _ Eg).
      + intros s Hs. apply (fits_same acts stp (repeat 0%Q (S highest + extra))); [exact Lv|]. apply (init_fits _ _ _ _ _ _ _ Eg), Hs.
      + apply H. constructor.
    - exfalso. revert Eg. unfold generate_states. assert (G : forall fuel states todo highest, generate acts stp fuel states todo highest <> UB).
      { induction fuel0 as [|f IH]; intros states todo highest; destruct todo as [|s todo]; cbn [generate]; try discriminate.
        destruct (fold_left (discover stp s) (acts s) (states, todo, highest)) as [[states1 todo1] highest1]. apply IH. }
      apply G.
  Qed.

  (** *** The actions of the policy are offered *)
  Definition lawful (states pol : list nat) : Prop := forall s, In s states -> acts s <> [] -> exists a, nth_error pol s = Some a /\ In a (acts s).
  Lemma assign_get pol : forall s a pol', assign pol s a = Some pol' -> forall t, nth_error pol' t = if t =? s then Some a else nth_error pol t.
  Proof.
    induction pol as [|b pol IH]; intros s a pol' E t; destruct s as [|s]; cbn [assign] in E; try discriminate.
    - injection E as <-. destruct t; reflexivity.
    - destruct (assign pol s a) as [p|] eqn:Ea; [|discriminate]. injection E as <-. destruct t as [|t]; [reflexivity|]. cbn [nth_error Nat.eqb]. apply (IH _ _ _ Ea).
  Qed.
  Lemma best_in V s : forall l m a x, best stp discount V s l m = Ok (Some (a, x)) -> In a l \/ exists y, m = Some (a, y).
  Proof.
    induction l as [|b l IH]; intros m a x E; cbn [best] in E; [injection E as ->; eauto|].
    destruct (action_value_plain V s b) as [[y Ey]|Ey]; rewrite Ey in E; cbn [bindO] in E; [|discriminate]. destruct (IH _ _ _ E) as [H|[z H]]; [left; right; exact H|].
    destruct (better y m); [injection H as -> _; left; left; reflexivity|right; eauto].
  Qed.
  Lemma initial_lawful : forall l pol pol', initial acts l pol = Ok pol' -> forall s, (In s l /\ acts s <> []) \/ (exists a, nth_error pol s = Some a /\ In a (acts s)) -> exists a, nth_error pol' s = Some a /\ In a (acts s).
  Proof.
    induction l as [|t l IH]; intros pol pol' E s H; cbn [initial] in E; [injection E as <-; destruct H as [[[] _]|H]; exact H|].
    destruct (acts t) as [|a r] eqn:Ea; [apply (IH _ _ E); destruct H as [[[->|H] N]|H]; auto; congruence|].
    destruct (assign pol t a) as [pol1|] eqn:E1; cbn [derefO] in E; [|discriminate]. apply (IH _ _ E). rewrite (assign_get _ _ _ _ E1). destruct (s =? t) eqn:Et.
    - apply Nat.eqb_eq in Et. subst t. right. exists a. rewrite Ea. split; [reflexivity|left; reflexivity].
    - destruct H as [[[->|H] N]|H]; [rewrite Nat.eqb_refl in Et; discriminate|auto|auto].
  Qed.
  Lemma improve_lawful states V : forall l pol stable trained pol' stable' trained', lawful states pol -> improve acts stp discount V l pol stable trained = Ok (pol', stable', trained') -> lawful states pol'.
  Proof.
    induction l as [|t l IH]; intros pol stable trained pol' stable' trained' H E; cbn [improve] in E; [injection E as <- _ _; exact H|].
    destruct (nth_error pol t) as [old|]; cbn [derefO] in E; [|discriminate]. destruct (best_plain V t (acts t) None) as [[m Em]|Em]; rewrite Em in E; cbn [bindO] in E; [|discriminate].
    destruct m as [[a x]|]; [|apply (IH _ _ _ _ _ _ H E)]. destruct (assign pol t a) as [pol1|] eqn:E1; cbn [derefO] in E; [|discriminate]. refine (IH _ _ _ _ _ _ _ E).
    intros s Hs Ns. rewrite (assign_get _ _ _ _ E1). destruct (s =? t) eqn:Et; [|apply H; assumption]. apply Nat.eqb_eq in Et. subst t. exists a. split; [reflexivity|].
    destruct (best_in _ _ _ _ _ _ Em) as [Ha|[y Hy]]; [exact Ha|discriminate].
  Qed.
  Lemma rounds_lawful states : forall fuel V pol trained V' pol' trained', lawful states pol -> rounds acts stp discount threshold fuel states V pol trained = Ok (V', pol', trained') -> lawful states pol'.
  Proof.
    induction fuel as [|f IH]; intros V pol trained V' pol' trained' H E; cbn [rounds] in E; [discriminate|].
    destruct (evaluate stp discount threshold (S f) states pol V 0 None) as [V1|x| |]; cbn [bindO] in E; try discriminate.
    destruct (improve acts stp discount V1 (rev states) pol true trained) as [[[pol1 stable] trained1]|x| |] eqn:Ei; cbn [bindO] in E; try discriminate.
    pose proof (improve_lawful _ _ _ _ _ _ _ _ _ H Ei) as H1. destruct stable; [injection E as _ <- _; exact H1|]. apply (IH _ _ _ _ _ _ H1 E).
  Qed.
  Lemma obey_ends (rank : nat -> nat) states pol : (forall s a, In s states -> In a (acts s) -> final stp s a = false -> In (next stp s a) states) -> (forall s a, In s states -> In a (acts s) -> final stp s a = false -> rank (next stp s a) < rank s) ->
    lawful states pol -> forall fuel s p r, In s states -> rank s < fuel -> obey acts stp candidate edge fuel pol s p r <> Fuel.
  Proof.
    intros Cl HR HL. induction fuel as [|f IH]; intros s p r Hs Hr; [lia|]. cbn [obey]. destruct (acts s) as [|a0 l] eqn:Ea; [discriminate|].
    destruct (HL s Hs) as (a & E & Ha); [congruence|]. rewrite E. cbn [derefO]. rewrite (stp_eq stp s a). destruct (final stp s a) eqn:F; [discriminate|].
    apply IH; [apply (Cl s a); assumption|]. specialize (HR s a Hs Ha F). lia.
  Qed.
End Calm.
