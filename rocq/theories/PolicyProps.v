(** C60: policy iteration. *)
From Coq Require Import Lqa.
From Verif Require Import Base ListAux Policy ValueProps.

(** [t] stands behind [s] in the list *)
Definition behind (l : list nat) (s t : nat) : Prop := exists l1 l2, l = l1 ++ s :: l2 /\ In t l2.

Section C60.
  Variable acts : nat -> list nat.
  Variable stp : nat -> nat -> nat * nat * Q * bool.
  Variable discount threshold : Q.
  Variable candidate : nat -> nat.
  Variable edge : nat -> Z.
  Notation next := (next stp).
  Notation gain := (gain stp).
  Notation final := (final stp).
  Notation worth := (worth stp discount).
  Notation fits := (fits acts stp).

  (** the action the policy has for a state *)
  Definition act (pol : list nat) (s : nat) : nat := nth s pol 0.

  Lemma assign_ok pol : forall s a, s < length pol -> exists pol', assign pol s a = Some pol' /\ length pol' = length pol /\ act pol' s = a /\ forall t, t <> s -> act pol' t = act pol t.
  Proof.
    induction pol as [|b pol IH]; intros s a H; cbn in H; [lia|]. destruct s as [|s].
    - exists (a :: pol). cbn. split; [reflexivity|]. split; [reflexivity|]. split; [reflexivity|]. intros [|t] Ht; [contradiction|reflexivity].
    - destruct (IH s a) as (P & E & L & G & O); [lia|]. exists (b :: P). cbn [assign]. rewrite E. split; [reflexivity|]. split; [cbn; lia|]. split; [exact G|].
      intros [|t] Ht; [reflexivity|]. apply O. lia.
  Qed.
  Lemma nth_act pol s : s < length pol -> nth_error pol s = Some (act pol s).
  Proof. intros H. apply nth_error_nth', H. Qed.

  (** what the improvement chooses *)
  Definition choice (V : list Q) (s : nat) : nat := match best stp discount V s (acts s) None with Ok (Some (a, _)) => a | _ => 0 end.
  Lemma best_ext V V' s : fits V s -> fits V' s -> (forall a, In a (acts s) -> final s a = false -> get V (next s a) = get V' (next s a)) ->
    forall l m, incl l (acts s) -> best stp discount V s l m = best stp discount V' s l m.
  Proof.
    intros F F' H. induction l as [|a l IH]; intros m Hl; [reflexivity|]. cbn [best].
    assert (Ha : In a (acts s)) by (apply Hl; left; reflexivity). assert (Hl' : incl l (acts s)) by (intros x Hx; apply Hl; right; exact Hx).
    rewrite (action_value_ok acts stp discount V s a F Ha), (action_value_ok acts stp discount V' s a F' Ha). cbn [bindO].
    assert (W : worth V s a = worth V' s a) by (unfold ValueProps.worth; specialize (H a Ha); destruct (final s a); [reflexivity|rewrite H; reflexivity]).
    rewrite W. apply IH, Hl'.
  Qed.
  Lemma choice_ext V V' s : fits V s -> fits V' s -> (forall a, In a (acts s) -> final s a = false -> get V (next s a) = get V' (next s a)) -> choice V s = choice V' s.
  Proof. intros F F' H. unfold choice. rewrite (best_ext V V' s F F' H); [reflexivity|apply incl_refl]. Qed.
  Lemma choice_best V s : fits V s -> acts s <> [] -> In (choice V s) (acts s) /\ best stp discount V s (acts s) None = Ok (Some (choice V s, worth V s (choice V s)))
    /\ forall b, In b (acts s) -> (worth V s b <= worth V s (choice V s))%Q.
  Proof. intros F N. destruct (best_spec acts stp discount V s F N) as (a & E & Ha & Hb). unfold choice. rewrite E. auto. Qed.

  Variable states : list nat.
  Hypothesis nodup : NoDup states.
  Hypothesis offered : forall s, In s states -> acts s <> [].
  Hypothesis ordered : forall s a, In s states -> In a (acts s) -> final s a = false -> behind states s (next s a).

  Lemma ordered_rev don s l a : rev states = don ++ s :: l -> In a (acts s) -> final s a = false -> In (next s a) don.
  Proof.
    intros E Ha Fa. assert (Hs : In s states) by (apply in_rev; rewrite E; apply in_or_app; right; left; reflexivity).
    destruct (ordered s a Hs Ha Fa) as (l1 & l2 & El & Hn).
    assert (E' : states = rev l ++ s :: rev don). { rewrite <- (rev_involutive states), E, rev_app_distr. cbn [rev]. rewrite <- app_assoc. reflexivity. }
    assert (K : l2 = rev don).
    { assert (ND1 : NoDup (l1 ++ s :: l2)) by (rewrite <- El; exact nodup). assert (ND2 : NoDup (rev l ++ s :: rev don)) by (rewrite <- E'; exact nodup).
      rewrite El in E'. clear - ND1 ND2 E'. revert E' ND1 ND2. generalize (rev l) as m, (rev don) as m2. clear. intros m m2. revert l1 m. 
      induction l1 as [|x l1 IH]; intros [|y m] E ND1 ND2; cbn [app] in *.
      - injection E as E. exact E.
      - injection E as -> ->. inversion ND2 as [|? ? N _]; subst. exfalso. apply N. apply in_or_app. right. left. reflexivity.
      - injection E as <- <-. inversion ND1 as [|? ? N _]; subst. exfalso. apply N. apply in_or_app. right. left. reflexivity.
      - injection E as -> E. inversion ND1; subst. inversion ND2; subst. eauto. }
    apply in_rev. rewrite <- K. exact Hn.
  Qed.
  Lemma nodup_rev : NoDup (rev states).
  Proof. apply NoDup_rev, nodup. Qed.

  Definition legal (pol : list nat) : Prop := forall s, In s states -> s < length pol /\ In (act pol s) (acts s).
  (** the values are those of the policy *)
  Definition exact (pol : list nat) (V : list Q) : Prop := forall s, In s states -> get V s = worth V s (act pol s).
  Definition total (V : list Q) (l : list nat) (x : Q) : Q := fold_left (fun x s => (x + get V s)%Q) l x.

  Lemma esweep_ok pol : legal pol -> forall l don V value, rev states = don ++ l -> (forall s, In s states -> fits V s) ->
    exists V', esweep stp discount pol l V value = Ok (V', total V' l value) /\ length V' = length V
      /\ (forall t, ~ In t l -> get V' t = get V t) /\ (forall s, In s l -> get V' s = worth V' s (act pol s)).
  Proof.
    intros HL. induction l as [|s l IH]; intros don V value Es HF.
    - exists V. split; [reflexivity|]. split; [reflexivity|]. split; [reflexivity|intros s []].
    - assert (Hs : In s states) by (apply in_rev; rewrite Es; apply in_or_app; right; left; reflexivity).
      destruct (HL s Hs) as [Hp Ha]. cbn [esweep]. rewrite (nth_act pol s Hp). cbn [derefO]. rewrite (action_value_ok acts stp discount V s _ (HF s Hs) Ha). cbn [bindO].
      set (x := worth V s (act pol s)). destruct (update_ok V s x (proj1 (HF s Hs))) as (V1 & E1 & L1 & G1 & O1). rewrite E1. cbn [derefO].
      assert (ND : NoDup (don ++ s :: l)) by (rewrite <- Es; apply nodup_rev).
      assert (Ns : ~ In s l) by (apply NoDup_remove_2 in ND; intros H; apply ND, in_or_app; auto).
      destruct (IH (don ++ [s]) V1 (value + x)%Q) as (V' & E & L & O & G).
      + rewrite <- app_assoc. exact Es.
      + intros t Ht. destruct (HF t Ht) as [F1 F2]. split; [lia|]. intros a Ha'. rewrite L1. apply F2, Ha'.
      + exists V'. assert (Gs : get V' s = x) by (rewrite O by exact Ns; exact G1).
        split; [rewrite E; unfold total; cbn [fold_left]; rewrite Gs; reflexivity|]. split; [lia|]. split.
        * intros t Ht. rewrite O by (intros H; apply Ht; right; exact H). apply O1. intros ->. apply Ht. left. reflexivity.
        * intros t [<-|Ht]; [|apply G, Ht]. rewrite Gs. unfold x, ValueProps.worth. destruct (final s (act pol s)) eqn:F; [reflexivity|].
          pose proof (ordered_rev don s l _ Es Ha F) as Hd. f_equal. f_equal.
          assert (Nd : ~ In (next s (act pol s)) (s :: l)). { intros H. revert ND Hd H. generalize (s :: l) as m. intros m ND Hd H. induction don as [|y d IHd]; [destruct Hd|]. cbn [app] in ND. inversion ND as [|? ? Ny ND']; subst. destruct Hd as [->|Hd]; [apply Ny, in_or_app; auto|]. 
            clear - ND' Hd H. induction d as [|z d IHd]; [destruct Hd|]. cbn [app] in ND'. inversion ND' as [|? ? Nz ND'']; subst. destruct Hd as [->|Hd]; [apply Nz, in_or_app; auto|auto]. }
          rewrite O by (intros H; apply Nd; right; exact H). symmetry. apply O1. intros Hx. apply Nd. left. symmetry. exact Hx.
  Qed.

  (** policies equal on the last states have equal values there *)
  Lemma exact_same pol pol' V V' : legal pol -> exact pol V -> exact pol' V' -> forall don l, rev states = don ++ l -> (forall s, In s don -> act pol s = act pol' s) -> forall s, In s don -> get V s = get V' s.
  Proof.
    intros HL X X' don. induction don as [|x don IH] using rev_ind; intros l Es A s Hs; [destruct Hs|].
    rewrite <- app_assoc in Es. cbn [app] in Es.
    assert (A' : forall s, In s don -> get V s = get V' s) by (apply (IH (x :: l) Es); intros t Ht; apply A, in_or_app; auto).
    apply in_app_or in Hs. destruct Hs as [Hs|[<-|[]]]; [apply A', Hs|].
    assert (Hx : In x states) by (apply in_rev; rewrite Es; apply in_or_app; right; left; reflexivity).
    rewrite (X x Hx), (X' x Hx), <- (A x) by (apply in_or_app; right; left; reflexivity). unfold ValueProps.worth.
    destruct (final x (act pol x)) eqn:F; [reflexivity|]. rewrite A'; [reflexivity|]. apply (ordered_rev don x l _ Es (proj2 (HL x Hx)) F).
  Qed.
  Lemma total_same V V' l : (forall s, In s l -> get V s = get V' s) -> forall x, total V l x = total V' l x.
  Proof. induction l as [|s l IH]; intros H x; [reflexivity|]. unfold total in *. cbn [fold_left]. rewrite (H s) by (left; reflexivity). apply IH. intros t Ht. apply H. right. exact Ht. Qed.

  Lemma evaluate_stop fuel pol V value d : (d <= threshold)%Q -> evaluate stp discount threshold fuel states pol V value (Some d) = Ok V.
  Proof. intros H. apply Qle_bool_iff in H. destruct fuel; cbn [evaluate]; unfold go_on; rewrite H; reflexivity. Qed.
  Lemma evaluate_step f pol V value delta : evaluate stp discount threshold (S f) states pol V value delta = (if go_on threshold delta then
      bindO (esweep stp discount pol (rev states) V 0) (fun _ => V) (fun '(V1, value1) =>
      evaluate stp discount threshold f states pol V1 value1 (if less (Qabs (value1 - value)) delta then Some (Qabs (value1 - value)) else delta)) else Ok V).
  Proof. reflexivity. Qed.
  Lemma evaluate_ok pol V value fuel : (0 <= threshold)%Q -> legal pol -> (forall s, In s states -> fits V s) -> 2 <= fuel ->
    exists V', evaluate stp discount threshold fuel states pol V value None = Ok V' /\ length V' = length V /\ exact pol V'.
  Proof.
    intros T HL HF Hf. destruct fuel as [|[|f]]; [lia|lia|].
    assert (K : forall V, (forall s, In s states -> fits V s) -> exists V', esweep stp discount pol (rev states) V 0 = Ok (V', total V' (rev states) 0) /\ length V' = length V /\ exact pol V').
    { intros W HW. destruct (esweep_ok pol HL (rev states) [] W 0 eq_refl HW) as (V' & E & L & _ & G). exists V'. split; [exact E|]. split; [exact L|]. intros s Hs. apply G. rewrite <- in_rev. exact Hs. }
    destruct (K V HF) as (V1 & E1 & L1 & X1).
    assert (HF1 : forall s, In s states -> fits V1 s). { intros s Hs. destruct (HF s Hs) as [F1 F2]. split; [lia|]. intros a Ha. rewrite L1. apply F2, Ha. }
    destruct (K V1 HF1) as (V2 & E2 & L2 & X2).
    assert (S12 : total V2 (rev states) 0 = total V1 (rev states) 0).
    { apply total_same. intros s Hs. apply (exact_same pol pol V2 V1 HL X2 X1 (rev states) []); [rewrite app_nil_r; reflexivity|reflexivity|exact Hs]. }
    rewrite evaluate_step. cbn [go_on]. rewrite E1. cbn [bindO less]. set (d1 := Qabs (total V1 (rev states) 0 - value)).
    rewrite evaluate_step. destruct (go_on threshold (Some d1)) eqn:G; [|exists V1; auto]. rewrite E2. cbn [bindO]. set (d2 := Qabs (total V2 (rev states) 0 - total V1 (rev states) 0)).
    assert (D2 : (d2 == 0)%Q). { unfold d2. rewrite S12. setoid_replace (total V1 (rev states) 0 - total V1 (rev states) 0)%Q with 0%Q by ring. reflexivity. }
    exists V2. split; [|split; [lia|exact X2]]. destruct (less d2 (Some d1)) eqn:Ls; [apply evaluate_stop; rewrite D2; exact T|].
    unfold less in Ls. apply negb_false_iff, Qle_bool_iff in Ls. apply evaluate_stop. lra.
  Qed.

  Lemma improve_ok V : (forall s, In s states -> fits V s) -> forall l pol stable trained, NoDup l -> incl l states -> (forall s, In s l -> s < length pol) ->
    exists pol' stable', improve acts stp discount V l pol stable trained = Ok (pol', stable', trained || negb (match l with [] => true | _ => false end))
      /\ length pol' = length pol /\ (forall t, ~ In t l -> act pol' t = act pol t) /\ (forall s, In s l -> act pol' s = choice V s)
      /\ (stable' = true <-> stable = true /\ forall s, In s l -> act pol s = choice V s).
  Proof.
    intros HF. induction l as [|s l IH]; intros pol stable trained ND HI HP.
    - exists pol, stable. cbn [improve negb]. rewrite orb_false_r. split; [reflexivity|]. split; [reflexivity|]. split; [reflexivity|]. split; [intros s []|].
      split; [intros ->; split; [reflexivity|intros s []]|intros [-> _]; reflexivity].
    - inversion ND as [|? ? Ns ND']; subst. assert (Hs : In s states) by (apply HI; left; reflexivity).
      destruct (choice_best V s (HF s Hs) (offered s Hs)) as (Ha & Eb & _). cbn [improve]. rewrite (nth_act pol s) by (apply HP; left; reflexivity). cbn [derefO]. rewrite Eb. cbn [bindO].
      destruct (assign_ok pol s (choice V s)) as (P & E1 & L1 & G1 & O1); [apply HP; left; reflexivity|]. rewrite E1. cbn [derefO].
      destruct (IH P (if choice V s =? act pol s then stable else false) true ND') as (pol' & stable' & E & L & O & G & S).
      + intros x Hx. apply HI. right. exact Hx.
      + intros x Hx. rewrite L1. apply HP. right. exact Hx.
      + exists pol', stable'. split; [rewrite E; destruct trained; reflexivity|]. split; [lia|]. split; [|split].
        * intros t Ht. rewrite O by (intros H; apply Ht; right; exact H). apply O1. intros ->. apply Ht. left. reflexivity.
        * intros t [<-|Ht]; [rewrite O by exact Ns; exact G1|apply G, Ht].
        * rewrite S. destruct (Nat.eqb_spec (choice V s) (act pol s)) as [Ec|Nc].
          -- split; intros [A B]; (split; [exact A|]).
             ++ intros t [<-|Ht]; [symmetry; exact Ec|]. rewrite <- (O1 t) by (intros ->; contradiction). apply B, Ht.
             ++ intros t Ht. rewrite (O1 t) by (intros ->; contradiction). apply B. right. exact Ht.
          -- split; [intros [A _]; discriminate|]. intros [_ B]. exfalso. apply Nc. symmetry. apply B. left. reflexivity.
  Qed.

  Lemma rounds_ok : (0 <= threshold)%Q -> states <> [] -> forall fuel don l V pol trained, rev states = don ++ l -> legal pol -> (forall s, In s states -> fits V s) ->
    (forall V', length V' = length V -> exact pol V' -> forall s, In s don -> act pol s = choice V' s) -> length l + 2 <= fuel ->
    exists V' pol', rounds acts stp discount threshold fuel states V pol trained = Ok (V', pol', true) /\ length V' = length V /\ legal pol' /\ exact pol' V'
      /\ forall s, In s states -> act pol' s = choice V' s.
  Proof.
    intros T NE. induction fuel as [|f IH]; intros don l V pol trained Es HL HF HD Hf; [lia|].
    destruct (evaluate_ok pol V 0 (S f) T HL HF) as (V1 & E1 & L1 & X1); [lia|].
    assert (HF1 : forall s, In s states -> fits V1 s). { intros s Hs. destruct (HF s Hs) as [F1 F2]. split; [lia|]. intros a Ha. rewrite L1. apply F2, Ha. }
    destruct (improve_ok V1 HF1 (rev states) pol true trained nodup_rev) as (P & st & E2 & L2 & _ & G2 & S2).
    { intros x Hx. apply in_rev. exact Hx. } { intros s Hs. apply in_rev in Hs. apply HL, Hs. }
    assert (G2' : forall s, In s states -> act P s = choice V1 s) by (intros s Hs; apply G2; rewrite <- in_rev; exact Hs).
    assert (HLP : legal P). { intros s Hs. split; [rewrite L2; apply HL, Hs|]. rewrite (G2' s Hs). apply (choice_best V1 s (HF1 s Hs) (offered s Hs)). }
    assert (Tr : trained || negb (match rev states with [] => true | _ => false end) = true).
    { destruct (rev states) as [|x r] eqn:E; [|apply orb_true_r]. exfalso. apply NE. rewrite <- (rev_involutive states), E. reflexivity. }
    rewrite Tr in E2. cbn [rounds]. rewrite E1. cbn [bindO]. rewrite E2. cbn [bindO]. destruct st.
    - destruct (proj1 S2 eq_refl) as [_ B]. exists V1, P. split; [reflexivity|]. split; [exact L1|]. split; [exact HLP|]. split; [|exact G2'].
      intros s Hs. rewrite (G2' s Hs), <- (B s) by (rewrite <- in_rev; exact Hs). apply X1, Hs.
    - destruct l as [|x l].
      + exfalso. rewrite app_nil_r in Es. assert (false = true); [|discriminate]. apply S2. split; [reflexivity|]. intros s Hs. rewrite Es in Hs. apply (HD V1 L1 X1 s Hs).
      + destruct (IH (don ++ [x]) l V1 P true) as (V' & P' & E & L & A).
        * rewrite <- app_assoc. exact Es.
        * exact HLP.
        * exact HF1.
        * intros V' L' X' s Hs.
          assert (Hss : In s states). { apply in_rev. rewrite Es. apply in_app_or in Hs. apply in_or_app. destruct Hs as [Hs|[<-|[]]]; [auto|right; left; reflexivity]. }
          rewrite (G2' s Hss). apply choice_ext; [apply HF1, Hss| |].
          { destruct (HF1 s Hss) as [F1 F2]. split; [lia|]. intros a Ha. rewrite L'. apply F2, Ha. }
          intros a Ha Fa. assert (Hd : In (next s a) don).
          { apply in_app_or in Hs. destruct Hs as [Hs|[<-|[]]]; [|apply (ordered_rev don x l a Es Ha Fa)].
            apply in_split in Hs. destruct Hs as (d1 & d2 & ->). rewrite <- app_assoc in Es. cbn [app] in Es. apply in_or_app. left. apply (ordered_rev d1 s _ a Es Ha Fa). }
          apply (exact_same pol P V1 V' HL X1 X' don (x :: l) Es); [|exact Hd].
          intros t Ht. rewrite (HD V1 L1 X1 t Ht). symmetry. apply G2'. apply in_rev. rewrite Es. apply in_or_app. auto.
        * cbn [length] in Hf. lia.
        * exists V', P'. split; [exact E|]. split; [lia|exact A].
  Qed.

  (** *** Following the policy *)
  Definition obeys (pol : list nat) (w : list (nat * nat)) : Prop := Forall (fun '(s, a) => a = act pol s) w.
  Lemma obey_ok pol : legal pol -> forall don s l, rev states = don ++ s :: l -> forall fuel policy rewards, length don < fuel ->
    exists w, obey acts stp candidate edge fuel pol s policy rewards = Ok (policy ++ entries stp candidate edge (hd_error (rev policy)) w, rewards ++ gains stp w)
      /\ walk acts stp s w /\ obeys pol w.
  Proof.
    intros HL. induction don as [don IH] using (induction_ltof1 _ (@length nat)). unfold ltof in IH. intros s l Es fuel policy rewards Hf.
    destruct fuel as [|f]; [lia|]. assert (Hs : In s states) by (apply in_rev; rewrite Es; apply in_or_app; right; left; reflexivity).
    cbn [obey]. destruct (acts s) as [|a0 as0] eqn:Ea; [exfalso; apply (offered s Hs Ea)|]. destruct (HL s Hs) as [Hp Ha].
    rewrite (nth_act pol s Hp). cbn [derefO]. rewrite (stp_eq stp s (act pol s)). set (a := act pol s) in *. destruct (final s a) eqn:F.
    - exists [(s, a)]. split; [|split; [constructor; auto|constructor; [reflexivity|constructor]]]. 
      f_equal. f_equal. pose proof (extend_entries stp candidate edge policy s a []) as X. cbn zeta in X. cbn [entries] in X. rewrite app_nil_r in X. exact X.
    - pose proof (ordered_rev don s l a Es Ha F) as Hn. apply in_split in Hn. destruct Hn as (d1 & d2 & Ed). rewrite Ed in Es. rewrite <- app_assoc in Es. cbn [app] in Es.
      assert (Ld : length d1 < length don) by (rewrite Ed, app_length; cbn [length]; lia).
      destruct (IH d1 Ld (next s a) _ Es f (extend candidate edge policy s (taken stp s a)) (rewards ++ [gain s a])) as (w & E & W & O); [lia|].
      exists ((s, a) :: w). split; [|split; [apply walk_on; auto|constructor; [reflexivity|exact O]]]. rewrite E.
      rewrite <- (extend_entries stp candidate edge policy s a w). cbn zeta. rewrite <- app_assoc. reflexivity.
  Qed.

  Lemma in_states_split s : In s states -> exists don l, rev states = don ++ s :: l.
  Proof. intros H. apply in_split. rewrite <- in_rev. exact H. Qed.
  Lemma ordered_in s a : In s states -> In a (acts s) -> final s a = false -> In (next s a) states.
  Proof. intros Hs Ha F. destruct (ordered s a Hs Ha F) as (l1 & l2 & E & H). rewrite E. apply in_or_app. right. right. exact H. Qed.

  Hypothesis discount_pos : (0 <= discount)%Q.
  Lemma walk_return pol V : exact pol V -> forall w s, In s states -> walk acts stp s w -> obeys pol w -> (return_of discount (gains stp w) == get V s)%Q.
  Proof.
    intros X. induction w as [|[t b] w IH]; intros s Hs W O.
    - inversion W as [s' Ea| |]; subst. exfalso. apply (offered s Hs Ea).
    - inversion O as [|? ? Eb O']; subst. rewrite (X s Hs). unfold ValueProps.worth. cbn [gains map return_of fold_right]. inversion W as [|s' a' Ha F|s' a' w' Ha F W']; subst.
      + rewrite F. cbn. ring.
      + rewrite F. rewrite <- (IH _ (ordered_in _ _ Hs Ha F) W' O'). reflexivity.
  Qed.
  Lemma walk_bound V : (forall s a, In s states -> In a (acts s) -> (worth V s a <= get V s)%Q) -> forall w s, In s states -> walk acts stp s w -> (return_of discount (gains stp w) <= get V s)%Q.
  Proof.
    intros B. induction w as [|[t b] w IH]; intros s Hs W.
    - inversion W as [s' Ea| |]; subst. exfalso. apply (offered s Hs Ea).
    - cbn [gains map return_of fold_right]. inversion W as [|s' a' Ha F|s' a' w' Ha F W']; subst; pose proof (B _ _ Hs Ha) as K; unfold ValueProps.worth in K; rewrite F in K.
      + cbn. lra.
      + pose proof (IH _ (ordered_in _ _ Hs Ha F) W') as I. change (fold_right _ 0%Q (map _ w)) with (return_of discount (gains stp w)). nra.
  Qed.
End C60.

(** *** Layers: the order in which the states are found *)
Section C60_layers.
  Variable acts : nat -> list nat.
  Variable stp : nat -> nat -> nat * nat * Q * bool.
  Variable start : nat.
  Notation next := (next stp).
  Notation final := (final stp).
  Variable level : nat -> nat.
  Hypothesis layered : forall s a, reached acts stp start s -> In a (acts s) -> final s a = false -> level (next s a) = S (level s).

  Lemma behind_app l m s t : behind l s t -> behind (l ++ m) s t.
  Proof. intros (l1 & l2 & -> & H). exists l1, (l2 ++ m). split; [rewrite <- app_assoc; reflexivity|apply in_or_app; auto]. Qed.

  Lemma discover_layers s p t1 k : reached acts stp start s -> level s = k -> (forall x, In x (p ++ [s]) -> level x <= k) -> (forall x, In x t1 -> level x = k) ->
    forall l t2 highest, incl l (acts s) -> (forall x, In x t2 -> level x = S k /\ reached acts stp start x) ->
    exists t2' highest', fold_left (discover stp s) l (p ++ s :: t1 ++ t2, t1 ++ t2, highest) = (p ++ s :: t1 ++ t2', t1 ++ t2', highest')
      /\ (forall x, In x t2' -> level x = S k /\ reached acts stp start x) /\ (exists m, t2' = t2 ++ m) /\ forall a, In a l -> final s a = false -> In (next s a) t2'.
  Proof.
    intros R Lk Hp H1. induction l as [|a l IH]; intros t2 highest Hl H2.
    - exists t2, highest. split; [reflexivity|]. split; [exact H2|]. split; [exists []; rewrite app_nil_r; reflexivity|intros a []].
    - cbn [fold_left]. unfold discover at 2. rewrite (stp_eq stp s a). assert (Ha : In a (acts s)) by (apply Hl; left; reflexivity).
      assert (Hl' : incl l (acts s)) by (intros x Hx; apply Hl; right; exact Hx).
      destruct (final s a) eqn:F; cbn [negb andb].
      + destruct (IH t2 (if highest <? next s a then next s a else highest) Hl' H2) as (t2' & h' & E & A & M & B). exists t2', h'. split; [exact E|]. split; [exact A|]. split; [exact M|].
        intros b [<-|Hb] Fb; [congruence|apply B; auto].
      + pose proof (layered s a R Ha F) as Ln. destruct (existsb (Nat.eqb (next s a)) (p ++ s :: t1 ++ t2)) eqn:Ex; cbn [negb].
        * destruct (IH t2 (if highest <? next s a then next s a else highest) Hl' H2) as (t2' & h' & E & A & M & B). exists t2', h'. split; [exact E|]. split; [exact A|]. split; [exact M|].
          intros b [<-|Hb] Fb; [|apply B; auto]. apply existsb_exists in Ex. destruct Ex as (y & Hy & Ey). apply Nat.eqb_eq in Ey. subst y.
          destruct M as (m & ->). apply in_or_app. left. replace (p ++ s :: t1 ++ t2) with ((p ++ [s]) ++ t1 ++ t2) in Hy by (rewrite <- app_assoc; reflexivity).
          apply in_app_or in Hy. destruct Hy as [Hy|Hy]; [specialize (Hp _ Hy); lia|]. apply in_app_or in Hy. destruct Hy as [Hy|Hy]; [specialize (H1 _ Hy); lia|exact Hy].
        * replace ((p ++ s :: t1 ++ t2) ++ [next s a]) with (p ++ s :: t1 ++ (t2 ++ [next s a])) by (rewrite <- app_assoc; cbn [app]; rewrite <- app_assoc; reflexivity).
          replace ((t1 ++ t2) ++ [next s a]) with (t1 ++ (t2 ++ [next s a])) by (rewrite <- app_assoc; reflexivity).
          destruct (IH (t2 ++ [next s a]) (if highest <? next s a then next s a else highest) Hl') as (t2' & h' & E & A & M & B).
          { intros x Hx. apply in_app_or in Hx. destruct Hx as [Hx|[<-|[]]]; [apply H2, Hx|]. split; [lia|]. apply reached_next; auto. }
          exists t2', h'. split; [exact E|]. split; [exact A|]. destruct M as (m & ->). split; [exists (next s a :: m); rewrite <- app_assoc; reflexivity|].
          intros b [<-|Hb] Fb; [|apply B; auto]. apply in_or_app. left. apply in_or_app. right. left. reflexivity.
  Qed.

  Lemma generate_layers fuel : forall p t1 t2 k highest states' highest',
    (forall x, In x p -> level x <= k) -> (forall x, In x t1 -> level x = k /\ reached acts stp start x) -> (forall x, In x t2 -> level x = S k /\ reached acts stp start x) ->
    (forall s a, In s p -> In a (acts s) -> final s a = false -> behind (p ++ t1 ++ t2) s (next s a)) ->
    generate acts stp fuel (p ++ t1 ++ t2) (t1 ++ t2) highest = Ok (states', highest') ->
    forall s a, In s states' -> In a (acts s) -> final s a = false -> behind states' s (next s a).
  Proof.
    induction fuel as [|f IH]; intros p t1 t2 k highest states' highest' Hp H1 H2 HB E.
    - destruct (t1 ++ t2) as [|x t] eqn:Et; cbn [generate] in E; [|discriminate]. injection E as <- <-. rewrite app_nil_r in *. exact HB.
    - assert (Step : forall p s t1 t2 k, (forall x, In x p -> level x <= k) -> (forall x, In x (s :: t1) -> level x = k /\ reached acts stp start x) -> (forall x, In x t2 -> level x = S k /\ reached acts stp start x) ->
        (forall s' a, In s' p -> In a (acts s') -> final s' a = false -> behind (p ++ s :: t1 ++ t2) s' (next s' a)) ->
        generate acts stp (S f) (p ++ s :: t1 ++ t2) (s :: t1 ++ t2) highest = Ok (states', highest') ->
        forall s a, In s states' -> In a (acts s) -> final s a = false -> behind states' s (next s a)).
      { clear - IH layered. intros p s t1 t2 k Hp H1 H2 HB E. cbn [generate] in E.
        destruct (discover_layers s p t1 k) with (l := acts s) (t2 := t2) (highest := highest) as (t2' & h' & Ef & A & (m & Em) & B).
        - apply H1. left. reflexivity.
        - apply H1. left. reflexivity.
        - intros x Hx. apply in_app_or in Hx. destruct Hx as [Hx|[<-|[]]]; [apply Hp, Hx|]. destruct (H1 s (or_introl eq_refl)). lia.
        - intros x Hx. apply H1. right. exact Hx.
        - apply incl_refl.
        - exact H2.
        - rewrite Ef in E. replace (p ++ s :: t1 ++ t2') with ((p ++ [s]) ++ t1 ++ t2') in E by (rewrite <- app_assoc; reflexivity).
          refine (IH (p ++ [s]) t1 t2' k h' states' highest' _ _ A _ E).
          + intros x Hx. apply in_app_or in Hx. destruct Hx as [Hx|[<-|[]]]; [apply Hp, Hx|]. destruct (H1 s (or_introl eq_refl)). lia.
          + intros x Hx. apply H1. right. exact Hx.
          + intros s' a Hs' Ha Fa. rewrite <- app_assoc. cbn [app]. apply in_app_or in Hs'. destruct Hs' as [Hs'|[<-|[]]].
            * subst t2'. replace (p ++ s :: t1 ++ t2 ++ m) with ((p ++ s :: t1 ++ t2) ++ m) by (rewrite <- app_assoc; cbn [app]; rewrite <- app_assoc; reflexivity).
              apply behind_app, HB; auto.
            * exists p, (t1 ++ t2'). split; [reflexivity|]. apply in_or_app. right. apply B; auto. }
      destruct t1 as [|s t1].
      + cbn [app] in *. destruct t2 as [|s t2].
        * cbn [generate] in E. injection E as <- <-. rewrite app_nil_r in *. exact HB.
        * refine (Step p s t2 [] (S k) _ H2 _ _ _).
          -- intros x Hx. specialize (Hp x Hx). lia.
          -- intros x [].
          -- rewrite app_nil_r. exact HB.
          -- rewrite app_nil_r. exact E.
      + exact (Step p s t1 t2 k Hp H1 H2 HB E).
  Qed.

  (** If every step leads one layer on, each state is found before those its steps lead to. *)
  Theorem C60_layers fuel states highest : generate_states acts stp start fuel = Ok (states, highest) ->
    forall s a, In s states -> In a (acts s) -> final s a = false -> behind states s (next s a).
  Proof.
    intros E. refine (generate_layers fuel [] [start] [] (level start) start states highest _ _ _ _ E).
    - intros x [].
    - intros x [<-|[]]. split; [reflexivity|constructor].
    - intros x [].
    - intros s a [].
  Qed.
End C60_layers.

Section C60_main.
  Variable acts : nat -> list nat.
  Variable stp : nat -> nat -> nat * nat * Q * bool.
  Variable start : nat.
  Variable discount threshold : Q.
  Variable candidate : nat -> nat.
  Variable edge : nat -> Z.
  Notation final := (final stp).
  Notation next := (next stp).

  Lemma initial_ok : forall l pol, (forall s, In s l -> acts s <> [] /\ s < length pol) ->
    exists pol', initial acts l pol = Ok pol' /\ length pol' = length pol /\ (forall t, In t l -> In (act pol' t) (acts t)) /\ forall t, ~ In t l -> act pol' t = act pol t.
  Proof.
    induction l as [|s l IH]; intros pol H.
    - exists pol. split; [reflexivity|]. split; [reflexivity|]. split; [intros t []|reflexivity].
    - destruct (H s (or_introl eq_refl)) as [N L]. cbn [initial]. destruct (acts s) as [|a as0] eqn:Ea; [contradiction|].
      destruct (assign_ok pol s a L) as (P & E1 & L1 & G1 & O1). rewrite E1. cbn [derefO].
      destruct (IH P) as (P' & E & L' & G & O); [intros t Ht; rewrite L1; apply H; right; exact Ht|]. exists P'. split; [exact E|]. split; [lia|]. split.
      + intros t [<-|Ht]; [|apply G, Ht]. destruct (in_dec Nat.eq_dec s l) as [Hs|Hs]; [apply G, Hs|]. rewrite (O s Hs), G1, Ea. left. reflexivity.
      + intros t Ht. rewrite O by (intros X; apply Ht; right; exact X). apply O1. intros ->. apply Ht. left. reflexivity.
  Qed.

  (** If every state reached offers an action and is found before the states its steps lead to, policy iteration ends, and the policy
      is that of a walk to the end no walk surpasses; the threshold does not matter, nor do the signs of the rewards. *)
  Theorem C60_best fuel states highest extraV extraP :
    (0 <= discount)%Q -> (0 <= threshold)%Q -> (forall s, reached acts stp start s -> acts s <> []) ->
    generate_states acts stp start fuel = Ok (states, highest) ->
    (forall s a, In s states -> In a (acts s) -> final s a = false -> behind states s (next s a)) -> length states + 2 <= fuel ->
    exists w, plearn acts stp start discount threshold candidate edge fuel extraV extraP = Ok (entries stp candidate edge None w, gains stp w)
      /\ walk acts stp start w /\ forall w', walk acts stp start w' -> (return_of discount (gains stp w') <= return_of discount (gains stp w))%Q.
  Proof.
    intros D T HO Eg Ord Hf. destruct (C49_states _ _ _ _ _ _ Eg) as (ND & H & Hi).
    assert (Off : forall s, In s states -> acts s <> []) by (intros s Hs; apply HO, H, Hs).
    assert (Hst : In start states) by (apply H; constructor).
    unfold plearn. rewrite Eg. cbn [bindO].
    destruct (initial_ok (rev states) (repeat 0 (S highest + extraP))) as (P & E1 & L1 & G1 & _).
    { intros s Hs. apply in_rev in Hs. split; [apply Off, Hs|]. rewrite repeat_length. destruct (Hi s Hs). lia. }
    rewrite E1. cbn [bindO]. rewrite repeat_length in L1.
    assert (HL : legal acts states P). { intros s Hs. split; [rewrite L1; destruct (Hi s Hs); lia|]. apply G1. rewrite <- in_rev. exact Hs. }
    assert (HF : forall s, In s states -> fits acts stp (repeat 0%Q (S highest + extraV)) s) by (apply (init_fits acts stp start fuel states highest extraV Eg)).
    destruct (rounds_ok acts stp discount threshold states ND Off Ord T) with (fuel := fuel) (don := @nil nat) (l := rev states) (V := repeat 0%Q (S highest + extraV)) (pol := P) (trained := false)
      as (V & P' & E2 & L2 & HL' & X & C); auto.
    { intros N. rewrite N in Hst. destruct Hst. }
    { intros V' _ _ s []. }
    { rewrite rev_length. lia. }
    rewrite E2. cbn [bindO].
    destruct (in_states_split states start Hst) as (don & l & Es).
    destruct (obey_ok acts stp candidate edge states ND Off Ord P' HL' don start l Es fuel [] []) as (w & E3 & W & O).
    { assert (length (rev states) = length (don ++ start :: l)) by (rewrite Es; reflexivity). rewrite rev_length, app_length in H0. cbn [length] in H0. lia. }
    exists w. split; [exact E3|]. split; [exact W|]. intros w' W'.
    rewrite (walk_return acts stp discount states Off Ord P' V X w start Hst W O).
    apply (walk_bound acts stp discount states Off Ord D V); auto.
    intros s a Hs Ha. rewrite (X s Hs). rewrite (C s Hs).
    assert (F : fits acts stp V s). { destruct (HF s Hs) as [F1 F2]. split; [lia|]. intros b Hb. rewrite L2. apply F2, Hb. }
    apply (choice_best acts stp discount V s F (Off s Hs)), Ha.
  Qed.
End C60_main.

(** An environment of three layers; the better end is reached by the worse first step. *)
Definition lay_acts (s : nat) : list nat := if s =? 0 then [0; 1] else [0].
Definition lay_stp (s a : nat) : nat * nat * Q * bool :=
  match s, a with
  | 0, 0 => (1, 10, (-1)%Q, false)
  | 0, _ => (2, 11, (-3)%Q, false)
  | 1, _ => (3, 12, (-5)%Q, false)
  | 2, _ => (3, 13, (-1)%Q, false)
  | _, _ => (4, 14, 2%Q, true)
  end.
Definition lay_level (s : nat) : nat := match s with 0 => 0 | 1 => 1 | 2 => 1 | _ => 2 end.
Example lay_layered : forall s a, reached lay_acts lay_stp 0 s -> In a (lay_acts s) -> final lay_stp s a = false -> lay_level (next lay_stp s a) = S (lay_level s).
Proof.
  assert (R : forall s, reached lay_acts lay_stp 0 s -> s <= 3).
  { intros s H. induction H as [|s a H IH Ha F]; [lia|]. destruct s as [|[|[|s]]]; [destruct a; cbn; lia|cbn; lia|cbn; lia|discriminate]. }
  intros s a H Ha F. specialize (R s H). destruct s as [|[|[|s]]]; [destruct a; reflexivity|reflexivity|reflexivity|discriminate].
Qed.
Example lay_states : generate_states lay_acts lay_stp 0 10 = Ok ([0; 1; 2; 3], 4).
Proof. reflexivity. Qed.
Example lay_offered : forall s, reached lay_acts lay_stp 0 s -> lay_acts s <> [].
Proof. intros s _. unfold lay_acts. destruct (s =? 0); discriminate. Qed.
Example lay_learned : plearn lay_acts lay_stp 0 1 (1 # 10) (fun s => s) (fun a => Z.of_nat a) 10 0 0 = Ok ([(0, 11); (2, 13); (3, 14)], [(-3)%Q; (-1)%Q; 2%Q]).
Proof. vm_compute. reflexivity. Qed.
Example lay_best : exists w, plearn lay_acts lay_stp 0 1 (1 # 10) (fun s => s) (fun a => Z.of_nat a) 10 0 0 = Ok (entries lay_stp (fun s => s) (fun a => Z.of_nat a) None w, gains lay_stp w)
  /\ walk lay_acts lay_stp 0 w /\ forall w', walk lay_acts lay_stp 0 w' -> (return_of 1 (gains lay_stp w') <= return_of 1 (gains lay_stp w))%Q.
Proof.
  apply (C60_best lay_acts lay_stp 0 1 (1 # 10) (fun s => s) (fun a => Z.of_nat a) 10 [0; 1; 2; 3] 4 0 0).
  - discriminate.
  - discriminate.
  - exact lay_offered.
  - exact lay_states.
  - exact (C60_layers lay_acts lay_stp 0 lay_level lay_layered 10 [0; 1; 2; 3] 4 lay_states).
  - cbn. lia.
Qed.

(** Not so if a step leads back in the order the states were found in: the sum of the values may not change although the values do,
    the evaluation stops, and the improvement decides on values that are not those of the policy. *)
Definition back_acts (s : nat) : list nat := if s =? 0 then [0; 1] else [0].
Definition back_stp (s a : nat) : nat * nat * Q * bool :=
  match s, a with
  | 0, 0 => (1, 0, 0%Q, false)
  | 0, _ => (2, 0, 12%Q, false)
  | 1, _ => (3, 0, 5%Q, true)
  | _, _ => (1, 0, (-10)%Q, false)
  end.
Theorem C60_best_refuted : exists acts stp discount threshold candidate edge states highest w p rs,
  (0 <= discount)%Q /\ (0 <= threshold)%Q /\ (forall s, acts s <> []) /\ generate_states acts stp 0 10 = Ok (states, highest)
  /\ plearn acts stp 0 discount threshold candidate edge 10 0 0 = Ok (p, rs) /\ walk acts stp 0 w /\ (return_of discount rs < return_of discount (gains stp w))%Q.
Proof.
  exists back_acts, back_stp, 1%Q, 0%Q, (fun s => s), (fun a => Z.of_nat a), [0; 1; 2], 3, [(0, 1); (2, 0); (1, 0)].
  eexists _, _. split; [discriminate|]. split; [discriminate|]. split; [intros s; unfold back_acts; destruct (s =? 0); discriminate|]. split; [reflexivity|].
  split; [vm_compute; reflexivity|]. split; [|reflexivity].
  apply walk_on; [right; left; reflexivity|reflexivity|]. apply walk_on; [left; reflexivity|reflexivity|]. apply walk_end; [left; reflexivity|reflexivity].
Qed.

(** Where no action is offered, the evaluation takes the default action 0 all the same; its state may be beyond the vector. *)
Theorem C60_no_action_refuted : exists acts stp, generate_states acts stp 0 10 = Ok ([0; 1], 1)
  /\ plearn acts stp 0 1 0 (fun s => s) (fun a => Z.of_nat a) 10 0 0 = UB
  /\ exists p rs, learn acts stp 0 1 0 (fun s => s) (fun a => Z.of_nat a) 10 0 = Ok (p, rs).
Proof.
  exists (fun s => if s =? 0 then [0] else []), (fun s _ => if s =? 0 then (1, 0, (-1)%Q, false) else (7, 0, 0%Q, false)).
  split; [reflexivity|]. split; [vm_compute; reflexivity|]. eexists _, _. vm_compute. reflexivity.
Qed.

Print Assumptions C60_layers.
Print Assumptions C60_best.
Print Assumptions C60_best_refuted.
Print Assumptions C60_no_action_refuted.
