(** C49: value iteration. *)
From Coq Require Import Lqa Qround.
From Verif Require Import Base ListAux Value.

Section C49.
  Variable acts : nat -> list nat.
  Variable stp : nat -> nat -> nat * nat * Q * bool.
  Variable start : nat.
  Variable discount threshold : Q.
  Variable candidate : nat -> nat.
  Variable edge : nat -> Z.

  Definition next (s a : nat) : nat := fst (fst (fst (stp s a))).
  Definition taken (s a : nat) : nat := snd (fst (fst (stp s a))).
  Definition gain (s a : nat) : Q := snd (fst (stp s a)).
  Definition final (s a : nat) : bool := snd (stp s a).
  Lemma stp_eq s a : stp s a = (next s a, taken s a, gain s a, final s a).
  Proof. unfold next, taken, gain, final. destruct (stp s a) as [[[x y] z] d]. reflexivity. Qed.

  (** *** The states found *)
  (** reachable without reaching the end *)
  Inductive reached : nat -> Prop :=
  | reached_start : reached start
  | reached_next s a : reached s -> In a (acts s) -> final s a = false -> reached (next s a).

  Record known (states todo : list nat) (highest : nat) : Prop := {
    k_nodup : NoDup states;
    k_start : In start states;
    k_todo : incl todo states;
    k_todo_nd : NoDup todo;
    k_reached : forall s, In s states -> reached s;
    k_high : forall s, In s states -> s <= highest;
    k_closed : forall s, In s states -> ~ In s todo -> forall a, In a (acts s) -> next s a <= highest /\ (final s a = false -> In (next s a) states) }.

  Lemma discover_spec s l : forall states todo highest, known states (s :: todo) highest -> In s states -> incl l (acts s) ->
    exists states1 todo1 highest1, fold_left (discover stp s) l (states, todo, highest) = (states1, todo1, highest1)
      /\ known states1 (s :: todo1) highest1 /\ incl states states1 /\ highest <= highest1
      /\ (forall a, In a l -> next s a <= highest1 /\ (final s a = false -> In (next s a) states1))
      /\ length states1 + length todo = length states + length todo1.
  Proof.
    induction l as [|a l IH]; intros states todo highest K Hs Hl.
    - exists states, todo, highest. split; [reflexivity|]. split; [exact K|]. split; [apply incl_refl|]. split; [lia|]. split; [intros a []|lia].
    - cbn [fold_left]. unfold discover at 2. rewrite stp_eq. set (n := next s a).
      destruct (if negb (final s a) && negb (existsb (Nat.eqb n) states) then _ else _) as [states0 todo0] eqn:E0.
      set (h0 := if highest <? n then n else highest).
      assert (Hh : highest <= h0 /\ n <= h0) by (unfold h0; destruct (Nat.ltb_spec highest n); lia).
      assert (K0 : known states0 (s :: todo0) h0 /\ incl states states0 /\ (final s a = false -> In n states0)
                /\ length states0 + length todo = length states + length todo0).
      { destruct K as [K1 K2 K3 K4 K5 K6 K7]. destruct (final s a) eqn:Fa; cbn [negb andb] in E0.
        - injection E0 as <- <-. split; [|split; [apply incl_refl|split; [discriminate|lia]]]. constructor; auto.
          + intros x Hx. specialize (K6 x Hx). lia.
          + intros x Hx Nx b Hb. destruct (K7 x Hx Nx b Hb). split; [lia|auto].
        - destruct (existsb (Nat.eqb n) states) eqn:Ex; cbn [negb] in E0; injection E0 as <- <-.
          + split; [|split; [apply incl_refl|split; [|lia]]].
            * constructor; auto.
              -- intros x Hx. specialize (K6 x Hx). lia.
              -- intros x Hx Nx b Hb. destruct (K7 x Hx Nx b Hb). split; [lia|auto].
            * intros _. apply existsb_exists in Ex. destruct Ex as (y & Hy & Ey). apply Nat.eqb_eq in Ey. subst y. exact Hy.
          + assert (Nn : ~ In n states).
            { intros H. assert (existsb (Nat.eqb n) states = true) by (apply existsb_exists; exists n; split; [exact H|apply Nat.eqb_refl]). congruence. }
            assert (Nt : ~ In n (s :: todo)) by (intros H; apply Nn, K3, H).
            split; [|split; [intros x Hx; apply in_or_app; auto|split; [intros _; apply in_or_app; right; left; reflexivity|rewrite !app_length; cbn; lia]]].
            constructor.
            * apply NoDup_app'; auto; [constructor; [intros []|constructor]|]. intros x Hx [->|[]]. contradiction.
            * apply in_or_app. auto.
            * intros x [->|Hx]; [apply in_or_app; auto|]. apply in_app_or in Hx. apply in_or_app. destruct Hx as [Hx|Hx]; [left; apply K3; right; exact Hx|auto].
            * change (s :: todo ++ [n]) with ((s :: todo) ++ [n]). apply NoDup_app'; auto; [constructor; [intros []|constructor]|]. intros x Hx [->|[]]. contradiction.
            * intros x Hx. apply in_app_or in Hx. destruct Hx as [Hx|[<-|[]]]; [auto|]. apply reached_next; auto. apply Hl. left. reflexivity.
            * intros x Hx. apply in_app_or in Hx. destruct Hx as [Hx|[<-|[]]]; [specialize (K6 x Hx); lia|lia].
            * intros x Hx Nx b Hb. apply in_app_or in Hx. destruct Hx as [Hx|[<-|[]]].
              -- destruct (K7 x Hx) with (a := b) as [A B]; auto; [|split; [lia|intros F; apply in_or_app; auto]].
                 intros [->|H]; apply Nx; [left; reflexivity|right; apply in_or_app; auto].
              -- exfalso. apply Nx. right. apply in_or_app. right. left. reflexivity. }
      destruct K0 as (K0 & I0 & F0 & L0).
      destruct (IH states0 todo0 h0 K0 (I0 _ Hs)) as (s1 & t1 & h1 & E1 & K1 & I1 & H1 & A1 & L1); [intros x Hx; apply Hl; right; exact Hx|].
      exists s1, t1, h1. split; [exact E1|]. split; [exact K1|]. split; [eapply incl_tran; eassumption|]. split; [lia|]. split; [|lia].
      intros b [<-|Hb]; [|apply A1, Hb]. fold n. split; [lia|]. intros F. apply I1, F0, F.
  Qed.

  Lemma generate_known fuel : forall states todo highest states' highest', known states todo highest ->
    generate acts stp fuel states todo highest = Ok (states', highest') -> known states' [] highest'.
  Proof.
    induction fuel as [|f IH]; intros states todo highest states' highest' K E; destruct todo as [|s todo]; cbn [generate] in E.
    - injection E as <- <-. exact K.
    - discriminate.
    - injection E as <- <-. exact K.
    - destruct (discover_spec s (acts s) states todo highest K (k_todo _ _ _ K s (or_introl eq_refl)) (incl_refl _)) as (s1 & t1 & h1 & E1 & K1 & I1 & H1 & A1 & _).
      rewrite E1 in E. refine (IH _ _ _ _ _ _ E). destruct K1 as [P1 P2 P3 P4 P5 P6 P7]. constructor; auto.
      + intros x Hx. apply P3. right. exact Hx.
      + inversion P4; assumption.
      + intros x Hx Nx b Hb. destruct (Nat.eq_dec x s) as [->|Nxs]; [apply A1, Hb|]. apply P7; auto. intros [->|H]; [contradiction|exact (Nx H)].
  Qed.
  Lemma known_start : known [start] [start] start.
  Proof.
    constructor; try (constructor; [intros []|constructor]).
    - left. reflexivity.
    - apply incl_refl.
    - intros s [<-|[]]. constructor.
    - intros s [<-|[]]. lia.
    - intros s Hs Ns. contradiction.
  Qed.

  (** The states found are exactly those reachable before the end, each once; all numbers met are at most the highest one. *)
  Theorem C49_states fuel states highest : generate_states acts stp start fuel = Ok (states, highest) ->
    NoDup states /\ (forall s, In s states <-> reached s)
    /\ (forall s, In s states -> s <= highest /\ forall a, In a (acts s) -> next s a <= highest).
  Proof.
    intros E. apply (generate_known _ _ _ _ _ _ known_start) in E. destruct E as [K1 K2 K3 K4 K5 K6 K7]. split; [exact K1|]. split.
    - intros s. split; [apply K5|]. induction 1 as [|s a _ IH Ha F]; [exact K2|]. apply (K7 s IH (fun x => x) a Ha), F.
    - intros s Hs. split; [apply K6, Hs|]. intros a Ha. apply (K7 s Hs (fun x => x) a Ha).
  Qed.

  Lemma bounded_length (l : list nat) M : NoDup l -> (forall x, In x l -> x < M) -> length l <= M.
  Proof. intros N H. rewrite <- (seq_length M 0). apply NoDup_incl_length; [exact N|]. intros x Hx. apply in_seq. specialize (H x Hx). lia. Qed.

  (** With finitely many states the search ends. *)
  Theorem C49_finite M : (forall s, reached s -> s < M) -> forall fuel, M <= fuel -> exists states highest, generate_states acts stp start fuel = Ok (states, highest).
  Proof.
    intros HM. assert (G : forall fuel states todo highest, known states todo highest -> M + length todo <= fuel + length states ->
      exists states' highest', generate acts stp fuel states todo highest = Ok (states', highest')).
    { induction fuel as [|f IH]; intros states todo highest K L; destruct todo as [|s todo]; cbn [generate]; eauto.
      - pose proof (bounded_length states M (k_nodup _ _ _ K) (fun x Hx => HM x (k_reached _ _ _ K x Hx))). cbn in L. lia.
      - destruct (discover_spec s (acts s) states todo highest K (k_todo _ _ _ K s (or_introl eq_refl)) (incl_refl _)) as (s1 & t1 & h1 & E1 & K1 & I1 & H1 & A1 & L1).
        rewrite E1. apply IH; [|cbn in L; lia]. destruct K1 as [P1 P2 P3 P4 P5 P6 P7]. constructor; auto.
        + intros x Hx. apply P3. right. exact Hx.
        + inversion P4; assumption.
        + intros x Hx Nx b Hb. destruct (Nat.eq_dec x s) as [->|Nxs]; [apply A1, Hb|]. apply P7; auto. intros [->|H]; [contradiction|exact (Nx H)]. }
    intros fuel Hf. apply G; [apply known_start|cbn; lia].
  Qed.

  (** *** Values *)
  Definition get (V : list Q) (s : nat) : Q := nth s V 0%Q.
  (** the value of an action according to the values [V] of the states *)
  Definition worth (V : list Q) (s a : nat) : Q := if final s a then gain s a else (gain s a + discount * get V (next s a))%Q.
  Definition fits (V : list Q) (s : nat) : Prop := s < length V /\ forall a, In a (acts s) -> next s a < length V.

  Lemma action_value_ok V s a : fits V s -> In a (acts s) -> action_value stp discount V s a = Ok (worth V s a).
  Proof.
    intros [_ F] Ha. unfold action_value, worth. rewrite stp_eq. destruct (final s a); [reflexivity|]. unfold get.
    rewrite (nth_error_nth' V 0%Q (F a Ha)). reflexivity.
  Qed.

  Lemma best_ok V s : fits V s -> forall l m, incl l (acts s) -> exists m', best stp discount V s l m = Ok m'
    /\ (m' = m \/ exists a, In a l /\ m' = Some (a, worth V s a))
    /\ (forall y, m = Some y -> exists z, m' = Some z /\ (snd y <= snd z)%Q)
    /\ (forall a, In a l -> exists z, m' = Some z /\ (worth V s a <= snd z)%Q).
  Proof.
    intros F. induction l as [|a l IH]; intros m Hl.
    - exists m. split; [reflexivity|]. split; [auto|]. split; [|intros a []]. intros y ->. exists y. split; [reflexivity|apply Qle_refl].
    - cbn [best]. rewrite (action_value_ok V s a F) by (apply Hl; left; reflexivity). cbn [bindO].
      assert (Hl' : incl l (acts s)) by (intros x Hx; apply Hl; right; exact Hx).
      destruct (better (worth V s a) m) eqn:B.
      + destruct (IH (Some (a, worth V s a)) Hl') as (m' & E & A1 & A2 & A3). exists m'. split; [exact E|].
        destruct (A2 _ eq_refl) as (z & Ez & Lz). cbn [snd] in Lz. split; [|split].
        * destruct A1 as [->|(b & Hb & ->)]; right; [exists a|exists b]; cbn; auto.
        * intros y ->. exists z. split; [exact Ez|]. unfold better in B. destruct y as [ya yq]. cbn [snd] in *. apply negb_true_iff in B.
          assert (~ (worth V s a <= yq)%Q) by (intros H; apply Qle_bool_iff in H; congruence). lra.
        * intros b [<-|Hb]; [eauto|apply A3, Hb].
      + destruct (IH m Hl') as (m' & E & A1 & A2 & A3). exists m'. split; [exact E|]. split; [|split].
        * destruct A1 as [->|(b & Hb & ->)]; [auto|right; exists b; cbn; auto].
        * exact A2.
        * intros b [<-|Hb]; [|apply A3, Hb]. unfold better in B. destruct m as [[ya yq]|]; [|discriminate]. apply negb_false_iff, Qle_bool_iff in B.
          destruct (A2 _ eq_refl) as (z & Ez & Lz). exists z. split; [exact Ez|]. cbn in Lz. lra.
  Qed.

  (** the chosen action is one of the offered ones, and no other is better *)
  Lemma best_spec V s : fits V s -> acts s <> [] -> exists a, best stp discount V s (acts s) None = Ok (Some (a, worth V s a)) /\ In a (acts s)
    /\ forall b, In b (acts s) -> (worth V s b <= worth V s a)%Q.
  Proof.
    intros F N. destruct (best_ok V s F (acts s) None (incl_refl _)) as (m' & E & A1 & _ & A3). destruct A1 as [->|(a & Ha & ->)].
    - destruct (acts s) as [|b l]; [contradiction|]. destruct (A3 b (or_introl eq_refl)) as (z & Ez & _). discriminate.
    - exists a. split; [exact E|]. split; [exact Ha|]. intros b Hb. destruct (A3 b Hb) as (z & Ez & Lz). injection Ez as <-. exact Lz.
  Qed.

  Lemma update_ok V : forall s x, s < length V -> exists V', update V s x = Some V' /\ length V' = length V /\ get V' s = x /\ forall t, t <> s -> get V' t = get V t.
  Proof.
    induction V as [|y V IH]; intros s x H; cbn in H; [lia|]. destruct s as [|s].
    - exists (x :: V). cbn. split; [reflexivity|]. split; [reflexivity|]. split; [reflexivity|]. intros [|t] Ht; [contradiction|reflexivity].
    - destruct (IH s x) as (V' & E & L & G & O); [lia|]. exists (y :: V'). cbn [update]. rewrite E. split; [reflexivity|]. split; [cbn; lia|]. split; [exact G|].
      intros [|t] Ht; [reflexivity|]. apply O. lia.
  Qed.

  Hypothesis discount_pos : (0 <= discount)%Q.
  Variable states : list nat.
  Hypothesis states_nodup : NoDup states.
  Hypothesis states_closed : forall s a, In s states -> In a (acts s) -> final s a = false -> In (next s a) states.

  (** no action is worth more than its state *)
  Definition super (V : list Q) : Prop := forall s a, In s states -> In a (acts s) -> (worth V s a <= get V s)%Q.
  Definition sumV (l : list nat) (V : list Q) : Q := fold_right (fun s x => ((match acts s with [] => 0 | _ => get V s end) + x)%Q) 0%Q l.
  (** a lower bound of what can be gained *)
  Definition floor (L : nat -> Q) : Prop := forall s, In s states -> acts s <> [] -> exists a, In a (acts s)
    /\ (L s <= (if final s a then gain s a else gain s a + discount * L (next s a)))%Q.

  Lemma worth_mono V V' s a : (forall n, get V' n <= get V n)%Q -> (worth V' s a <= worth V s a)%Q.
  Proof. intros H. unfold worth. destruct (final s a); [apply Qle_refl|]. specialize (H (next s a)). nra. Qed.

  Lemma sweep_ok : forall l V value trained, NoDup l -> incl l states -> (forall s, In s l -> fits V s) -> super V ->
    exists V' value' trained', sweep acts stp discount l V value trained = Ok (V', value', trained')
      /\ length V' = length V /\ super V' /\ (forall n, get V' n <= get V n)%Q
      /\ (forall s, In s l -> acts s <> [] -> exists a, In a (acts s) /\ (get V' s <= worth V s a)%Q)
      /\ (forall s, ~ In s l \/ acts s = [] -> get V' s = get V s)
      /\ (value' == value + sumV l V')%Q
      /\ (forall L, floor L -> (forall n, In n states -> L n <= get V n) -> forall n, In n states -> L n <= get V' n)%Q
      /\ trained' = trained || existsb (fun s => match acts s with [] => false | _ => true end) l.
  Proof.
    induction l as [|s l IH]; intros V value trained ND HI HF HS.
    - exists V, value, trained. cbn [sweep]. split; [reflexivity|]. split; [reflexivity|]. split; [exact HS|]. split; [intros n; apply Qle_refl|].
      split; [intros s []|]. split; [reflexivity|]. split; [cbn; ring|]. split; [auto|cbn; rewrite orb_false_r; reflexivity].
    - inversion ND as [|? ? Ns ND']; subst. cbn [sweep].
      assert (HI' : incl l states) by (intros x Hx; apply HI; right; exact Hx).
      destruct (acts s) as [|a0 as0] eqn:Ea.
      + cbn [best bindO]. destruct (IH V value trained ND' HI') as (V' & value' & trained' & E & A1 & A2 & A3 & A4 & A5 & A6 & A7 & A8); [intros x Hx; apply HF; right; exact Hx|exact HS|].
        exists V', value', trained'. split; [exact E|]. split; [exact A1|]. split; [exact A2|]. split; [exact A3|]. split; [|split; [|split; [|split]]].
        * intros t [<-|Ht] Nt; [congruence|apply A4; auto].
        * intros t [Ht|Ht]; apply A5; auto. left. intros H. apply Ht. right. exact H.
        * cbn [sumV fold_right]. rewrite Ea. fold (sumV l V'). rewrite A6. ring.
        * exact A7.
        * rewrite A8. cbn [existsb]. rewrite Ea. reflexivity.
      + assert (Hs : In s states) by (apply HI; left; reflexivity). assert (Fs : fits V s) by (apply HF; left; reflexivity).
        destruct (best_spec V s Fs) as (a & Eb & Ha & Hb); [congruence|]. rewrite Ea in Eb. rewrite Eb. cbn [bindO].
        destruct (update_ok V s (worth V s a) (proj1 Fs)) as (V1 & E1 & L1 & G1 & O1). rewrite E1. cbn [derefO].
        assert (M1 : (forall n, get V1 n <= get V n)%Q).
        { intros n. destruct (Nat.eq_dec n s) as [->|Nn]; [rewrite G1; apply HS; auto|rewrite O1 by exact Nn; apply Qle_refl]. }
        assert (S1 : super V1).
        { intros t b Ht Hb'. pose proof (worth_mono V V1 t b M1) as W. destruct (Nat.eq_dec t s) as [->|Nt].
          - rewrite G1. specialize (Hb b Hb'). lra.
          - rewrite (O1 t Nt). specialize (HS t b Ht Hb'). lra. }
        destruct (IH V1 (value + worth V s a)%Q true ND' HI') as (V' & value' & trained' & E & A1 & A2 & A3 & A4 & A5 & A6 & A7 & A8);
          [intros x Hx; destruct (HF x (or_intror Hx)) as [F1 F2]; split; [lia|intros b Hb'; rewrite L1; apply F2, Hb']|exact S1|].
        assert (Gs : get V' s = worth V s a) by (rewrite A5 by auto; exact G1).
        exists V', value', trained'. split; [exact E|]. split; [lia|]. split; [exact A2|]. split; [intros n; specialize (A3 n); specialize (M1 n); lra|].
        split; [|split; [|split; [|split]]].
        * intros t [<-|Ht] Nt; [exists a; rewrite Gs; split; [exact Ha|apply Qle_refl]|]. destruct (A4 t Ht Nt) as (b & Hb' & Lb). exists b. split; [exact Hb'|].
          pose proof (worth_mono V V1 t b M1). lra.
        * intros t [Ht|Ht].
          -- rewrite A5 by (left; intros H; apply Ht; right; exact H). apply O1. intros ->. apply Ht. left. reflexivity.
          -- rewrite A5 by auto. apply O1. intros ->. congruence.
        * cbn [sumV fold_right]. rewrite Ea. fold (sumV l V'). rewrite A6, Gs. ring.
        * intros L HL HLV n Hn. apply (A7 L HL); [|exact Hn]. intros m Hm. destruct (Nat.eq_dec m s) as [->|Nm]; [|rewrite O1 by exact Nm; apply HLV, Hm].
          rewrite G1. destruct (HL s Hs) as (b & Hb' & Lb); [congruence|]. specialize (Hb b Hb'). unfold worth in Hb at 1.
          destruct (final s b) eqn:Fb; [lra|]. specialize (HLV (next s b) (states_closed s b Hs Hb' Fb)).
          assert (discount * L (next s b) <= discount * get V (next s b))%Q by nra. lra.
        * rewrite A8. cbn [existsb]. rewrite Ea. rewrite orb_true_r. reflexivity.
  Qed.

  Lemma sum_le l V V' : (forall n, get V' n <= get V n)%Q -> (sumV l V' <= sumV l V)%Q.
  Proof.
    intros H. induction l as [|s l IH]; [apply Qle_refl|]. cbn [sumV fold_right]. fold (sumV l V). fold (sumV l V'). specialize (H s). destruct (acts s); lra.
  Qed.
  Lemma sum_one l V V' s : (forall n, get V' n <= get V n)%Q -> In s l -> acts s <> [] -> (get V s - get V' s <= sumV l V - sumV l V')%Q.
  Proof.
    intros H Hs Ns. induction l as [|t l IH]; [destruct Hs|]. cbn [sumV fold_right]. fold (sumV l V). fold (sumV l V'). destruct Hs as [->|Hs].
    - pose proof (sum_le l V V' H). destruct (acts s); [contradiction|lra].
    - specialize (IH Hs). specialize (H t). destruct (acts t); lra.
  Qed.
  Lemma sum_rev V : forall l, (sumV (rev l) V == sumV l V)%Q.
  Proof.
    assert (A : forall l m, (sumV (l ++ m) V == sumV l V + sumV m V)%Q).
    { induction l as [|s l IH]; intros m; [change (sumV [] V) with 0%Q; cbn [app]; ring|]. cbn [app sumV fold_right]. fold (sumV (l ++ m) V). fold (sumV l V). rewrite IH. ring. }
    induction l as [|s l IH]; [reflexivity|]. cbn [rev]. rewrite A, IH. cbn [sumV fold_right]. fold (sumV l V). ring.
  Qed.

  (** what is known when the sweeps stop *)
  Record solved (V : list Q) : Prop := {
    so_super : super V;
    so_least : forall s, In s states -> acts s <> [] -> exists a, In a (acts s) /\ (get V s <= worth V s a + discount * threshold)%Q;
    so_idle : forall s, acts s = [] -> get V s = 0%Q }.

  Lemma fits_same V V' s : length V' = length V -> fits V s -> fits V' s.
  Proof. intros L [F1 F2]. split; [lia|]. intros a Ha. rewrite L. apply F2, Ha. Qed.

  Definition busy (s : nat) : bool := match acts s with [] => false | _ => true end.

  (** one sweep, seen from the loop *)
  Lemma one_sweep V value trained : (forall s, In s states -> fits V s) -> super V -> (value == sumV states V)%Q -> (forall s, acts s = [] -> get V s = 0%Q) ->
    exists V' value' trained', sweep acts stp discount (rev states) V 0 trained = Ok (V', value', trained')
      /\ length V' = length V /\ super V' /\ (value' == sumV states V')%Q /\ (forall s, acts s = [] -> get V' s = 0%Q) /\ (value' <= value)%Q
      /\ trained' = trained || existsb busy states
      /\ (Qabs (value' - value) == value - value')%Q
      /\ ((value - value' <= threshold)%Q -> solved V')
      /\ (forall L, floor L -> (forall n, In n states -> L n <= get V n) -> forall n, In n states -> L n <= get V' n)%Q.
  Proof.
    intros HF HS Hv Hi. destruct (sweep_ok (rev states) V 0 trained) as (V' & value' & trained' & E & A1 & A2 & A3 & A4 & A5 & A6 & A7 & A8).
    - apply NoDup_rev, states_nodup.
    - intros x Hx. apply in_rev, Hx.
    - intros x Hx. apply HF, in_rev, Hx.
    - exact HS.
    - assert (Ev : (value' == sumV states V')%Q) by (rewrite A6, sum_rev; ring).
      assert (Lv : (value' <= value)%Q) by (rewrite Ev, Hv; apply sum_le, A3).
      exists V', value', trained'. split; [exact E|]. split; [exact A1|]. split; [exact A2|]. split; [exact Ev|]. split; [|split; [exact Lv|split; [|split; [|split]]]].
      + intros s Hs. rewrite A5 by auto. apply Hi, Hs.
      + rewrite A8. f_equal. apply eq_true_iff_eq. rewrite !existsb_exists. split; intros (x & Hx & Bx); exists x; (split; [|exact Bx]); apply in_rev; [exact Hx|rewrite rev_involutive; exact Hx].
      + rewrite Qabs_neg by lra. ring.
      + intros Ht. constructor; [exact A2| |intros s Hs; rewrite A5 by auto; apply Hi, Hs].
        intros s Hs Ns. destruct (A4 s) as (a & Ha & La); [apply in_rev; rewrite rev_involutive; exact Hs|exact Ns|]. exists a. split; [exact Ha|].
        assert (Hth : (0 <= threshold)%Q) by lra.
        unfold worth in *. destruct (final s a) eqn:F; [nra|]. assert (K : (get V (next s a) <= get V' (next s a) + threshold)%Q).
        { destruct (acts (next s a)) as [|b bs] eqn:En; [rewrite A5 by auto; lra|].
          assert (Hn : acts (next s a) <> []) by congruence. pose proof (sum_one states V V' (next s a) A3 (states_closed s a Hs Ha F) Hn) as K. lra. }
        assert (discount * get V (next s a) <= discount * (get V' (next s a) + threshold))%Q by nra. lra.
      + exact A7.
  Qed.

  Lemma go_on_min d delta : go_on threshold delta = true -> go_on threshold (if less d delta then Some d else delta) = true \/ ((d <= threshold)%Q /\ (if less d delta then Some d else delta) = Some d).
  Proof.
    intros G. destruct (less d delta) eqn:Ls; [|auto]. cbn. destruct (Qle_bool d threshold) eqn:E; [right; split; [apply Qle_bool_iff, E|reflexivity]|auto].
  Qed.

  Lemma iterate_solved fuel : forall V value delta trained V' trained', (forall s, In s states -> fits V s) -> super V -> (value == sumV states V)%Q ->
    (forall s, acts s = [] -> get V s = 0%Q) -> go_on threshold delta = true ->
    iterate acts stp discount threshold fuel states V value delta trained = Ok (V', trained') ->
    solved V' /\ length V' = length V /\ trained' = trained || existsb busy states.
  Proof.
    induction fuel as [|f IH]; intros V value delta trained V' trained' HF HS Hv Hi G E; cbn [iterate] in E; rewrite G in E; [discriminate|].
    destruct (one_sweep V value trained HF HS Hv Hi) as (V1 & value1 & trained1 & Es & A1 & A2 & A3 & A4 & A5 & A6 & A7 & A8 & _).
    rewrite Es in E. cbn [bindO] in E. destruct (go_on_min (Qabs (value1 - value)) delta G) as [G1|[Ld Ed]].
    - assert (HF1 : forall s, In s states -> fits V1 s) by (intros s Hs; apply (fits_same V); auto).
      destruct (IH V1 value1 _ trained1 V' trained' HF1 A2 A3 A4 G1 E) as (B1 & B2 & B3).
      split; [exact B1|]. split; [lia|]. rewrite B3, A6. destruct trained, (existsb busy states); reflexivity.
    - rewrite Ed in E. assert (Gn : go_on threshold (Some (Qabs (value1 - value))) = false) by (cbn; apply negb_false_iff, Qle_bool_iff, Ld).
      assert (E' : Ok (V1, trained1) = Ok (V', trained')) by (destruct f; cbn [iterate] in E; rewrite Gn in E; exact E). injection E' as <- <-.
      split; [apply A8; rewrite <- A7; exact Ld|]. auto.
  Qed.

  Lemma iterate_ends L k : floor L -> (0 < threshold)%Q -> forall V value delta trained fuel, (forall s, In s states -> fits V s) -> super V -> (value == sumV states V)%Q ->
    (forall s, acts s = [] -> get V s = 0%Q) -> (forall n, In n states -> L n <= get V n)%Q ->
    (value - fold_right (fun s x => (match acts s with [] => 0 | _ => L s end) + x)%Q 0%Q states <= inject_Z (Z.of_nat k) * threshold)%Q -> k < fuel ->
    exists V' trained', iterate acts stp discount threshold fuel states V value delta trained = Ok (V', trained').
  Proof.
    intros HL Ht. set (bot := fold_right _ 0%Q states).
    assert (Hb : forall V, (forall n, In n states -> L n <= get V n)%Q -> (bot <= sumV states V)%Q).
    { intros V H. unfold bot. clear bot HL states_nodup states_closed. induction states as [|s l IH]; [apply Qle_refl|]. cbn [sumV fold_right]. fold (sumV l V).
      assert (forall n, In n l -> (L n <= get V n)%Q) as Hl by (intros n Hn; apply H; right; exact Hn). specialize (IH Hl). specialize (H s (or_introl eq_refl)). destruct (acts s); lra. }
    induction k as [|k IH]; intros V value delta trained fuel HF HS Hv Hi HLV Hk Hf; (destruct fuel as [|f]; [lia|]); cbn [iterate];
      (destruct (go_on threshold delta) eqn:G; [|eauto]);
      destruct (one_sweep V value trained HF HS Hv Hi) as (V1 & value1 & trained1 & Es & A1 & A2 & A3 & A4 & A5 & A6 & A7 & A8 & A9); rewrite Es; cbn [bindO];
      (assert (HLV1 : (forall n, In n states -> L n <= get V1 n)%Q) by (apply A9; auto)); pose proof (Hb V1 HLV1) as B1;
      destruct (go_on_min (Qabs (value1 - value)) delta G) as [G1|[Ld Ed]].
    1: { exfalso. assert (Z0 : (Qabs (value1 - value) <= threshold)%Q) by (rewrite A7; change (inject_Z (Z.of_nat 0)) with 0%Q in Hk; lra). unfold go_on in G1. destruct (less _ delta) eqn:Ls.
         - apply negb_true_iff in G1. apply Qle_bool_iff in Z0. congruence.
         - unfold less in Ls. destruct delta as [d|]; [|discriminate]. apply negb_false_iff, Qle_bool_iff in Ls. apply negb_true_iff in G1.
           assert (Qle_bool d threshold = true) by (apply Qle_bool_iff; lra). congruence. }
    2: { destruct (Qlt_le_dec threshold (Qabs (value1 - value))) as [Hd|Hd].
         - apply IH; auto; [intros s Hs; apply (fits_same V); auto| |lia]. rewrite A7 in Hd. rewrite Nat2Z.inj_succ in Hk. unfold Z.succ in Hk. rewrite inject_Z_plus in Hk.
           change (inject_Z 1) with 1%Q in Hk. lra.
         - exfalso. unfold go_on in G1. destruct (less _ delta) eqn:Ls.
           + apply negb_true_iff in G1. apply Qle_bool_iff in Hd. congruence.
           + unfold less in Ls. destruct delta as [d|]; [|discriminate]. apply negb_false_iff, Qle_bool_iff in Ls. apply negb_true_iff in G1.
             assert (Qle_bool d threshold = true) by (apply Qle_bool_iff; lra). congruence. }
    all: rewrite Ed; assert (Gn : go_on threshold (Some (Qabs (value1 - value))) = false) by (cbn; apply negb_false_iff, Qle_bool_iff, Ld);
      exists V1, trained1; destruct f; cbn [iterate]; rewrite Gn; reflexivity.
  Qed.

  (** *** Walks through the environment until the end, or until there is no action *)
  Inductive walk : nat -> list (nat * nat) -> Prop :=
  | walk_stop s : acts s = [] -> walk s []
  | walk_end s a : In a (acts s) -> final s a = true -> walk s [(s, a)]
  | walk_on s a w : In a (acts s) -> final s a = false -> walk (next s a) w -> walk s ((s, a) :: w).
  Definition gains (w : list (nat * nat)) : list Q := map (fun '(s, a) => gain s a) w.
  (** the discounted return *)
  Definition return_of (l : list Q) : Q := fold_right (fun r x => (r + discount * x)%Q) 0%Q l.
  (** the policy entries: candidate and edge of each step; a step without edge repeats the last entry, if there is one *)
  Fixpoint entries (last : option (nat * nat)) (w : list (nat * nat)) : list (nat * nat) :=
    match w with
    | [] => []
    | (s, a) :: r =>
        let e := if (0 <=? edge (taken s a))%Z then Some (candidate s, Z.to_nat (edge (taken s a))) else last in
        match e with Some x => x :: entries e r | None => entries None r end
    end.
  (** each action of the walk is one of the best according to [V] *)
  Definition greedy (V : list Q) (w : list (nat * nat)) : Prop := Forall (fun '(s, a) => forall b, In b (acts s) -> (worth V s b <= worth V s a)%Q) w.

  Lemma extend_entries policy s a w : let e := extend candidate edge policy s (taken s a) in
    e ++ entries (hd_error (rev e)) w = policy ++ entries (hd_error (rev policy)) ((s, a) :: w).
  Proof.
    cbn zeta. unfold extend. cbn [entries]. destruct (0 <=? edge (taken s a))%Z.
    - rewrite rev_app_distr. cbn [rev app hd_error]. rewrite <- app_assoc. reflexivity.
    - destruct (rev policy) as [|x r] eqn:E; cbn [hd_error]; [rewrite E; reflexivity|]. rewrite rev_app_distr. cbn [rev app hd_error]. rewrite <- app_assoc. reflexivity.
  Qed.

  Lemma follow_walk fuel V : (forall s, In s states -> fits V s) -> forall s policy rewards p rs, In s states ->
    follow acts stp discount candidate edge fuel V s policy rewards = Ok (p, rs) ->
    exists w, walk s w /\ greedy V w /\ p = policy ++ entries (hd_error (rev policy)) w /\ rs = rewards ++ gains w.
  Proof.
    intros HF. induction fuel as [|f IH]; intros s policy rewards p rs Hs E; cbn [follow] in E; (destruct (acts s) as [|a0 as0] eqn:Ea; [injection E as <- <-; exists []; split; [constructor; exact Ea|];
      split; [constructor|]; cbn; rewrite !app_nil_r; auto|]); [discriminate|].
    destruct (best_spec V s (HF s Hs)) as (a & Eb & Ha & Hb); [congruence|]. rewrite Ea in Eb. rewrite Eb in E. cbn [bindO] in E. rewrite stp_eq in E.
    destruct (final s a) eqn:F.
    - injection E as <- <-. exists [(s, a)]. split; [constructor; auto|]. split; [constructor; [exact Hb|constructor]|]. split; [|reflexivity].
      rewrite <- extend_entries. cbn. rewrite app_nil_r. reflexivity.
    - destruct (IH _ _ _ _ _ (states_closed s a Hs Ha F) E) as (w & W & G & -> & ->). exists ((s, a) :: w). split; [constructor; auto|]. split; [constructor; auto|].
      split; [apply extend_entries|]. rewrite <- app_assoc. reflexivity.
  Qed.
  Lemma follow_ends (rank : nat -> nat) V : (forall s a, In s states -> In a (acts s) -> final s a = false -> rank (next s a) < rank s) ->
    (forall s, In s states -> fits V s) -> forall fuel s policy rewards, In s states -> rank s < fuel ->
    exists p rs, follow acts stp discount candidate edge fuel V s policy rewards = Ok (p, rs).
  Proof.
    intros HR HF. induction fuel as [|f IH]; intros s policy rewards Hs Hf; [lia|]. cbn [follow]. destruct (acts s) as [|a0 as0] eqn:Ea; [eauto|].
    destruct (best_spec V s (HF s Hs)) as (a & Eb & Ha & Hb); [congruence|]. rewrite Ea in Eb. rewrite Eb. cbn [bindO]. rewrite stp_eq.
    destruct (final s a) eqn:F; [eauto|]. apply IH; [apply (states_closed s a Hs Ha F)|]. specialize (HR s a Hs Ha F). lia.
  Qed.

  Lemma walk_cons s t b w : walk s ((t, b) :: w) -> s = t /\ In b (acts t) /\ ((final t b = true /\ w = []) \/ (final t b = false /\ walk (next t b) w)).
  Proof. intros W. inversion W; subst; auto. Qed.
  Lemma walk_nil s : walk s [] -> acts s = [].
  Proof. intros W. inversion W; subst; auto. Qed.

  Lemma walk_most V w : solved V -> forall s, In s states -> walk s w -> (return_of (gains w) <= get V s)%Q.
  Proof.
    intros S. induction w as [|[t b] w IH]; intros s Hs W.
    - rewrite (so_idle V S) by (apply walk_nil, W). cbn. lra.
    - apply walk_cons in W. destruct W as (-> & Hb & W). pose proof (so_super V S t b Hs Hb) as K. unfold worth in K.
      cbn [gains map return_of fold_right]. fold (gains w). fold (return_of (gains w)). destruct W as [[F ->]|[F W]]; rewrite F in K; [cbn; lra|].
      specialize (IH (next t b) (states_closed _ _ Hs Hb F) W). assert (discount * return_of (gains w) <= discount * get V (next t b))%Q by nra. lra.
  Qed.
  Lemma greedy_least V w : solved V -> (discount <= 1)%Q -> (0 <= threshold)%Q -> forall s, In s states -> walk s w -> greedy V w ->
    (get V s <= return_of (gains w) + inject_Z (Z.of_nat (length w)) * (discount * threshold))%Q.
  Proof.
    intros S D1 T0. assert (DT : (0 <= discount * threshold)%Q) by nra. induction w as [|[t b] w IH]; intros s Hs W G.
    - rewrite (so_idle V S) by (apply walk_nil, W). cbn [gains map return_of fold_right length Z.of_nat]. change (inject_Z 0) with 0%Q. lra.
    - apply walk_cons in W. destruct W as (-> & Hb & W). inversion G as [|? ? G1 G2]; subst. cbn beta iota in G1.
      destruct (so_least V S t Hs) as (a & Ha & La); [intros E; rewrite E in Hb; destruct Hb|]. specialize (G1 a Ha). unfold worth in G1 at 2.
      cbn [gains map return_of fold_right length]. fold (gains w). fold (return_of (gains w)).
      rewrite Nat2Z.inj_succ. unfold Z.succ. rewrite inject_Z_plus. change (inject_Z 1) with 1%Q.
      set (k := inject_Z (Z.of_nat (length w))) in *. assert (Hk : (0 <= k)%Q) by (unfold k; change 0%Q with (inject_Z 0); rewrite <- Zle_Qle; lia).
      assert (K : (0 <= k * (discount * threshold))%Q) by nra.
      destruct W as [[F Ew]|[F W]]; rewrite F in G1.
      + rewrite Ew. cbn [gains map return_of fold_right]. lra.
      + specialize (IH (next t b) (states_closed _ _ Hs Hb F) W G2).
        assert (discount * get V (next t b) <= discount * (return_of (gains w) + k * (discount * threshold)))%Q by nra.
        assert (discount * (k * (discount * threshold)) <= k * (discount * threshold))%Q by nra. lra.
  Qed.
End C49.

Section C49_main.
  Variable acts : nat -> list nat.
  Variable stp : nat -> nat -> nat * nat * Q * bool.
  Variable start : nat.
  Variable discount threshold : Q.
  Variable candidate : nat -> nat.
  Variable edge : nat -> Z.
  Notation next := (next stp).
  Notation gain := (gain stp).
  Notation final := (final stp).
  Notation worth := (worth stp discount).

  Lemma init_super highest extra states : (forall s a, In s states -> In a (acts s) -> gain s a <= 0)%Q -> super acts stp discount states (repeat 0%Q (S highest + extra)).
  Proof.
    intros R s a Hs Ha. assert (Z0 : forall n, get (repeat 0%Q (S highest + extra)) n = 0%Q).
    { intros n. unfold get. destruct (nth_in_or_default n (repeat 0%Q (S highest + extra)) 0%Q) as [H| ->]; [apply repeat_spec in H; exact H|reflexivity]. }
    unfold ValueProps.worth. rewrite !Z0. specialize (R s a Hs Ha). destruct (final s a); lra.
  Qed.
  Lemma init_zero highest extra n : get (repeat 0%Q (S highest + extra)) n = 0%Q.
  Proof. unfold get. destruct (nth_in_or_default n (repeat 0%Q (S highest + extra)) 0%Q) as [H| ->]; [apply repeat_spec in H; exact H|reflexivity]. Qed.
  Lemma init_sum highest extra states : (0 == sumV acts states (repeat 0%Q (S highest + extra)))%Q.
  Proof. induction states as [|s l IH]; [reflexivity|]. cbn [sumV fold_right]. fold (sumV acts l (repeat 0%Q (S highest + extra))). rewrite <- IH, init_zero. destruct (acts s); ring. Qed.
  Lemma init_fits fuel states highest extra : generate_states acts stp start fuel = Ok (states, highest) -> forall s, In s states -> fits acts stp (repeat 0%Q (S highest + extra)) s.
  Proof.
    intros E s Hs. destruct (C49_states _ _ _ _ _ _ E) as (_ & _ & H). destruct (H s Hs) as [H1 H2]. split; [rewrite repeat_length; lia|].
    intros a Ha. rewrite repeat_length. specialize (H2 a Ha). lia.
  Qed.
  Lemma gen_closed fuel states highest : generate_states acts stp start fuel = Ok (states, highest) ->
    forall s a, In s states -> In a (acts s) -> final s a = false -> In (next s a) states.
  Proof. intros E s a Hs Ha F. destruct (C49_states _ _ _ _ _ _ E) as (_ & H & _). apply H, reached_next; auto. apply H, Hs. Qed.

  (** The values found when the sweeps stop: no action is worth more than its state, and some action is worth the value of the state
      up to the threshold (discounted); states without actions have the value 0. *)
  Theorem C49_bellman fuel fuel' states highest extra V trained :
    (0 <= discount)%Q -> (forall s a, reached acts stp start s -> In a (acts s) -> gain s a <= 0)%Q ->
    generate_states acts stp start fuel = Ok (states, highest) ->
    iterate acts stp discount threshold fuel' states (repeat 0%Q (S highest + extra)) 0 None false = Ok (V, trained) ->
    (forall s, reached acts stp start s -> acts s <> [] ->
       (forall a, In a (acts s) -> (worth V s a <= get V s)%Q)
       /\ exists a, In a (acts s) /\ (get V s <= worth V s a + discount * threshold)%Q)
    /\ (forall s, acts s = [] -> get V s = 0%Q).
  Proof.
    intros D R E I. destruct (C49_states _ _ _ _ _ _ E) as (ND & H & _).
    destruct (iterate_solved acts stp discount threshold D states ND (gen_closed _ _ _ E) fuel' (repeat 0%Q (S highest + extra)) 0%Q None false V trained) as ([S1 S2 S3] & _ & _); auto.
    - intros s Hs. apply (init_fits _ _ _ _ E), Hs.
    - apply init_super. intros s a Hs. apply R, H, Hs.
    - apply init_sum.
    - intros s _. apply init_zero.
    - split; [|exact S3]. intros s Hs Ns. apply H in Hs. split; [intros a Ha; apply S1; auto|apply S2; auto].
  Qed.

  (** The result follows the actions that are best for these values, from the start to the end, and consists of their candidates
      and edges. *)
  Theorem C49_greedy fuel extra p rs :
    (0 <= discount)%Q -> (forall s a, reached acts stp start s -> In a (acts s) -> gain s a <= 0)%Q ->
    learn acts stp start discount threshold candidate edge fuel extra = Ok (p, rs) ->
    (acts start = [] /\ p = [] /\ rs = []) \/
    exists states highest V w, generate_states acts stp start fuel = Ok (states, highest)
      /\ iterate acts stp discount threshold fuel states (repeat 0%Q (S highest + extra)) 0 None false = Ok (V, true)
      /\ walk acts stp start w /\ greedy acts stp discount V w /\ p = entries stp candidate edge None w /\ rs = gains stp w.
  Proof.
    intros D R E. unfold learn in E. destruct (generate_states acts stp start fuel) as [[states highest]|x| |] eqn:Eg; try discriminate. cbn [bindO] in E.
    destruct (iterate acts stp discount threshold fuel states (repeat 0%Q (S highest + extra)) 0 None false) as [[V trained]|x| |] eqn:Ei; try discriminate. cbn [bindO] in E.
    destruct (C49_states _ _ _ _ _ _ Eg) as (ND & H & _).
    destruct (iterate_solved acts stp discount threshold D states ND (gen_closed _ _ _ Eg) fuel (repeat 0%Q (S highest + extra)) 0%Q None false V trained) as (S1 & S2 & S3); auto.
    - intros s Hs. apply (init_fits _ _ _ _ Eg), Hs.
    - apply init_super. intros s a Hs. apply R, H, Hs.
    - apply init_sum.
    - intros s _. apply init_zero.
    - assert (Hs : In start states) by (apply H; constructor). destruct trained.
      + right. destruct (follow_walk acts stp discount candidate edge states (gen_closed _ _ _ Eg) fuel V) with (s := start) (policy := @nil (nat * nat)) (rewards := @nil Q) (p := p) (rs := rs) as (w & W1 & W2 & W3 & W4); auto.
        * intros s Hs'. apply (fits_same acts stp (repeat 0%Q (S highest + extra))); [exact S2|]. apply (init_fits _ _ _ _ Eg), Hs'.
        * exists states, highest, V, w. auto 8.
      + left. injection E as <- <-. split; [|auto]. cbn [orb] in S3. symmetry in S3.
        destruct (acts start) as [|a l] eqn:Ea; [reflexivity|]. assert (existsb (busy acts) states = true); [|congruence].
        apply existsb_exists. exists start. split; [exact Hs|]. unfold busy. rewrite Ea. reflexivity.
  Qed.

  (** How good the result is: no walk to the end has a return exceeding that of the result by more than the threshold for each of
      its steps. *)
  Theorem C49_near_best fuel extra p rs w :
    (0 <= discount <= 1)%Q -> (0 <= threshold)%Q -> (forall s a, reached acts stp start s -> In a (acts s) -> gain s a <= 0)%Q ->
    learn acts stp start discount threshold candidate edge fuel extra = Ok (p, rs) -> walk acts stp start w ->
    (return_of discount (gains stp w) <= return_of discount rs + inject_Z (Z.of_nat (length rs)) * (discount * threshold))%Q.
  Proof.
    intros [D D1] T R E W. destruct (C49_greedy fuel extra p rs D R E) as [(A1 & A2 & A3)|(states & highest & V & w' & Eg & Ei & W1 & W2 & W3 & W4)].
    - subst. destruct w as [|[t b] w]; [change (0 <= 0 + 0 * (discount * threshold))%Q; lra|]. apply walk_cons in W. destruct W as (<- & Hb & _). rewrite A1 in Hb. destruct Hb.
    - destruct (C49_states _ _ _ _ _ _ Eg) as (ND & H & _). assert (Hs : In start states) by (apply H; constructor).
      destruct (iterate_solved acts stp discount threshold D states ND (gen_closed _ _ _ Eg) fuel (repeat 0%Q (S highest + extra)) 0%Q None false V true) as (S1 & _ & _); auto.
      + intros s Hs'. apply (init_fits _ _ _ _ Eg), Hs'.
      + apply init_super. intros s a Hs'. apply R, H, Hs'.
      + apply init_sum.
      + intros s _. apply init_zero.
      + pose proof (walk_most acts stp discount threshold D states (gen_closed _ _ _ Eg) V w S1 start Hs W) as K1.
        pose proof (greedy_least acts stp discount threshold D states (gen_closed _ _ _ Eg) V w' S1 D1 T start Hs W1 W2) as K2.
        subst rs. assert (El : length (gains stp w') = length w') by (unfold gains; apply map_length). rewrite El. lra.
  Qed.

  Lemma generate_more fuel : forall fuel' states todo highest r, fuel <= fuel' -> generate acts stp fuel states todo highest = Ok r -> generate acts stp fuel' states todo highest = Ok r.
  Proof.
    induction fuel as [|f IH]; intros fuel' states todo highest r Hf E; destruct todo as [|s todo]; cbn [generate] in E; try discriminate.
    - destruct fuel'; exact E.
    - destruct fuel'; exact E.
    - destruct fuel' as [|f']; [lia|]. cbn [generate]. destruct (fold_left _ _ _) as [[s1 t1] h1]. apply IH; [lia|exact E].
  Qed.

  (** With finitely many states, rewards bounded below and either a discount below 1 or no way back to a state, the sweeps end. *)
  Lemma sweeps_end states highest extra fuel L : (0 <= discount)%Q -> (0 < threshold)%Q -> (forall s a, reached acts stp start s -> In a (acts s) -> gain s a <= 0)%Q ->
    generate_states acts stp start fuel = Ok (states, highest) -> floor acts stp discount states L -> (forall n, In n states -> L n <= 0)%Q ->
    exists k, forall fuel', k < fuel' -> exists V trained, iterate acts stp discount threshold fuel' states (repeat 0%Q (S highest + extra)) 0 None false = Ok (V, trained).
  Proof.
    intros D T R E HL L0. destruct (C49_states _ _ _ _ _ _ E) as (ND & H & _). set (bot := fold_right (fun s x => (match acts s with [] => 0 | _ => L s end) + x)%Q 0%Q states).
    exists (Z.to_nat (Qceiling ((0 - bot) / threshold))). intros fuel' Hf.
    apply (iterate_ends acts stp discount threshold D states ND (gen_closed _ _ _ E) L (Z.to_nat (Qceiling ((0 - bot) / threshold))) HL T); auto.
    - intros s Hs. apply (init_fits _ _ _ _ E), Hs.
    - apply init_super. intros s a Hs. apply R, H, Hs.
    - apply init_sum.
    - intros s _. apply init_zero.
    - intros n Hn. rewrite init_zero. apply L0, Hn.
    - fold bot. set (q := ((0 - bot) / threshold)%Q). assert (Eq : (0 - bot == q * threshold)%Q) by (unfold q; field; lra).
      assert (Hq : (q <= inject_Z (Z.of_nat (Z.to_nat (Qceiling q))))%Q).
      { eapply Qle_trans; [apply Qle_ceiling|]. rewrite <- Zle_Qle. lia. }
      rewrite Eq. nra.
  Qed.

  Theorem C49_ends_discounted M B : (0 <= discount)%Q -> (discount < 1)%Q -> (0 < threshold)%Q ->
    (forall s, reached acts stp start s -> s < M) -> (forall s a, reached acts stp start s -> In a (acts s) -> B <= gain s a <= 0)%Q ->
    forall extra, exists states highest k, (forall fuel, M <= fuel -> generate_states acts stp start fuel = Ok (states, highest))
      /\ forall fuel, k < fuel -> exists V trained, iterate acts stp discount threshold fuel states (repeat 0%Q (S highest + extra)) 0 None false = Ok (V, trained).
  Proof.
    intros D D1 T HM HB extra. destruct (C49_finite acts stp start M HM M (le_n M)) as (states & highest & E). exists states, highest.
    destruct (C49_states _ _ _ _ _ _ E) as (ND & H & _).
    assert (B0 : (B <= 0)%Q \/ forall s, reached acts stp start s -> acts s = []).
    { destruct (Qlt_le_dec 0 B) as [Hb|Hb]; [right|left; exact Hb]. intros s Hs. destruct (acts s) as [|a l] eqn:Ea; [reflexivity|]. destruct (HB s a Hs) as [B1 B2]; [rewrite Ea; left; reflexivity|]. lra. }
    set (x := (if Qle_bool B 0 then B / (1 - discount) else 0)%Q).
    assert (Hx : ((B <= 0 -> x == B + discount * x) /\ x <= 0)%Q).
    { unfold x. destruct (Qle_bool B 0) eqn:Eb.
      - apply Qle_bool_iff in Eb. split; [intros _; field; lra|]. assert ((1 - discount) * (B / (1 - discount)) == B)%Q by (field; lra). nra.
      - split; [|lra]. intros K. apply Qle_bool_iff in K. congruence. }
    destruct (sweeps_end states highest extra M (fun _ => x) D T) as (k & Hk).
    - intros s a Hs Ha. apply (HB s a Hs Ha).
    - exact E.
    - intros s Hs Ns. apply H in Hs. destruct (acts s) as [|a l] eqn:Ea; [contradiction|]. exists a. split; [left; reflexivity|].
      destruct (HB s a Hs) as [B1 B2]; [rewrite Ea; left; reflexivity|]. destruct Hx as [Hx Hx0]. assert (Bn : (B <= 0)%Q) by lra. specialize (Hx Bn). destruct (final s a); nra.
    - intros n _. apply Hx.
    - exists k. split; [|exact Hk]. intros fuel Hf. exact (generate_more M fuel _ _ _ _ Hf E).
  Qed.

  (** If moreover there is no way back to a state, the whole computation ends with a result. *)
  Theorem C49_ends M B (rank : nat -> nat) : (0 <= discount <= 1)%Q -> (0 < threshold)%Q ->
    (forall s, reached acts stp start s -> s < M) -> (forall s a, reached acts stp start s -> In a (acts s) -> B <= gain s a <= 0)%Q ->
    (forall s a, reached acts stp start s -> In a (acts s) -> final s a = false -> rank (next s a) < rank s) ->
    forall extra, exists k, forall fuel, k <= fuel -> exists p rs, learn acts stp start discount threshold candidate edge fuel extra = Ok (p, rs).
  Proof.
    intros [D D1] T HM HB HR extra. destruct (C49_finite acts stp start M HM M (le_n M)) as (states & highest & E).
    destruct (C49_states _ _ _ _ _ _ E) as (ND & H & _).
    set (b := (if Qle_bool B 0 then B else 0)%Q). assert (Hb : (b <= 0)%Q).
    { unfold b. destruct (Qle_bool B 0) eqn:Eb; [apply Qle_bool_iff, Eb|lra]. }
    destruct (sweeps_end states highest extra M (fun s => inject_Z (Z.of_nat (S (rank s))) * b)%Q D T) as (k & Hk).
    - intros s a Hs Ha. apply (HB s a Hs Ha).
    - exact E.
    - intros s Hs Ns. destruct (acts s) as [|a l] eqn:Ea; [contradiction|]. exists a. split; [left; reflexivity|]. assert (Hs' := Hs). apply H in Hs'.
      assert (Ha : In a (acts s)) by (rewrite Ea; left; reflexivity). destruct (HB s a Hs' Ha) as [B1 B2].
      assert (Eb : b = B) by (unfold b; assert (Eb : Qle_bool B 0 = true) by (apply Qle_bool_iff; lra); rewrite Eb; reflexivity).
      assert (R1 : (1 <= inject_Z (Z.of_nat (S (rank s))))%Q) by (change 1%Q with (inject_Z 1); rewrite <- Zle_Qle; lia).
      destruct (final s a) eqn:F; [rewrite Eb in *; nra|]. specialize (HR s a Hs' Ha F).
      assert (R2 : (inject_Z (Z.of_nat (S (rank (next s a)))) + 1 <= inject_Z (Z.of_nat (S (rank s))))%Q).
      { change 1%Q with (inject_Z 1). rewrite <- inject_Z_plus, <- Zle_Qle. lia. }
      assert (R3 : (0 <= inject_Z (Z.of_nat (S (rank (next s a)))))%Q) by (change 0%Q with (inject_Z 0); rewrite <- Zle_Qle; lia).
      set (x := inject_Z (Z.of_nat (S (rank (next s a))))) in *. set (y := inject_Z (Z.of_nat (S (rank s)))) in *.
      assert (K1 : (y * b <= x * b + b)%Q) by nra. assert (K2 : (x * b <= 0)%Q) by nra. assert (K3 : (x * b <= discount * (x * b))%Q) by nra. rewrite <- Eb in B1. lra.
    - intros n _. assert (R3 : (0 <= inject_Z (Z.of_nat (S (rank n))))%Q) by (change 0%Q with (inject_Z 0); rewrite <- Zle_Qle; lia). nra.
    - exists (S (M + k + rank start)). intros fuel Hf. unfold learn.
      rewrite (generate_more M fuel _ _ _ _ ltac:(lia) E : generate_states acts stp start fuel = Ok (states, highest)). cbn [bindO].
      destruct (Hk fuel ltac:(lia)) as (V & trained & Ei). rewrite Ei. cbn [bindO]. destruct trained; [|eauto].
      apply (follow_ends acts stp discount candidate edge states (gen_closed _ _ _ E) rank).
      + intros s a Hs. apply HR, H, Hs.
      + destruct (iterate_solved acts stp discount threshold D states ND (gen_closed _ _ _ E) fuel (repeat 0%Q (S highest + extra)) 0%Q None false V true) as (_ & S2 & _); auto.
        * intros s Hs. apply (init_fits _ _ _ _ E), Hs.
        * apply init_super. intros s a Hs Ha. apply HB; [apply H, Hs|exact Ha].
        * apply init_sum.
        * intros s _. apply init_zero.
        * intros s Hs. apply (fits_same acts stp (repeat 0%Q (S highest + extra))); [exact S2|]. apply (init_fits _ _ _ _ E), Hs.
      + apply H. constructor.
      + lia.
  Qed.
End C49_main.

(** *** Examples: from state 0 to 1 or 2, from both to the end; costs are negative rewards *)
Definition ex_acts (s : nat) : list nat := match s with 0 => [2; 3] | 1 => [2] | 2 => [2; 3] | _ => [] end.
Definition ex_stp (s a : nat) : nat * nat * Q * bool :=
  match s, a with
  | 0, 2 => (1, 2, (-1)%Q, false)
  | 0, _ => (2, 3, (-3)%Q, false)
  | 1, _ => (3, 2, (-7)%Q, true)
  | 2, 2 => (4, 2, (-4)%Q, true)
  | _, _ => (1, 3, (-2)%Q, false)
  end.
Definition ex_edge (a : nat) : Z := (Z.of_nat a - 2)%Z.
Definition ex_cand (s : nat) : nat := match s with 0 => 0 | 1 | 2 => 1 | _ => 2 end.
(** the cheaper way is by state 2: costs 3 + 4 instead of 1 + 7; note that state 2 is evaluated before its successor 1 *)
Example C49_ex_learn : learn ex_acts ex_stp 0 1 (1 # 1000) ex_cand ex_edge 10 0 = Ok ([(0, 1); (1, 0)], [-3; -4]%Q).
Proof. vm_compute. reflexivity. Qed.
Example C49_ex_states : generate_states ex_acts ex_stp 0 10 = Ok ([0; 1; 2], 4).
Proof. vm_compute. reflexivity. Qed.
Example C49_ex_reached : forall s, reached ex_acts ex_stp 0 s -> s < 5.
Proof. intros s R. apply (C49_states _ _ _ _ _ _ C49_ex_states) in R. cbn in R. lia. Qed.
Example C49_ex_rewards : forall s a, reached ex_acts ex_stp 0 s -> In a (ex_acts s) -> (- 10 <= gain ex_stp s a <= 0)%Q.
Proof. intros s a _ _. unfold gain, ex_stp. destruct s as [|[|[|s]]], a as [|[|[|a]]]; cbn; lra. Qed.
Example C49_ex_rank : forall s a, reached ex_acts ex_stp 0 s -> In a (ex_acts s) -> final ex_stp s a = false ->
  (fun s => match s with 0 => 2 | 2 => 1 | _ => 0 end) (next ex_stp s a) < (fun s => match s with 0 => 2 | 2 => 1 | _ => 0 end) s.
Proof.
  intros s a R Ha. apply (C49_states _ _ _ _ _ _ C49_ex_states) in R. cbn in R. destruct R as [<-|[<-|[<-|[]]]]; cbn in Ha.
  - destruct Ha as [<-|[<-|[]]]; cbn; lia.
  - destruct Ha as [<-|[]]; cbn; discriminate.
  - destruct Ha as [<-|[<-|[]]]; cbn; [discriminate|lia].
Qed.
Example C49_ex_walk : walk ex_acts ex_stp 0 [(0, 2); (1, 2)].
Proof. apply walk_on; [cbn; auto|reflexivity|]. apply walk_end; [cbn; auto|reflexivity]. Qed.

(** Rewards of both signs may cancel in the sum by which the sweeps are stopped: here after the first sweep, though the value of
    state 2 is off by 1 and the walk taken is worse than another one by a half. *)
Definition bad_stp (s a : nat) : nat * nat * Q * bool :=
  match s, a with
  | 0, 2 => (1, 2, (-2)%Q, false)
  | 0, _ => (2, 3, (-3 # 2)%Q, false)
  | 1, _ => (3, 2, 1%Q, true)
  | _, _ => (1, 2, 0%Q, false)
  end.
Definition bad_acts (s : nat) : list nat := match s with 0 => [2; 3] | 1 => [2] | 2 => [2] | _ => [] end.
Theorem C49_cancel_refuted : exists p rs w,
  learn bad_acts bad_stp 0 1 (1 # 1000) ex_cand ex_edge 10 0 = Ok (p, rs) /\ walk bad_acts bad_stp 0 w
  /\ (return_of 1 rs + (1 # 2) == return_of 1 (gains bad_stp w))%Q.
Proof.
  eexists _, _, [(0, 3); (2, 2); (1, 2)]. split; [vm_compute; reflexivity|]. split.
  - apply walk_on; [cbn; auto|reflexivity|]. apply walk_on; [cbn; auto|reflexivity|]. apply walk_end; [cbn; auto|reflexivity].
  - vm_compute. reflexivity.
Qed.

(** Without discount, a state that can only be left for itself at a cost keeps the sweeps from ending. *)
Definition loop_acts (s : nat) : list nat := [2].
Definition loop_stp (s a : nat) : nat * nat * Q * bool := (s, 2, (-1)%Q, false).
Theorem C49_loop_refuted : forall fuel, learn loop_acts loop_stp 0 1 (1 # 1000) ex_cand ex_edge fuel 0 = Fuel.
Proof.
  assert (I : forall fuel x v delta t, (v == x)%Q -> (delta = None \/ exists d, delta = Some d /\ (d == 1)%Q) ->
    iterate loop_acts loop_stp 1 (1 # 1000) fuel [0] [x] v delta t = Fuel).
  { induction fuel as [|f IH]; intros x v delta t Hv Hd; cbn [iterate].
    - destruct Hd as [->|(d & -> & Hd)]; cbn; [reflexivity|]. replace (Qle_bool d (1 # 1000)) with false; [reflexivity|].
      symmetry. destruct (Qle_bool d (1 # 1000)) eqn:E; [|reflexivity]. apply Qle_bool_iff in E. rewrite Hd in E. exfalso. revert E. vm_compute. auto.
    - assert (G : go_on (1 # 1000) delta = true).
      { destruct Hd as [->|(d & -> & Hd)]; cbn; [reflexivity|]. destruct (Qle_bool d (1 # 1000)) eqn:E; [|reflexivity]. apply Qle_bool_iff in E. rewrite Hd in E. exfalso. revert E. vm_compute. auto. }
      rewrite G. change (sweep loop_acts loop_stp 1 (rev [0]) [x] 0 t) with (@Ok (list Q * Q * bool) ([(-1 + 1 * x)%Q], (0 + (-1 + 1 * x))%Q, true)). cbn [bindO].
      assert (A : (Qabs (0 + (-1 + 1 * x) - v) == 1)%Q).
      { setoid_replace (0 + (-1 + 1 * x) - v)%Q with (-1)%Q by (rewrite Hv; ring). reflexivity. }
      apply IH; [ring|]. destruct (less _ delta) eqn:Ls; [right; eauto|]. destruct Hd as [->|(d & -> & Hd)]; [discriminate|right; eauto]. }
  intros [|fuel]; [reflexivity|]. unfold learn. assert (E : generate_states loop_acts loop_stp 0 (S fuel) = Ok ([0], 0)) by (destruct fuel; reflexivity). rewrite E. cbn [bindO].
  change (repeat 0%Q (1 + 0)) with [0%Q]. rewrite I; [reflexivity|reflexivity|auto].
Qed.

(** A loop without cost keeps the walk from ending, although the sweeps stop. *)
Definition free_acts (s : nat) : list nat := [2; 3].
Definition free_stp (s a : nat) : nat * nat * Q * bool := match a with 2 => (s, 2, 0%Q, false) | _ => (s, 3, (-1)%Q, true) end.
Theorem C49_free_loop_refuted : forall fuel, learn free_acts free_stp 0 1 (1 # 1000) ex_cand ex_edge fuel 0 = Fuel.
Proof.
  assert (I : forall fuel p rs, follow free_acts free_stp 1 ex_cand ex_edge fuel [(0 + 1 * 0)%Q] 0 p rs = Fuel).
  { induction fuel as [|f IH]; intros p rs; cbn [follow]; [reflexivity|]. change (free_acts 0) with [2; 3]. cbn match.
    change (best free_stp 1 [(0 + 1 * 0)%Q] 0 [2; 3] None) with (@Ok (option (nat * Q)) (Some (2, (0 + 1 * (0 + 1 * 0))%Q))). cbn [bindO]. cbn match. apply IH. }
  intros [|fuel]; [reflexivity|]. unfold learn. assert (E : generate_states free_acts free_stp 0 (S fuel) = Ok ([0], 0)) by (destruct fuel; reflexivity). rewrite E. cbn [bindO].
  assert (Ei : iterate free_acts free_stp 1 (1 # 1000) (S fuel) [0] (repeat 0%Q (1 + 0)) 0 None false = Ok ([(0 + 1 * 0)%Q], true)) by (destruct fuel; reflexivity).
  rewrite Ei. cbn [bindO]. apply I.
Qed.

Print Assumptions C49_states.
Print Assumptions C49_finite.
Print Assumptions C49_bellman.
Print Assumptions C49_greedy.
Print Assumptions C49_near_best.
Print Assumptions C49_ends_discounted.
Print Assumptions C49_ends.
Print Assumptions C49_cancel_refuted.
Print Assumptions C49_loop_refuted.
Print Assumptions C49_free_loop_refuted.
