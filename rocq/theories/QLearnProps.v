(** C61: Q-learning. *)
From Coq Require Import Lqa.
From Verif Require Import Base ListAux QLearn ValueProps.

(** the entry of the table for a state and an action *)
Definition entry (T : table) (s a : nat) : option Q := match nth_error T s with Some row => match nth_error row a with Some x => x | None => None end | None => None end.
Definition visited (T : table) (s : nat) : Prop := exists a v, entry T s a = Some v.

(** *** The greatest entry *)
Lemma greatest_spec l : forall i m, let g := greatest l i m in
  (g = m \/ exists k, nth_error l k = Some (snd g) /\ fst g = i + k) /\ below (snd g) (snd m) = false /\ forall k x, nth_error l k = Some x -> below (snd g) x = false.
Proof.
  assert (T : forall a b c, below a b = false -> below b c = false -> below a c = false).
  { intros [a|] [b|] [c|] H1 H2; cbn in *; try congruence. apply negb_false_iff, Qle_bool_iff in H1. apply negb_false_iff, Qle_bool_iff in H2. apply negb_false_iff, Qle_bool_iff. lra. }
  assert (R : forall a, below a a = false). { intros [a|]; cbn; [|reflexivity]. apply negb_false_iff, Qle_bool_iff, Qle_refl. }
  assert (A : forall a b, below a b = true -> below b a = false).
  { intros [a|] [b|] H; cbn in *; try congruence. apply negb_true_iff in H. apply negb_false_iff, Qle_bool_iff. destruct (Qlt_le_dec a b); [lra|]. apply Qle_bool_iff in q. congruence. }
  induction l as [|x l IH]; intros i m; cbn zeta; cbn [greatest].
  - split; [auto|]. split; [apply R|]. intros [|k]; discriminate.
  - destruct (IH (S i) (if below (snd m) x then (i, x) else m)) as (A1 & A2 & A3). cbn zeta in *. set (g := greatest l (S i) (if below (snd m) x then (i, x) else m)) in *.
    destruct (below (snd m) x) eqn:B.
    + cbn [snd] in A2. split; [|split].
      * destruct A1 as [->|(k & E1 & E2)]; right; [exists 0|exists (S k)]; cbn [nth_error fst snd]; [split; [reflexivity|lia]|split; [exact E1|lia]].
      * apply (T _ x); [exact A2|apply A, B].
      * intros [|k] y E; [injection E as <-; exact A2|apply (A3 k y E)].
    + split; [|split; [exact A2|]].
      * destruct A1 as [->|(k & E1 & E2)]; [auto|right; exists (S k); cbn; split; [exact E1|lia]].
      * intros [|k] y E; [injection E as <-; apply (T _ (snd m)); assumption|apply (A3 k y E)].
Qed.
Lemma top_some row a v : top row = Some (a, v) -> nth_error row a = Some (Some v) /\ forall b x, nth_error row b = Some (Some x) -> (x <= v)%Q.
Proof.
  unfold top. destruct row as [|x r]; [discriminate|]. destruct (greatest_spec r 1 (0, x)) as (A1 & A2 & A3). cbn zeta in *. destruct (greatest r 1 (0, x)) as [b [y|]]; [|discriminate].
  intros E. injection E as -> ->. cbn [fst snd] in *. split.
  - destruct A1 as [E|(k & E1 & E2)]; [injection E as -> <-; reflexivity|subst a; exact E1].
  - intros [|c] z E; cbn [nth_error] in E.
    + injection E as ->. cbn in A2. apply negb_false_iff, Qle_bool_iff in A2. exact A2.
    + specialize (A3 c (Some z) E). cbn in A3. apply negb_false_iff, Qle_bool_iff in A3. exact A3.
Qed.
Lemma top_none row : top row = None -> forall b x, nth_error row b <> Some (Some x).
Proof.
  unfold top. destruct row as [|y r]; [intros _ [|b]; discriminate|]. destruct (greatest_spec r 1 (0, y)) as (A1 & A2 & A3). cbn zeta in *. destruct (greatest r 1 (0, y)) as [b [v|]]; [discriminate|].
  intros _ [|c] x E; cbn [nth_error] in E; cbn [snd] in *.
  - injection E as ->. discriminate.
  - specialize (A3 c _ E). discriminate.
Qed.

Lemma write_ok {X : Type} (l : list X) : forall i x, i < length l -> exists l', write l i x = Some l' /\ length l' = length l /\ nth_error l' i = Some x /\ forall j, j <> i -> nth_error l' j = nth_error l j.
Proof.
  induction l as [|y l IH]; intros i x H; cbn in H; [lia|]. destruct i as [|i].
  - exists (x :: l). cbn. split; [reflexivity|]. split; [reflexivity|]. split; [reflexivity|]. intros [|j] Hj; [contradiction|reflexivity].
  - destruct (IH i x) as (l' & E & L & G & O); [lia|]. exists (y :: l'). cbn [write]. rewrite E. split; [reflexivity|]. split; [cbn; lia|]. split; [exact G|].
    intros [|j] Hj; [reflexivity|]. apply O. lia.
Qed.

Lemma entry_app T n s a : entry (T ++ repeat [] n) s a = entry T s a.
Proof.
  unfold entry. destruct (Nat.lt_ge_cases s (length T)) as [H|H]; [rewrite nth_error_app1 by exact H; reflexivity|].
  rewrite nth_error_app2 by exact H. rewrite (proj2 (nth_error_None T s) H). destruct (nth_error (repeat [] n) (s - length T)) as [row|] eqn:E; [|reflexivity].
  apply nth_error_In, repeat_spec in E. subst row. destruct a; reflexivity.
Qed.
Lemma grow_ok fuel : forall T s, s < fuel + length T -> exists T', grow fuel T s = Ok T' /\ s < length T' /\ forall t a, entry T' t a = entry T t a.
Proof.
  induction fuel as [|f IH]; intros T s H; cbn [grow]; destruct (Nat.ltb_spec s (length T)) as [Hs|Hs]; try (exists T; auto; fail); [lia|].
  destruct (IH (T ++ repeat [] match length T with 0 => 16 | n => n end) s) as (T' & E & L & A).
  - rewrite app_length, repeat_length. destruct (length T) as [|k] eqn:El; lia.
  - exists T'. split; [exact E|]. split; [exact L|]. intros t a. rewrite A. apply entry_app.
Qed.

Section C61.
  Variable acts : nat -> list nat.
  Variable stp : nat -> nat -> nat * nat * Q * bool.
  Variable start : nat.
  Variable candidate : nat -> nat.
  Variable edge : nat -> Z.
  Variable rate discount : Q.
  Variable special : nat.
  Variable explore : nat -> bool.
  Variable pick : nat -> nat.
  Variable late : nat -> bool.
  Variable improvement_stop max_steps : nat.
  Notation next := (next stp).
  Notation gain := (gain stp).
  Notation final := (final stp).
  Notation taken := (taken stp).
  Notation reached := (reached acts stp start).

  (** *** Single steps *)
  Lemma entry_row T s row a : nth_error T s = Some row -> entry T s a = match nth_error row a with Some x => x | None => None end.
  Proof. intros E. unfold entry. rewrite E. reflexivity. Qed.
  Lemma entry_set T s row T' : nth_error T' s = Some row -> (forall t, t <> s -> nth_error T' t = nth_error T t) ->
    forall t b, entry T' t b = if t =? s then match nth_error row b with Some x => x | None => None end else entry T t b.
  Proof.
    intros E O t b. destruct (Nat.eqb_spec t s) as [->|N]; [apply entry_row, E|]. unfold entry. rewrite (O t N). reflexivity.
  Qed.
  Lemma nth_repeat_none k b : match nth_error (repeat (@None Q) k) b with Some x => x | None => None end = None.
  Proof. destruct (nth_error (repeat None k) b) as [x|] eqn:E; [|reflexivity]. apply nth_error_In, repeat_spec in E. exact E. Qed.

  Lemma random_ok T s n : s < length T -> acts s <> [] -> exists T' a, random_action acts special pick T s n = Ok (T', a) /\ length T' = length T
    /\ (forall t b, entry T' t b = entry T t b) /\ In a (acts s).
  Proof.
    intros L N. unfold random_action. destruct (nth_error T s) as [row|] eqn:E; [|apply nth_error_None in E; lia]. cbn [derefO].
    assert (P : Nat.min (length (acts s) - 1) (pick n) < length (acts s)) by (destruct (acts s); [contradiction|cbn [length]; lia]).
    apply nth_error_Some in P. destruct (nth_error (acts s) (Nat.min (length (acts s) - 1) (pick n))) as [a|] eqn:Ea; [|contradiction]. clear P. apply nth_error_In in Ea.
    destruct row as [|x row].
    - destruct (write_ok T s (repeat None (length (acts s) + special)) L) as (T' & E1 & L1 & G1 & O1). rewrite E1. cbn [derefO]. exists T', a. split; [reflexivity|]. split; [exact L1|]. split; [|exact Ea].
      intros t b. rewrite (entry_set T s _ T' G1 O1). destruct (Nat.eqb_spec t s) as [->|Nt]; [|reflexivity]. rewrite nth_repeat_none, (entry_row T s [] b E). destruct b; reflexivity.
    - cbn [derefO]. exists T, a. auto.
  Qed.
  (** only actions offered in states reached have entries *)
  Definition sound (T : table) : Prop := forall s a v, entry T s a = Some v -> reached s /\ In a (acts s).
  Lemma choose_ok T s n : s < length T -> acts s <> [] -> sound T -> exists T' a, choose acts special explore pick T s n = Ok (T', a) /\ length T' = length T
    /\ (forall t b, entry T' t b = entry T t b) /\ In a (acts s).
  Proof.
    intros L N HS. unfold choose. destruct (explore n); [apply random_ok; assumption|]. destruct (nth_error T s) as [row|] eqn:E; [|apply nth_error_None in E; lia]. cbn [derefO].
    destruct (top row) as [[a v]|] eqn:Et; [|apply random_ok; assumption]. exists T, a. split; [reflexivity|]. split; [reflexivity|]. split; [reflexivity|].
    apply top_some in Et. destruct Et as [Et _]. apply (HS s a v). rewrite (entry_row T s row a E), Et. reflexivity.
  Qed.

  Lemma pad_spec row a : a < length (pad row a) /\ forall b, match nth_error (pad row a) b with Some x => x | None => None end = match nth_error row b with Some x => x | None => None end.
  Proof.
    unfold pad. split; [rewrite app_length, repeat_length; lia|]. intros b. destruct (Nat.lt_ge_cases b (length row)) as [H|H].
    - rewrite nth_error_app1 by exact H. reflexivity.
    - rewrite nth_error_app2 by exact H. rewrite nth_repeat_none, (proj2 (nth_error_None row b) H). reflexivity.
  Qed.
  (** the greatest value of a state, 0 if it has none *)
  Definition peak (T : table) (s : nat) (x : Q) : Prop := (exists a, entry T s a = Some x /\ forall b y, entry T s b = Some y -> (y <= x)%Q) \/ (~ visited T s /\ x = 0%Q).
  Lemma next_value_peak T s : peak T s (next_value T s).
  Proof.
    unfold next_value. destruct (nth_error T s) as [row|] eqn:E.
    - destruct (top row) as [[a v]|] eqn:Et.
      + apply top_some in Et. destruct Et as [E1 E2]. left. exists a. rewrite (entry_row T s row a E), E1. split; [reflexivity|]. intros b y Hb. rewrite (entry_row T s row b E) in Hb.
        apply (E2 b). destruct (nth_error row b) as [x|]; [subst x; reflexivity|discriminate].
      + right. split; [|reflexivity]. intros (a & v & Ha). rewrite (entry_row T s row a E) in Ha. apply (top_none row Et a v). destruct (nth_error row a) as [x|]; [subst x; reflexivity|discriminate].
    - right. split; [|reflexivity]. intros (a & v & Ha). unfold entry in Ha. rewrite E in Ha. discriminate.
  Qed.
  Lemma peak_ext T T' s x : (forall b, entry T' s b = entry T s b) -> peak T' s x -> peak T s x.
  Proof.
    intros H [(a & E & M)|[N ->]]; [left; exists a; rewrite <- H; split; [exact E|]; intros b y Hb; rewrite <- H in Hb; apply (M b y Hb)|right; split; [|reflexivity]].
    intros (a & v & Hv). apply N. exists a, v. rewrite H. exact Hv.
  Qed.
  Lemma renew_ok T s a : s < length T -> exists T' p, renew stp rate discount T s a = Ok T' /\ length T' = length T
    /\ peak T (next s a) p /\ entry T' s a = Some (new_entry rate discount (entry T s a) (gain s a) p) /\ forall t b, t <> s \/ b <> a -> entry T' t b = entry T t b.
  Proof.
    intros L. unfold renew. rewrite (stp_eq stp s a). destruct (nth_error T s) as [row|] eqn:E; [|apply nth_error_None in E; lia]. cbn [derefO].
    destruct (pad_spec row a) as [Hp P]. destruct (write_ok T s (pad row a) L) as (T1 & E1 & L1 & G1 & O1). rewrite E1. cbn [derefO].
    assert (A1 : forall t b, entry T1 t b = entry T t b). { intros t b. rewrite (entry_set T s _ T1 G1 O1). destruct (Nat.eqb_spec t s) as [->|Nt]; [|reflexivity]. rewrite P, (entry_row T s row b E). reflexivity. }
    pose proof (P a) as Pa. pose proof Hp as Hp'. apply nth_error_Some in Hp'. destruct (nth_error (pad row a) a) as [cur|] eqn:Ec; [|contradiction]. cbn [derefO]. set (q := next_value T1 (next s a)).
    destruct (write_ok (pad row a) a (Some (new_entry rate discount cur (gain s a) q)) Hp) as (row2 & E2 & L2 & G2 & O2). rewrite E2. cbn [derefO].
    destruct (write_ok T1 s row2) as (T2 & E3 & L3 & G3 & O3); [lia|]. rewrite E3. cbn [derefO]. exists T2, q. split; [reflexivity|]. split; [lia|]. split.
    - apply (peak_ext T T1); [intros b; apply A1|apply next_value_peak].
    - split.
      + rewrite (entry_row T2 s row2 a G3), G2. f_equal. rewrite (entry_row T s row a E). rewrite <- Pa. reflexivity.
      + intros t b H. rewrite (entry_set T1 s row2 T2 G3 O3). destruct (Nat.eqb_spec t s) as [->|Nt]; [|apply A1]. destruct H as [H|H]; [contradiction|]. rewrite (O2 b H), P, (entry_row T s row b E). reflexivity.
  Qed.

  (** What a step learns: the entry of its state and action only changes, and what it was before does not matter. *)
  Theorem C61_update T s a : s < length T -> exists T' p v, renew stp rate discount T s a = Ok T' /\ peak T (next s a) p
    /\ entry T' s a = Some v /\ (v == rate * (gain s a + discount * p))%Q /\ forall t b, t <> s \/ b <> a -> entry T' t b = entry T t b.
  Proof.
    intros L. destruct (renew_ok T s a L) as (T' & p & E & _ & P & X & O). exists T', p. eexists. split; [exact E|]. split; [exact P|]. split; [exact X|]. split; [|exact O].
    unfold new_entry. ring.
  Qed.

  (** *** Episodes *)
  Hypothesis offered : forall s, reached s -> acts s <> [].

  (** steps that do not end *)
  Inductive path : nat -> list (nat * nat) -> nat -> Prop :=
  | path_nil s : path s [] s
  | path_snoc s w t a : path s w t -> In a (acts t) -> final t a = false -> path s (w ++ [(t, a)]) (next t a).
  Lemma path_reached w t : path start w t -> reached t.
  Proof. clear offered. intros H. remember start as s0 eqn:E. induction H as [s|s w t a H IH Ha F]; subst; [constructor|]. apply reached_next; auto. Qed.
  Lemma path_walk s w t v : path s w t -> walk acts stp t v -> walk acts stp s (w ++ v).
  Proof.
    clear offered. intros H. revert v. induction H as [s|s w t a H IH Ha F]; intros v W; [exact W|]. rewrite <- app_assoc. apply IH. cbn [app]. apply walk_on; auto.
  Qed.
  (** no steps without end *)
  Definition short : Prop := forall w t, path start w t -> length w < max_steps.
  (** steps tried lead to visited states, perhaps except [o] *)
  Definition closed (T : table) (o : option nat) : Prop := forall s a v, entry T s a = Some v -> final s a = false -> visited T (next s a) \/ o = Some (next s a).

  Lemma steps_ok : forall left T s n score w, path start w s -> sound T ->
    exists T' n' score', steps acts stp rate discount special explore pick left T s n score = Ok (T', n', score') /\ sound T'
      /\ ((forall w' t, path start w' t -> length w' < length w + left) -> closed T (Some s) -> closed T' None /\ (visited T' s))
      /\ (forall t, visited T t -> visited T' t).
  Proof.
    induction left as [|k IH]; intros T s n score w W HS.
    - exists T, n, score. split; [reflexivity|]. split; [exact HS|]. split; [|auto]. intros H. specialize (H w s W). lia.
    - pose proof (path_reached w s W) as R. cbn [steps]. destruct (grow_ok (S s) T s) as (T0 & E0 & L0 & A0); [lia|]. rewrite E0. cbn [bindO].
      assert (HS0 : sound T0) by (intros t a v Hv; rewrite A0 in Hv; apply (HS t a v Hv)).
      destruct (choose_ok T0 s n L0 (offered s R) HS0) as (T1 & a & E1 & L1 & A1 & Ha). rewrite E1. cbn [bindO]. rewrite (stp_eq stp s a).
      destruct (renew_ok T1 s a) as (T2 & p & E2 & L2 & _ & X2 & O2); [lia|]. rewrite E2. cbn [bindO].
      assert (HS2 : sound T2).
      { intros t b v Hv. destruct (Nat.eq_dec t s) as [->|Nt]; [destruct (Nat.eq_dec b a) as [->|Nb]; [auto|]|]; (rewrite O2, A1 in Hv by auto; apply (HS0 _ _ _ Hv)). }
      assert (V2 : forall t, visited T t -> visited T2 t).
      { intros t (b & v & Hv). destruct (Nat.eq_dec t s) as [->|Nt]; [exists a; eexists; exact X2|]. exists b, v. rewrite O2 by auto. rewrite A1, A0. exact Hv. }
      assert (Vs : visited T2 s) by (exists a; eexists; exact X2).
      assert (C2 : closed T (Some s) -> forall t b v, entry T2 t b = Some v -> final t b = false -> visited T2 (next t b) \/ (t = s /\ b = a)).
      { intros C t b v Hv F. destruct (Nat.eq_dec t s) as [->|Nt]; [destruct (Nat.eq_dec b a) as [->|Nb]; [auto|]|]; left; rewrite O2, A1, A0 in Hv by auto;
        (destruct (C _ _ _ Hv F) as [H|H]; [apply V2, H|injection H as <-; exact Vs]). }
      destruct (final s a) eqn:F.
      + exists T2, (S n), (score + gain s a)%Q. split; [reflexivity|]. split; [exact HS2|]. split; [|exact V2]. intros _ C. split; [|exact Vs].
        intros t b v Hv Fb. left. destruct (C2 C t b v Hv Fb) as [H|[-> ->]]; [exact H|congruence].
      + destruct (IH T2 (next s a) (S n) (score + gain s a)%Q (w ++ [(s, a)])) as (T' & n' & sc' & E & S' & C' & V'); [apply path_snoc; assumption|exact HS2|].
        exists T', n', sc'. split; [exact E|]. split; [exact S'|]. split; [|intros t Ht; apply V', V2, Ht]. intros H C. split; [|apply V', Vs].
        apply C'.
        * intros w' t H'. specialize (H w' t H'). rewrite app_length. cbn [length]. lia.
        * intros t b v Hv Fb. destruct (C2 C t b v Hv Fb) as [X|[-> ->]]; auto.
  Qed.

  (** *** Extraction *)
  (** each action of the walk has the greatest entry of its state *)
  Definition tops (T : table) (w : list (nat * nat)) : Prop := Forall (fun '(s, a) => exists v, entry T s a = Some v /\ forall b y, entry T s b = Some y -> (y <= v)%Q) w.
  Definition total (l : list Q) : Q := fold_left Qplus l 0%Q.
  Lemma extract_ok T : sound T -> forall left s w policy score p sc, path start w s ->
    extract stp candidate edge left T s policy score = (p, sc) ->
    exists v, p = policy ++ entries stp candidate edge (hd_error (rev policy)) v /\ tops T v
      /\ (walk acts stp s v \/ exists t, path start (w ++ v) t /\ (~ visited T t \/ length v = left))
      /\ (sc = None \/ sc = Some (fold_left Qplus (gains stp v) score)) /\ (closed T None -> visited T s -> sc <> None).
  Proof.
    intros HS. induction left as [|k IH]; intros s w policy score p sc W E; cbn [extract] in E.
    - injection E as <- <-. exists []. cbn. rewrite !app_nil_r. split; [reflexivity|]. split; [constructor|]. split; [right; exists s; auto|]. split; [auto|discriminate].
    - assert (Stop : ~ visited T s -> p = policy -> sc = None -> exists v, p = policy ++ entries stp candidate edge (hd_error (rev policy)) v /\ tops T v
        /\ (walk acts stp s v \/ exists t, path start (w ++ v) t /\ (~ visited T t \/ length v = S k)) /\ (sc = None \/ sc = Some (fold_left Qplus (gains stp v) score)) /\ (closed T None -> visited T s -> sc <> None)).
      { intros N -> ->. exists []. cbn. rewrite !app_nil_r. split; [reflexivity|]. split; [constructor|]. split; [right; exists s; auto|]. split; [auto|]. intros _ V. contradiction. }
      destruct (nth_error T s) as [row|] eqn:Er.
      2: { injection E as <- <-. apply Stop; auto. intros (a & v & H). unfold entry in H. rewrite Er in H. discriminate. }
      destruct (top row) as [[a x]|] eqn:Et.
      2: { injection E as <- <-. apply Stop; auto. intros (a & v & H). rewrite (entry_row T s row a Er) in H. apply (top_none row Et a v). destruct (nth_error row a) as [y|]; [subst y; reflexivity|discriminate]. }
      apply top_some in Et. destruct Et as [E1 E2]. assert (Ex : entry T s a = Some x) by (rewrite (entry_row T s row a Er), E1; reflexivity).
      destruct (HS s a x Ex) as [R Ha].
      assert (Tp : exists v, entry T s a = Some v /\ forall b y, entry T s b = Some y -> (y <= v)%Q).
      { exists x. split; [exact Ex|]. intros b y Hb. rewrite (entry_row T s row b Er) in Hb. apply (E2 b). destruct (nth_error row b) as [z|]; [subst z; reflexivity|discriminate]. }
      rewrite (stp_eq stp s a) in E. pose proof (extend_entries stp candidate edge policy s a) as XE. cbn zeta in XE. destruct (final s a) eqn:F.
      + injection E as <- <-. exists [(s, a)]. split; [specialize (XE []); cbn [entries] in XE; rewrite app_nil_r in XE; exact XE|]. split; [constructor; [exact Tp|constructor]|]. split; [left; constructor; auto|]. split; [auto|discriminate].
      + destruct (IH (next s a) (w ++ [(s, a)]) _ _ p sc (path_snoc start w s a W Ha F) E) as (v & Ep & Tv & Wv & Sv & Cv).
        exists ((s, a) :: v). split; [rewrite Ep; apply XE|]. split; [constructor; [exact Tp|exact Tv]|]. split; [|split; [exact Sv|]].
        * destruct Wv as [Wv|(t & Wt & Lt)]; [left; apply walk_on; auto|right; exists t]. rewrite <- app_assoc in Wt. split; [exact Wt|]. destruct Lt as [Lt|Lt]; [auto|right; cbn [length]; lia].
        * intros C V. apply Cv; [exact C|]. destruct (C s a x Ex F) as [H|H]; [exact H|discriminate].
  Qed.

  (** What is extracted from a table of tried actions: a walk of greatest entries; it reaches the end if the steps tried lead to
      visited states and the steps suffice. *)
  Theorem C61_extract T p sc : sound T -> extract stp candidate edge max_steps T start [] 0 = (p, sc) ->
    exists v, p = entries stp candidate edge None v /\ tops T v /\ (walk acts stp start v \/ exists t, path start v t /\ (~ visited T t \/ length v = max_steps))
      /\ (short -> closed T None -> visited T start -> walk acts stp start v /\ sc = Some (total (gains stp v))).
  Proof.
    intros HS E. destruct (extract_ok T HS max_steps start [] [] 0 p sc (path_nil start) E) as (v & Ep & Tv & Wv & Sv & Cv).
    exists v. split; [exact Ep|]. split; [exact Tv|]. cbn [app] in Wv. split; [exact Wv|]. intros Sh C V. specialize (Cv C V).
    destruct Sv as [-> | ->]; [contradiction|]. split; [|reflexivity]. destruct Wv as [Wv|(t & Wt & [Nt|Lt])]; [exact Wv| |specialize (Sh v t Wt); lia].
    exfalso. apply Nt. clear - C V Wt Tv HS. remember start as s0 eqn:E0. assert (K : visited T t). { induction Wt as [s|s w t a H IH Ha F]; [exact V|].
      apply Forall_app in Tv. destruct Tv as [Tv1 Tv2]. apply Forall_inv in Tv2. destruct Tv2 as (x & Ex & _). destruct (C t a x Ex F) as [K|K]; [exact K|discriminate]. } exact K.
  Qed.

  (** *** The whole *)
  Definition good (p : list (nat * nat)) : Prop := p = [] \/ exists v, p = entries stp candidate edge None v /\ (walk acts stp start v \/ exists t, path start v t) /\ (short -> walk acts stp start v).
  Lemma episodes_ok : forall left e T n best worse policy, sound T -> (short -> closed T None) -> good policy ->
    exists p T', episodes acts stp start candidate edge rate discount special explore pick late improvement_stop max_steps left e T n best worse policy = Ok (p, T')
      /\ sound T' /\ (short -> closed T' None) /\ good p.
  Proof.
    induction left as [|k IH]; intros e T n best worse policy HS HC HG; cbn [episodes]; [exists policy, T; auto|].
    destruct (steps_ok max_steps T start n 0 [] (path_nil start) HS) as (T1 & n1 & sc & E1 & S1 & C1 & _). rewrite E1. cbn [bindO].
    assert (C1' : short -> closed T1 None /\ visited T1 start).
    { intros Sh. apply C1; [exact Sh|]. intros s a v Hv F. left. destruct (HC Sh s a v Hv F) as [H|H]; [exact H|discriminate]. }
    destruct (if below best (Some sc) then (Some sc, 0) else (best, S worse)) as [best1 worse1].
    destruct ((improvement_stop <=? worse1) || late e); [|apply IH; [exact S1|intros Sh; apply C1', Sh|exact HG]].
    destruct (extract stp candidate edge max_steps T1 start [] 0) as [p1 sc1] eqn:Ex.
    assert (G1 : good p1).
    { destruct (C61_extract T1 p1 sc1 S1 Ex) as (v & Ep & _ & Wv & Cv). right. exists v. split; [exact Ep|]. split; [|intros Sh; destruct (C1' Sh); apply Cv; auto].
      destruct Wv as [Wv|(t & Wt & _)]; [auto|right; exists t; exact Wt]. }
    destruct (below best1 sc1); [apply IH; [exact S1|intros Sh; apply C1', Sh|exact G1]|].
    destruct ((improvement_stop <=? match sc1 with None => 0 | Some _ => worse1 end) || late e); [|apply IH; [exact S1|intros Sh; apply C1', Sh|exact G1]].
    exists p1, T1. split; [reflexivity|]. split; [exact S1|]. split; [intros Sh; apply C1', Sh|exact G1].
  Qed.
  (** Learning ends, with all accesses in range, whatever the random numbers and the time; only actions offered are tried. The policy is
      empty or that of steps of the environment, and these reach the end if no walk is longer than the limit. *)
  Theorem C61_runs count : exists p T, qlearn acts stp start candidate edge rate discount special explore pick late improvement_stop max_steps count = Ok (p, T)
    /\ sound T /\ (short -> closed T None) /\ good p.
  Proof.
    unfold qlearn. assert (E : forall s a, entry [] s a = None) by (intros [|s] a; reflexivity).
    assert (S0 : sound []) by (intros s a v Hv; rewrite E in Hv; discriminate). assert (C0 : closed [] None) by (intros s a v Hv; rewrite E in Hv; discriminate).
    destruct (late 0); [exists [], []; split; [reflexivity|]; split; [exact S0|]; split; [auto|left; reflexivity]|].
    apply episodes_ok; [exact S0|auto|left; reflexivity].
  Qed.

  (** A policy is found in the middle of the learning only: after as many episodes as may go by without an improvement, no
      matter how good they are (while there is time left). *)
  Theorem C61_patience count p T : (forall e, late e = false) -> count <= improvement_stop ->
    qlearn acts stp start candidate edge rate discount special explore pick late improvement_stop max_steps count = Ok (p, T) -> p = [].
  Proof.
    intros Hl Hc. unfold qlearn. rewrite Hl.
    assert (K : forall left e T n best worse p T', worse + left < improvement_stop \/ best = None /\ left <= improvement_stop ->
              episodes acts stp start candidate edge rate discount special explore pick late improvement_stop max_steps left e T n best worse [] = Ok (p, T') -> p = []).
    { clear p T Hc. induction left as [|k IH]; intros e T n best worse p T' Hw E; cbn [episodes] in E; [congruence|].
      destruct (steps acts stp rate discount special explore pick max_steps T start n 0) as [[[T1 n1] score]|x| |] eqn:Es; cbn [bindO] in E; try discriminate. rewrite Hl in E.
      destruct (below best (Some score)) eqn:B.
      - destruct (improvement_stop <=? 0) eqn:Q; [apply Nat.leb_le in Q; lia|]. cbn [orb] in E. refine (IH _ _ _ _ _ _ _ _ E). left. apply Nat.leb_gt in Q. destruct Hw as [Hw|[_ Hw]]; lia.
      - destruct Hw as [Hw|[-> _]]; [|discriminate]. destruct (improvement_stop <=? S worse) eqn:Q; [apply Nat.leb_le in Q; lia|]. cbn [orb] in E.
        refine (IH _ _ _ _ _ _ _ _ E). left. lia. }
    apply K. right. auto.
  Qed.

  (** *** What is learned *)
  (** no step changes an entry any more, and all actions have been tried *)
  Definition settled (T : table) : Prop := forall s a, reached s -> In a (acts s) -> exists v p, entry T s a = Some v /\ peak T (next s a) p /\ (v == rate * (gain s a + discount * p))%Q.

  Lemma peak_same T s x y : peak T s x -> peak T s y -> (x == y)%Q.
  Proof.
    intros [(a & Ea & Ma)|[N ->]] [(b & Eb & Mb)|[N' ->]]; try reflexivity.
    - specialize (Ma _ _ Eb). specialize (Mb _ _ Ea). lra.
    - exfalso. apply N'. exists a, x. exact Ea.
    - exfalso. apply N. exists b, y. exact Eb.
  Qed.
  Lemma peak_top T s x a v : peak T s x -> entry T s a = Some v -> (v <= x)%Q.
  Proof. intros [(b & Eb & Mb)|[N ->]] E; [apply (Mb a v E)|exfalso; apply N; exists a, v; exact E]. Qed.

  Hypothesis ends : forall s a, reached s -> In a (acts s) -> final s a = true -> ~ reached (next s a).
  Lemma final_peak T s a p : sound T -> reached s -> In a (acts s) -> final s a = true -> peak T (next s a) p -> p = 0%Q.
  Proof. intros HS R Ha F [(b & Eb & _)|[_ ->]]; [|reflexivity]. exfalso. apply (ends s a R Ha F). apply (HS _ _ _ Eb). Qed.

  Lemma settled_upper T : sound T -> settled T -> (0 < rate)%Q -> (0 <= discount)%Q -> forall w s x, reached s -> walk acts stp s w -> peak T s x -> (rate * return_of (rate * discount) (gains stp w) <= x)%Q.
  Proof.
    intros HS HT Rt D. induction w as [|[t b] w IH]; intros s x R W P.
    - inversion W as [s' Ea| |]; subst. exfalso. apply (offered s R Ea).
    - cbn [gains map return_of fold_right]. change (fold_right _ 0%Q (map _ w)) with (return_of (rate * discount) (gains stp w)). inversion W as [|s' a' Ha F|s' a' w' Ha F W']; subst;
        destruct (HT _ _ R Ha) as (v & p & Ev & Pv & Vv); pose proof (peak_top _ _ _ _ _ P Ev) as K.
      + rewrite (final_peak T _ _ p HS R Ha F Pv) in Vv. cbn. rewrite Vv in K. lra.
      + pose proof (IH _ p (reached_next _ _ _ _ _ R Ha F) W' Pv) as I. rewrite Vv in K. set (q := return_of (rate * discount) (gains stp w)) in *.
        assert (rate * (discount * (rate * q)) <= rate * (discount * p))%Q by (assert (discount * (rate * q) <= discount * p)%Q by nra; nra). nra.
  Qed.
  Lemma settled_tops T : sound T -> settled T -> forall w s x, reached s -> walk acts stp s w -> tops T w -> peak T s x -> (rate * return_of (rate * discount) (gains stp w) == x)%Q.
  Proof.
    intros HS HT. induction w as [|[t b] w IH]; intros s x R W O P.
    - inversion W as [s' Ea| |]; subst. exfalso. apply (offered s R Ea).
    - cbn [gains map return_of fold_right]. change (fold_right _ 0%Q (map _ w)) with (return_of (rate * discount) (gains stp w)).
      apply Forall_cons_iff in O. destruct O as [(v & Ev & Mv) O]. inversion W as [|s' a' Ha F|s' a' w' Ha F W']; subst;
        destruct (HT _ _ R Ha) as (v' & p & Ev' & Pv & Vv); rewrite Ev in Ev'; injection Ev' as <-;
        pose proof (peak_same T _ x v P (or_introl (ex_intro _ b (conj Ev Mv)))) as K.
      + rewrite (final_peak T _ _ p HS R Ha F Pv) in Vv. cbn. rewrite K, Vv. ring.
      + pose proof (IH _ p (reached_next _ _ _ _ _ R Ha F) W' O Pv) as I. rewrite K, Vv, <- I. ring.
  Qed.
  (** When learning has settled, the walk of the greatest entries is a best one, but for the discount multiplied by the learning rate
      instead of the discount that is set. *)
  Theorem C61_settled T v w : sound T -> settled T -> (0 < rate)%Q -> (0 <= discount)%Q -> walk acts stp start v -> tops T v -> walk acts stp start w ->
    (return_of (rate * discount) (gains stp w) <= return_of (rate * discount) (gains stp v))%Q.
  Proof.
    intros HS HT Rt D Wv Tv Ww. assert (R : reached start) by constructor. pose proof (next_value_peak T start) as P.
    pose proof (settled_upper T HS HT Rt D w start _ R Ww P) as A. pose proof (settled_tops T HS HT v start _ R Wv Tv P) as B. rewrite <- B in A.
    apply (Qmult_le_l _ _ rate Rt). exact A.
  Qed.
End C61.

(** *** Examples *)
(** two ways: one has the costs first, the other last *)
Definition two_acts (s : nat) : list nat := if s =? 0 then [0; 1] else [0].
Definition two_stp (s a : nat) : nat * nat * Q * bool :=
  match s, a with
  | 0, 0 => (1, 10, (-3)%Q, false)
  | 0, _ => (2, 11, 0%Q, false)
  | 1, _ => (3, 12, 0%Q, true)
  | _, _ => (4, 13, (-5)%Q, true)
  end.
Definition two_pick (n : nat) : nat := (n / 2) mod 2.
Definition two_run := qlearn two_acts two_stp 0 (fun s => s) (fun a => Z.of_nat a) (1 # 2) 1 2 (fun _ => true) two_pick (fun _ => false) 5 4 20.
Lemma two_reached s : reached two_acts two_stp 0 s -> s <= 2.
Proof. intros H. induction H as [|s a H IH Ha F]; [lia|]. destruct s as [|[|[|s]]]; [destruct a as [|a]; cbn; lia|discriminate|discriminate|lia]. Qed.
Example two_offered : forall s, reached two_acts two_stp 0 s -> two_acts s <> [].
Proof. intros s _. unfold two_acts. destruct (s =? 0); discriminate. Qed.
Example two_short : short two_acts two_stp 0 4.
Proof.
  assert (K : forall s w t, path two_acts two_stp s w t -> s = 0 -> length w + match t with 0 => 3 | 1 | 2 => 2 | _ => 3 end <= 3 /\ t <= 2).
  { intros s w t H. induction H as [s|s w t a H IH Ha F]; intros E; [subst; cbn; lia|]. destruct (IH E) as [L Lt]. rewrite app_length. destruct t as [|[|[|t]]]; [destruct a as [|a]; cbn in *; lia|discriminate|discriminate|lia]. }
  intros w t H. destruct (K 0 w t H eq_refl) as [L Lt]. destruct t as [|[|[|t]]]; lia.
Qed.
Example two_result : exists p T, two_run = Ok (p, T) /\ p = [(0, 11); (2, 13)].
Proof. eexists _, _. split; [vm_compute; reflexivity|reflexivity]. Qed.

(** Not the best walk for the discount that is set, although learning has settled: the return -5 is less than -3. *)
Theorem C61_best_refuted : exists acts stp candidate edge rate discount explore pick late stop steps count p T v w,
  (0 < rate <= 1)%Q /\ (0 <= discount <= 1)%Q
  /\ qlearn acts stp 0 candidate edge rate discount 2 explore pick late stop steps count = Ok (p, T)
  /\ settled acts stp 0 rate discount T /\ p = entries stp candidate edge None v /\ walk acts stp 0 v
  /\ walk acts stp 0 w /\ (return_of discount (gains stp v) < return_of discount (gains stp w))%Q.
Proof.
  exists two_acts, two_stp, (fun s => s), (fun a => Z.of_nat a), (1 # 2)%Q, 1%Q, (fun _ => true), two_pick, (fun _ => false), 5, 4, 20.
  eexists _, _. exists [(0, 1); (2, 0)], [(0, 0); (1, 0)]. split; [split; [reflexivity|discriminate]|]. split; [split; discriminate|]. split; [vm_compute; reflexivity|].
  split; [|split; [reflexivity|split; [|split; [|reflexivity]]]].
  - intros s a R Ha. pose proof (two_reached s R) as L.
    assert (Pk : forall T n q, next_value T n = q -> peak T n q) by (intros T n q <-; apply next_value_peak).
    destruct s as [|[|[|s]]]; [destruct Ha as [<-|[<-|[]]]|destruct Ha as [<-|[]]|destruct Ha as [<-|[]]|lia];
      (eexists _, _; split; [reflexivity|]; split; [apply Pk; reflexivity|reflexivity]).
  - apply walk_on; [right; left; reflexivity|reflexivity|]. apply walk_end; [left; reflexivity|reflexivity].
  - apply walk_on; [left; reflexivity|reflexivity|]. apply walk_end; [left; reflexivity|reflexivity].
Qed.

(** The update of Q-learning moves an entry towards its target, at the learning rate; this one does not. *)
Theorem C61_update_refuted : exists rate discount current reward next, (0 < rate < 1)%Q /\ (0 <= discount <= 1)%Q
  /\ ~ (new_entry rate discount (Some current) reward next == current + rate * (reward + discount * next - current))%Q.
Proof. exists (1 # 2)%Q, 1%Q, (-1)%Q, (-1)%Q, 0%Q. split; [split; reflexivity|]. split; [split; discriminate|]. vm_compute. discriminate. Qed.

(** A walk longer than the limit is cut off in learning and in the policy: here the steps end before the end is reached. *)
Definition row_stp (s a : nat) : nat * nat * Q * bool := (S s, s, (-1)%Q, 2 <=? s).
Theorem C61_end_refuted : exists acts stp candidate edge p T v t, (forall s, acts s <> [])
  /\ qlearn acts stp 0 candidate edge 1 1 2 (fun _ => true) (fun _ => 0) (fun e => 1 <=? e) 5 2 20 = Ok (p, T)
  /\ p = entries stp candidate edge None v /\ p <> [] /\ path acts stp 0 v t /\ (forall w, walk acts stp 0 w -> length v < length w).
Proof.
  exists (fun _ => [0]), row_stp, (fun s => s), (fun a => Z.of_nat a). eexists _, _. exists [(0, 0); (1, 0)], 2. split; [discriminate|]. split; [vm_compute; reflexivity|].
  split; [reflexivity|]. split; [discriminate|]. split.
  - apply (path_snoc (fun _ => [0]) row_stp 0 [(0, 0)] 1 0); [|left; reflexivity|reflexivity]. apply (path_snoc (fun _ => [0]) row_stp 0 [] 0 0); [constructor|left; reflexivity|reflexivity].
  - assert (K : forall s w, walk (fun _ => [0]) row_stp s w -> s <= 2 -> length w + s = 3).
    { intros s w H. induction H as [s E|s a Ha F|s a w Ha F H IH]; intros Hs; [discriminate| |].
      - assert (F' : (2 <=? s) = true) by exact F. apply Nat.leb_le in F'. cbn. lia.
      - assert (F' : (2 <=? s) = false) by exact F. apply Nat.leb_gt in F'. assert (I : length w + S s = 3) by (apply IH; cbn; lia). cbn [length]. lia. }
    intros w H. specialize (K 0 w H). cbn [length]. lia.
Qed.

(** If the episodes run out before the search for a better score is given up, no policy is extracted at all. *)
Theorem C61_episodes_refuted : exists acts stp candidate edge T w, (forall s, acts s <> []) /\ walk acts stp 0 w
  /\ qlearn acts stp 0 candidate edge 1 1 2 (fun _ => true) (fun _ => 0) (fun _ => false) 5 4 5 = Ok ([], T) /\ visited T 0.
Proof.
  exists (fun _ => [0]), row_stp, (fun s => s), (fun a => Z.of_nat a). eexists. exists [(0, 0); (1, 0); (2, 0)]. split; [discriminate|]. split.
  - apply walk_on; [left; reflexivity|reflexivity|]. apply walk_on; [left; reflexivity|reflexivity|]. apply walk_end; [left; reflexivity|reflexivity].
  - split; [vm_compute; reflexivity|]. eexists 0, _. reflexivity.
Qed.

Print Assumptions C61_update.
Print Assumptions C61_extract.
Print Assumptions C61_runs.
Print Assumptions C61_patience.
Print Assumptions C61_settled.
Print Assumptions C61_best_refuted.
Print Assumptions C61_update_refuted.
Print Assumptions C61_end_refuted.
Print Assumptions C61_episodes_refuted.
