(** Proofs about the Viterbi model. *)
From Verif Require Import Base ListAux Viterbi.

Section Spec.
  Context {V : Type}.
  Variable bot : V.
  Variable add : V -> V -> V.
  Variable ltb : V -> V -> bool.
  Variable log_inv : nat -> V.

  (** order of scores: [ltb] is a strict total order with least element [bot] *)
  Definition below (a b : V) : Prop := ltb b a = false.
  Record score_laws : Prop := {
    sl_refl : forall a, below a a;
    sl_trans : forall a b c, below a b -> below b c -> below a c;
    sl_total : forall a b, below a b \/ below b a;
    sl_bot : forall a, below bot a;
    sl_mono : forall a b c, below a b -> below (add a c) (add b c);
    sl_absorb : forall c, below (add bot c) bot
  }.

  (** entries of the tables *)
  Definition emit (M : trellis V) (t g : nat) : V := nth g (nth t (observations M) []) bot.
  Definition trans (M : trellis V) (t g s : nat) : V := nth s (nth g (nth t (transitions M) []) []) bot.
  Definition width (M : trellis V) (t : nat) : nat := length (nth t (observations M) []).
  Definition steps (M : trellis V) : nat := length (observations M).

  (** the tables fit together *)
  Record shaped (M : trellis V) : Prop := {
    sh_len : length (transitions M) = steps M;
    sh_rows : forall t, length (nth t (transitions M) []) = width M t;
    sh_first : forall g, g < width M 0 -> length (nth g (nth 0 (transitions M) []) []) = 1;
    sh_next : forall t g, g < width M (S t) -> length (nth g (nth (S t) (transitions M) []) []) = width M t
  }.

  (** score of a candidate sequence that starts at step [t0] *)
  Definition start (M : trellis V) (t0 g : nat) : V :=
    add (match t0 with 0 => trans M 0 g 0 | S _ => log_inv (width M t0) end) (emit M t0 g).
  Fixpoint extend (M : trellis V) (d : V) (t prev : nat) (cs : list nat) : V :=
    match cs with
    | [] => d
    | c :: r => extend M (add (add d (trans M t c prev)) (emit M t c)) (S t) c r
    end.
  Definition score (M : trellis V) (t0 : nat) (cs : list nat) : V :=
    match cs with
    | [] => bot
    | c :: r => extend M (start M t0 c) (S t0) c r
    end.

  (** [t0] is the first step with candidates *)
  Definition first_step (M : trellis V) (t0 : nat) : Prop :=
    t0 < steps M /\ 0 < width M t0 /\ forall t, t < t0 -> width M t = 0.
  (** one valid candidate for each of the steps [t0 ..] *)
  Definition choices (M : trellis V) (t0 : nat) (cs : list nat) : Prop :=
    Forall2 (fun t c => c < width M t) (seq t0 (length cs)) cs.
  Definition complete (M : trellis V) (t0 : nat) (cs : list nat) : Prop :=
    first_step M t0 /\ length cs = steps M - t0 /\ choices M t0 cs.
End Spec.

Section Proofs.
  Context {V : Type}.
  Variable bot : V.
  Variable add : V -> V -> V.
  Variable ltb : V -> V -> bool.
  Variable log_inv : nat -> V.
  Variable M : trellis V.
  Hypothesis L : score_laws bot add ltb.
  Hypothesis SH : shaped M.

  Notation below := (below ltb).
  Notation score := (score bot add log_inv M).
  Notation emit := (emit bot M).
  Notation trans := (trans bot M).
  Notation width := (width M).
  Notation steps := (steps M).

  Lemma last_default {A} (l : list A) a b : l <> [] -> last l a = last l b.
  Proof.
    induction l as [|x r IH]; [congruence|]. intros _. cbn. destruct r; [reflexivity|]. apply IH. discriminate.
  Qed.

  Lemma extend_snoc cs : forall d t prev c,
    extend bot add M d t prev (cs ++ [c]) =
    add (add (extend bot add M d t prev cs) (trans (t + length cs) c (last cs prev))) (emit (t + length cs) c).
  Proof.
    induction cs as [|x r IH]; intros d t prev c.
    - cbn. rewrite Nat.add_0_r. reflexivity.
    - cbn [app extend]. rewrite IH. cbn [length].
      replace (S t + length r) with (t + S (length r)) by lia.
      replace (last (x :: r) prev) with (last r x); [reflexivity|].
      cbn [last]. destruct r; [reflexivity|]. apply last_default. discriminate.
  Qed.

  Lemma score_snoc t0 cs c : cs <> [] ->
    score t0 (cs ++ [c]) =
    add (add (score t0 cs) (trans (t0 + length cs) c (last cs 0))) (emit (t0 + length cs) c).
  Proof.
    destruct cs as [|x r]; [congruence|]. intros _.
    cbn [app ViterbiProofs.score]. rewrite extend_snoc. cbn [length].
    replace (S t0 + length r) with (t0 + S (length r)) by lia.
    replace (last r x) with (last (x :: r) 0); [reflexivity|].
    cbn [last]. destruct r; [reflexivity|]. apply last_default. discriminate.
  Qed.

  (** loops for a maximum *)
  Definition argmax (f : nat -> V) (l : list nat) (acc : V * option nat) : V * option nat :=
    fold_left (fun acc s => if ltb (fst acc) (f s) then (f s, Some s) else acc) l acc.

  Lemma not_below a b : ltb a b = true -> below a b.
  Proof.
    intros H. destruct (sl_total _ _ _ L a b) as [E|E]; [exact E|]. unfold ViterbiProofs.below in E. congruence.
  Qed.

  Lemma argmax_spec f l : forall acc r, argmax f l acc = r ->
    below (fst acc) (fst r) /\ (forall s, In s l -> below (f s) (fst r)) /\
    (r = acc \/ exists s, In s l /\ r = (f s, Some s) /\ ltb (fst acc) (f s) = true).
  Proof.
    induction l as [|x l IH]; intros acc r E; cbn in E.
    - subst r. split; [apply (sl_refl _ _ _ L)|]. split; [intros s []|left; reflexivity].
    - destruct (ltb (fst acc) (f x)) eqn:C.
      + destruct (IH _ _ E) as (A & B & D). cbn [fst] in A.
        assert (Q : below (fst acc) (fst r)).
        { eapply (sl_trans _ _ _ L); [apply not_below; exact C|exact A]. }
        split; [exact Q|]. split.
        * intros s [<-|Hs]; [exact A|apply B; exact Hs].
        * right. destruct D as [D|(s & D1 & D2 & D3)].
          -- exists x. split; [left; reflexivity|]. split; [exact D|exact C].
          -- exists s. split; [right; exact D1|]. split; [exact D2|].
             destruct (ltb (fst acc) (f s)) eqn:C2; [reflexivity|]. exfalso.
             assert (Z : below (f s) (f x)).
             { eapply (sl_trans _ _ _ L); [exact C2|]. apply not_below; exact C. }
             unfold ViterbiProofs.below in Z. cbn in D3. congruence.
      + destruct (IH _ _ E) as (A & B & D).
        split; [exact A|]. split.
        * intros s [<-|Hs]; [|apply B; exact Hs]. eapply (sl_trans _ _ _ L); [exact C|exact A].
        * destruct D as [D|(s & D1 & D2 & D3)]; [left; exact D|].
          right. exists s. split; [right; exact D1|]. split; assumption.
  Qed.

  (** the pure recursion *)
  Definition prev_prob (Tp : nat -> V) (t g s : nat) : V := add (add (Tp s) (trans t g s)) (emit t g).
  Definition pcell (init : bool) (Tp : list V) (t g : nat) : V * option nat :=
    let r := argmax (prev_prob (fun s => nth s Tp bot) t g) (seq 0 (width (t - 1))) (bot, None) in
    match snd r with
    | Some k => (prev_prob (fun s => nth s Tp bot) t g k, Some k)
    | None => if init then (bot, None) else (add (log_inv (width t)) (emit t g), None)
    end.

  Lemma nth_error_nth'' {A} (l : list A) n d : n < length l -> nth_error l n = Some (nth n l d).
  Proof. intros H. apply nth_error_nth'. exact H. Qed.

  Lemma at2_obs t g : g < width t -> at2 (observations M) t g = Some (emit t g).
  Proof.
    intros H. unfold at2, ViterbiProofs.emit, ViterbiProofs.width in *.
    destruct (nth_error (observations M) t) as [r|] eqn:E.
    - rewrite (nth_error_nth _ _ [] E) in *. apply nth_error_nth''. exact H.
    - apply nth_error_None in E. rewrite (nth_overflow _ [] E) in H. cbn in H. lia.
  Qed.

  Lemma at2_tr t g : g < width t -> at2 (transitions M) t g = Some (nth g (nth t (transitions M) []) []).
  Proof.
    intros H. rewrite <- (sh_rows _ SH) in H. unfold at2.
    destruct (nth_error (transitions M) t) as [r|] eqn:E.
    - rewrite (nth_error_nth _ _ [] E) in *. apply nth_error_nth''. exact H.
    - apply nth_error_None in E. rewrite (nth_overflow _ [] E) in H. cbn in H. lia.
  Qed.

  Lemma argmax_in f l : forall acc, snd acc = None ->
    snd (argmax f l acc) = None \/ exists k, snd (argmax f l acc) = Some k /\ In k l.
  Proof.
    intros acc E. destruct (argmax_spec f l acc _ eq_refl) as (_ & _ & [H|(s & H1 & H2 & _)]).
    - left. rewrite H. exact E.
    - right. exists s. rewrite H2. split; [reflexivity|exact H1].
  Qed.

  Lemma best_source_pure Tp t g : S t < steps -> g < width (S t) -> length Tp = width t ->
    best_source bot add ltb Tp (nth g (nth (S t) (transitions M) []) []) (emit (S t) g) (width t) =
    Ok (argmax (prev_prob (fun s => nth s Tp bot) (S t) g) (seq 0 (width t)) (bot, None)).
  Proof.
    intros Ht Hg HT. unfold best_source, argmax. apply foldO_ok.
    intros a s Hs. apply in_seq in Hs.
    rewrite (nth_error_nth'' Tp s bot) by lia. cbn [derefO].
    rewrite (nth_error_nth'' _ s bot) by (rewrite (sh_next _ SH t g Hg); lia). cbn [derefO].
    unfold prev_prob, ViterbiProofs.trans. destruct (ltb (fst a) _); reflexivity.
  Qed.

  Lemma cell_pure init Tp t g : S t < steps -> g < width (S t) -> length Tp = width t ->
    cell bot add ltb log_inv M init Tp (S t) g = Ok (pcell init Tp (S t) g).
  Proof.
    intros Ht Hg HT. unfold cell, pcell. replace (S t - 1) with t by lia.
    rewrite (nth_error_nth'' (observations M) t []) by (unfold ViterbiProofs.steps in Ht; lia). cbn [derefO].
    rewrite (at2_obs (S t) g Hg). cbn [derefO]. rewrite (at2_tr (S t) g Hg). cbn [derefO].
    change (length (nth t (observations M) [])) with (width t).
    assert (E : (match nth t (observations M) [] with
                 | [] => Ok (bot, None)
                 | _ :: _ => best_source bot add ltb Tp (nth g (nth (S t) (transitions M) []) []) (emit (S t) g) (width t)
                 end) = Ok (argmax (prev_prob (fun s => nth s Tp bot) (S t) g) (seq 0 (width t)) (bot, None))).
    { destruct (nth t (observations M) []) as [|a b] eqn:E.
      - unfold ViterbiProofs.width. rewrite E. reflexivity.
      - apply best_source_pure; assumption. }
    rewrite E. cbn [bindO].
    destruct (argmax_in (prev_prob (fun s => nth s Tp bot) (S t) g) (seq 0 (width t)) (bot, None) eq_refl)
      as [N|(k & N & Hk)]; rewrite N.
    - destruct init; [reflexivity|].
      rewrite (nth_error_nth'' (transitions M) (S t) []) by (rewrite (sh_len _ SH); exact Ht). cbn [derefO].
      rewrite (sh_rows _ SH). reflexivity.
    - apply in_seq in Hk. rewrite (nth_error_nth'' Tp k bot) by lia. cbn [derefO].
      rewrite (nth_error_nth'' _ k bot) by (rewrite (sh_next _ SH t g Hg); lia). reflexivity.
  Qed.

  (** pure columns: [T t], [K t] and whether a step with candidates was seen up to [t] *)
  Fixpoint ptab (t : nat) : bool * list (V * option nat) :=
    match t with
    | 0 => (0 <? width 0, map (fun g => (add (trans 0 g 0) (emit 0 g), None)) (seq 0 (width 0)))
    | S t' =>
        let col := map (pcell (fst (ptab t')) (map fst (snd (ptab t'))) (S t')) (seq 0 (width (S t'))) in
        (fst (ptab t') || existsb (fun c => match snd c with None => true | Some _ => false end) col, col)
    end.
  Definition Tcol (t : nat) : list V := map fst (snd (ptab t)).
  Definition Kcol (t : nat) : list (option nat) := map snd (snd (ptab t)).

  Lemma ptab_len t : length (snd (ptab t)) = width t.
  Proof. destruct t; cbn [ptab snd]; rewrite map_length, seq_length; reflexivity. Qed.
  Lemma Tcol_len t : length (Tcol t) = width t.
  Proof. unfold Tcol. rewrite map_length. apply ptab_len. Qed.
  Lemma Kcol_len t : length (Kcol t) = width t.
  Proof. unfold Kcol. rewrite map_length. apply ptab_len. Qed.

  Lemma columns_abort abort : forall n t poll,
    t + n < steps ->
    exists r, columns bot add ltb log_inv M abort poll (fst (ptab t)) (Tcol t) (map Kcol (seq 0 (S t))) (seq (S t) n) = Ok r /\
      (r = None <-> exists i, i < n /\ abort (poll + i) = true) /\
      (r = None \/ r = Some (Tcol (t + n), map Kcol (seq 0 (S (t + n))))).
  Proof.
    induction n as [|n IH]; intros t poll H.
    - rewrite Nat.add_0_r. eexists. split; [reflexivity|]. split; [|right; reflexivity].
      split; [discriminate|]. intros (i & Hi & _). lia.
    - cbn [seq columns].
      rewrite (nth_error_nth'' (observations M) (S t) []) by (unfold ViterbiProofs.steps in H; lia). cbn [derefO].
      change (length (nth (S t) (observations M) [])) with (width (S t)).
      rewrite (mapO_ok _ (pcell (fst (ptab t)) (Tcol t) (S t))).
      2:{ intros g Hg. apply in_seq in Hg. apply cell_pure; [lia|lia|apply Tcol_len]. }
      cbn [bindO]. destruct (abort poll) eqn:A.
      + eexists. split; [reflexivity|]. split; [|left; reflexivity].
        split; [|reflexivity]. intros _. exists 0. rewrite Nat.add_0_r. split; [lia|exact A].
      + destruct (IH (S t) (S poll) ltac:(lia)) as (r & E & I & J).
        exists r. split; [|split].
        * rewrite (seq_S (S t) 0), map_app in E. exact E.
        * rewrite I. split.
          -- intros (i & Hi & Q). exists (S i). split; [lia|]. rewrite <- Q. f_equal. lia.
          -- intros (i & Hi & Q). destruct i; [rewrite Nat.add_0_r in Q; congruence|].
             exists i. split; [lia|]. rewrite <- Q. f_equal. lia.
        * replace (t + S n) with (S t + n) by lia. exact J.
  Qed.

  (** values of the columns *)
  Lemma Tcol_0 g : g < width 0 -> nth g (Tcol 0) bot = start bot add log_inv M 0 g.
  Proof.
    intros H. unfold Tcol. cbn [ptab snd]. rewrite map_map. cbn [fst].
    rewrite (nth_indep _ bot ((fun g => add (trans 0 g 0) (emit 0 g)) 0)) by (rewrite map_length, seq_length; exact H).
    rewrite (map_nth (fun g => add (trans 0 g 0) (emit 0 g))), seq_nth by exact H. reflexivity.
  Qed.

  Lemma col_S t g d : g < width (S t) -> nth g (snd (ptab (S t))) d = pcell (fst (ptab t)) (Tcol t) (S t) g.
  Proof.
    intros H. cbn [ptab snd].
    rewrite (nth_indep _ d (pcell (fst (ptab t)) (Tcol t) (S t) 0)) by (rewrite map_length, seq_length; exact H).
    unfold Tcol. rewrite map_nth, seq_nth by exact H. reflexivity.
  Qed.

  Lemma Tcol_S t g : g < width (S t) -> nth g (Tcol (S t)) bot = fst (pcell (fst (ptab t)) (Tcol t) (S t) g).
  Proof.
    intros H. unfold Tcol at 1. change bot with (fst (bot, @None nat)) at 1. rewrite map_nth, (col_S t g _ H). reflexivity.
  Qed.
  Lemma Kcol_S t g : g < width (S t) -> nth g (Kcol (S t)) None = snd (pcell (fst (ptab t)) (Tcol t) (S t) g).
  Proof.
    intros H. unfold Kcol. change None with (snd (bot, @None nat)) at 1. rewrite map_nth, (col_S t g _ H). reflexivity.
  Qed.

  (** initialised = some step up to now had candidates *)
  Lemma init_spec t : fst (ptab t) = true <-> exists u, u <= t /\ 0 < width u.
  Proof.
    induction t as [|t IH].
    - cbn [ptab fst]. rewrite Nat.ltb_lt. split; [intros H; exists 0; lia|intros (u & Hu & H); replace u with 0 in H by lia; exact H].
    - cbn [ptab fst]. rewrite orb_true_iff, IH. split.
      + intros [(u & Hu & H)|H]; [exists u; lia|]. apply existsb_exists in H. destruct H as (c & H & _).
        apply in_map_iff in H. destruct H as (g & _ & H). apply in_seq in H. exists (S t). lia.
      + intros (u & Hu & H). destruct (fst (ptab t)) eqn:E; [left; apply IH; reflexivity|].
        destruct (Nat.eq_dec u (S t)) as [->|Ne].
        * right. apply existsb_exists. exists (pcell (fst (ptab t)) (map fst (snd (ptab t))) (S t) 0). rewrite E. split.
          -- apply in_map. apply in_seq. lia.
          -- assert (Z : width t = 0).
             { destruct (Nat.eq_dec (width t) 0) as [Z|Z]; [exact Z|]. exfalso.
               assert (false = true) by (apply IH; exists t; split; lia). discriminate. }
             unfold pcell. replace (S t - 1) with t by lia. rewrite Z. reflexivity.
        * left. exists u. lia.
  Qed.

  (** prefixes of candidate sequences *)
  Definition prefix (t0 t : nat) (cs : list nat) : Prop := cs <> [] /\ t0 + length cs = S t /\ choices M t0 cs.

  Lemma choices_snoc t0 cs c : choices M t0 (cs ++ [c]) <-> choices M t0 cs /\ c < width (t0 + length cs).
  Proof.
    unfold choices. rewrite app_length. cbn [length]. rewrite Nat.add_1_r, seq_S. split.
    - intros H. apply Forall2_app_inv_r in H. destruct H as (l1 & l2 & H1 & H2 & E).
      inversion H2 as [|x y l l' Hxy Hl]; subst. inversion Hl; subst.
      apply app_inj_tail in E. destruct E as [<- <-]. split; [exact H1|exact Hxy].
    - intros [H1 H2]. apply Forall2_app; [exact H1|]. constructor; [exact H2|constructor].
  Qed.

  Lemma prefix_last t0 t cs : prefix t0 t cs -> last cs 0 < width t.
  Proof.
    intros (N & E & C). destruct (exists_last N) as (r & c & ->). rewrite last_last.
    apply choices_snoc in C. destruct C as [_ C]. rewrite app_length in E. cbn in E.
    replace t with (t0 + length r) by lia. exact C.
  Qed.

  (** invariant of the table *)
  Lemma table_upper t0 : first_step M t0 -> forall t cs, prefix t0 t cs -> t < steps ->
    below (score t0 cs) (nth (last cs 0) (Tcol t) bot).
  Proof.
    intros (F1 & F2 & F3). induction t as [|t IH]; intros cs P Ht.
    - destruct P as (N & E & C). assert (t0 = 0) by (destruct cs; [congruence|cbn in E; lia]). subst t0.
      destruct cs as [|c [|c' r]]; [congruence| |cbn in E; lia]. clear N E.
      inversion C; subst. cbn [last ViterbiProofs.score extend]. rewrite Tcol_0 by assumption. apply (sl_refl _ _ _ L).
    - assert (PL := prefix_last _ _ _ P). destruct P as (N & E & C).
      destruct (exists_last N) as (r & c & ->). rewrite last_last in *. rewrite app_length in E. cbn [length] in E.
      apply choices_snoc in C. destruct C as [C1 C2].
      rewrite Tcol_S by exact PL.
      destruct r as [|x r'] eqn:Er.
      + (* late start *)
        cbn in E. assert (t0 = S t) by lia. subst t0. cbn [app ViterbiProofs.score extend].
        unfold pcell. replace (S t - 1) with t by lia. rewrite (F3 t) by lia. cbn [seq argmax fold_left snd].
        assert (I : fst (ptab t) = false).
        { destruct (fst (ptab t)) eqn:I; [|reflexivity]. exfalso. apply init_spec in I. destruct I as (u & U1 & U2).
          rewrite (F3 u) in U2 by lia. lia. }
        rewrite I. cbn [fst]. apply (sl_refl _ _ _ L).
      + rewrite <- Er in *. assert (Nr : r <> []) by (rewrite Er; discriminate).
        assert (P' : prefix t0 t r) by (split; [exact Nr|split; [lia|exact C1]]).
        rewrite score_snoc by exact Nr. replace (t0 + length r) with (S t) by lia.
        assert (IHr := IH r P' ltac:(lia)).
        assert (PL' := prefix_last _ _ _ P').
        set (f := prev_prob (fun s => nth s (Tcol t) bot) (S t) c).
        assert (Q : below (add (add (score t0 r) (trans (S t) c (last r 0))) (emit (S t) c)) (f (last r 0))).
        { unfold f, prev_prob. apply (sl_mono _ _ _ L). apply (sl_mono _ _ _ L). exact IHr. }
        eapply (sl_trans _ _ _ L); [exact Q|].
        unfold pcell. replace (S t - 1) with t by lia. fold f.
        destruct (argmax_spec f (seq 0 (width t)) (bot, None) _ eq_refl) as (A1 & A2 & A3).
        assert (A2' := A2 (last r 0) ltac:(apply in_seq; lia)).
        destruct A3 as [A3|(s & S1 & S2 & S3)].
        * rewrite A3 in *. cbn [snd fst] in *. destruct (fst (ptab t)) eqn:I.
          -- cbn [fst]. exact A2'.
          -- cbn [fst]. eapply (sl_trans _ _ _ L); [exact A2'|]. apply (sl_bot _ _ _ L).
        * rewrite S2 in *. cbn [snd fst] in *. exact A2'.
  Qed.

  (** entries above minus infinity are attained by the sequence read back from [K] *)
  Fixpoint chain (t : nat) (g : nat) : list nat :=
    match t with
    | 0 => [g]
    | S t' => match nth g (Kcol t) None with
              | Some k => chain t' k ++ [g]
              | None => [g]
              end
    end.

  Lemma pos_of_add a c : ltb bot (add a c) = true -> ltb bot a = true.
  Proof.
    intros H. destruct (ltb bot a) eqn:E; [reflexivity|]. exfalso.
    assert (Z : below (add a c) bot).
    { eapply (sl_trans _ _ _ L); [apply (sl_mono _ _ _ L); exact E|apply (sl_absorb _ _ _ L)]. }
    unfold ViterbiProofs.below in Z. congruence.
  Qed.

  Lemma bot_irrefl : ltb bot bot = false.
  Proof. apply (sl_refl _ _ _ L). Qed.

  Lemma table_lower t0 : first_step M t0 -> forall t g, t < steps -> g < width t ->
    ltb bot (nth g (Tcol t) bot) = true ->
    prefix t0 t (chain t g) /\ score t0 (chain t g) = nth g (Tcol t) bot /\ last (chain t g) 0 = g.
  Proof.
    intros F. destruct F as (F1 & F2 & F3).
    induction t as [|t IH]; intros g Ht Hg Hp.
    - assert (t0 = 0). { destruct t0; [reflexivity|]. rewrite (F3 0) in Hg by lia. lia. } subst t0.
      cbn [chain]. rewrite Tcol_0 by exact Hg. split; [|split; reflexivity].
      split; [discriminate|]. split; [reflexivity|]. constructor; [exact Hg|constructor].
    - assert (HK := Kcol_S t g Hg). rewrite Tcol_S in * by exact Hg. cbn [chain].
      rewrite HK. unfold pcell in *. replace (S t - 1) with t in * by lia.
      set (f := prev_prob (fun s => nth s (Tcol t) bot) (S t) g) in *.
      destruct (argmax_spec f (seq 0 (width t)) (bot, None) _ eq_refl) as (A1 & A2 & A3).
      destruct A3 as [A3|(s & S1 & S2 & S3)].
      + rewrite A3 in *. cbn [snd fst] in *. destruct (fst (ptab t)) eqn:I; cbn [fst snd] in *.
        * rewrite bot_irrefl in Hp. discriminate.
        * assert (t0 = S t).
          { destruct (Nat.lt_trichotomy t0 (S t)) as [H|[H|H]]; [|exact H|].
            - exfalso. assert (fst (ptab t) = true) by (apply init_spec; exists t0; lia). congruence.
            - rewrite (F3 (S t) H) in Hg. lia. }
          subst t0. split; [|split; reflexivity].
          split; [discriminate|]. split; [cbn; lia|]. constructor; [exact Hg|constructor].
      + rewrite S2 in *. cbn [snd fst] in *. apply in_seq in S1.
        assert (Hs : ltb bot (nth s (Tcol t) bot) = true).
        { unfold f, prev_prob in Hp. apply pos_of_add in Hp. apply pos_of_add in Hp. exact Hp. }
        destruct (IH s ltac:(lia) ltac:(lia) Hs) as (P & E & Lst).
        destruct P as (P1 & P2 & P3).
        split; [|split].
        * split; [destruct (chain t s); discriminate|]. rewrite app_length. cbn [length]. split; [lia|].
          apply choices_snoc. split; [exact P3|]. replace (t0 + length (chain t s)) with (S t) by lia. exact Hg.
        * rewrite score_snoc by exact P1. replace (t0 + length (chain t s)) with (S t) by lia.
          rewrite E, Lst. reflexivity.
        * apply last_last.
  Qed.

  (** back tracking reads the chain *)
  Lemma nth_error_map_seq {A} (f : nat -> A) n i : i < n -> nth_error (map f (seq 0 n)) i = Some (f i).
  Proof.
    intros H. rewrite nth_error_map, (nth_error_nth' (seq 0 n) 0) by (rewrite seq_length; exact H).
    rewrite seq_nth by exact H. reflexivity.
  Qed.

  Lemma back_none n : forall t acc, back (map Kcol (seq 0 n)) t None acc = Ok (repeat None (S t) ++ acc).
  Proof.
    induction t as [|t IH]; intros acc; [reflexivity|]. cbn [back]. rewrite IH. f_equal.
    change (repeat (@None nat) (S (S t))) with (@None nat :: repeat None (S t)).
    rewrite (repeat_cons (S t) (@None nat)), <- app_assoc. reflexivity.
  Qed.

  Lemma back_chain n : forall t g acc, t < n -> g < width t ->
    (forall u k, u < t -> k < width (S u) -> forall s, nth k (Kcol (S u)) None = Some s -> s < width u) ->
    back (map Kcol (seq 0 n)) t (Some g) acc =
    Ok (repeat None (S t - length (chain t g)) ++ map Some (chain t g) ++ acc).
  Proof.
    induction t as [|t IH]; intros g acc Ht Hg Hv; [reflexivity|].
    cbn [back]. unfold at2. rewrite nth_error_map_seq by exact Ht.
    rewrite (nth_error_nth' (Kcol (S t)) None) by (rewrite Kcol_len; exact Hg). cbn [derefO chain].
    destruct (nth g (Kcol (S t)) None) as [k|] eqn:E.
    - rewrite IH; [|lia|eapply Hv; [lia|exact Hg|exact E]|intros u x Hu; apply Hv; lia].
      f_equal. rewrite app_length, map_app. cbn [length map]. rewrite <- app_assoc. cbn [app].
      f_equal. f_equal. lia.
    - rewrite back_none. cbn [length map app]. f_equal.
  Qed.

  Lemma Kcol_valid u k s : k < width (S u) -> nth k (Kcol (S u)) None = Some s -> s < width u.
  Proof.
    intros Hk E. rewrite Kcol_S in E by exact Hk. unfold pcell in E. replace (S u - 1) with u in E by lia.
    destruct (argmax_in (prev_prob (fun s => nth s (Tcol u) bot) (S u) k) (seq 0 (width u)) (bot, None) eq_refl)
      as [N|(x & N & Hx)]; rewrite N in E.
    - destruct (fst (ptab u)); discriminate.
    - cbn in E. injection E as <-. apply in_seq in Hx. lia.
  Qed.

  Lemma policy_of_none n : forall i sel, policy_of i (repeat None n ++ sel) = policy_of (i + n) sel.
  Proof.
    induction n as [|n IH]; intros i sel; cbn; [rewrite Nat.add_0_r; reflexivity|].
    rewrite IH. f_equal. lia.
  Qed.
  Lemma policy_of_some cs : forall i, policy_of i (map Some cs) = combine (seq i (length cs)) cs.
  Proof. induction cs as [|c r IH]; intros i; cbn; [reflexivity|]. rewrite IH. reflexivity. Qed.

  Lemma first_column_pure o0 rest : observations M = o0 :: rest ->
    first_column add M o0 = Ok (Tcol 0).
  Proof.
    intros E. unfold first_column, Tcol. cbn [ptab snd]. rewrite map_map. cbn [fst].
    assert (W : width 0 = length o0) by (unfold ViterbiProofs.width; rewrite E; reflexivity). rewrite W.
    apply mapO_ok. intros g Hg. apply in_seq in Hg.
    rewrite at2_tr by lia. cbn [derefO].
    rewrite (nth_error_nth'' _ 0 bot) by (rewrite (sh_first _ SH g); lia). cbn [derefO].
    rewrite (nth_error_nth'' o0 g bot) by lia. cbn [derefO].
    unfold ViterbiProofs.trans, ViterbiProofs.emit. rewrite E. reflexivity.
  Qed.

  Lemma best_last_pure t : best_last bot ltb (Tcol t) (width t) =
    Ok (argmax (fun g => nth g (Tcol t) bot) (seq 0 (width t)) (bot, None)).
  Proof.
    unfold best_last, argmax. apply foldO_ok. intros a g Hg. apply in_seq in Hg.
    rewrite (nth_error_nth'' _ g bot) by (rewrite Tcol_len; lia). cbn [derefO].
    destruct (ltb (fst a) _); reflexivity.
  Qed.

  (** number of polls *)
  Definition polls : nat := match observations M with [] => 1 | _ => 2 * steps end.
  Definition aborted (abort : nat -> bool) : Prop := exists i, i < polls /\ abort i = true.

  Lemma first_exists : (exists t0, first_step M t0) \/ (forall t, width t = 0).
  Proof.
    assert (H : forall n, (exists t0, first_step M t0) \/ (forall t, t < n -> width t = 0)).
    { induction n as [|n [IH|IH]]; [right; lia|left; exact IH|].
      destruct (Nat.eq_dec (width n) 0) as [Z|Z].
      - right. intros t Ht. destruct (Nat.eq_dec t n) as [->|Ne]; [exact Z|]. apply IH. lia.
      - left. exists n. split; [|split; [lia|exact IH]].
        destruct (le_lt_dec steps n) as [G|G]; [|exact G]. exfalso. apply Z.
        unfold ViterbiProofs.width. rewrite nth_overflow; [reflexivity|exact G]. }
    destruct (H steps) as [A|A]; [left; exact A|right]. intros t.
    destruct (le_lt_dec steps t) as [G|G]; [|apply A; exact G].
    unfold ViterbiProofs.width. rewrite nth_overflow; [reflexivity|exact G].
  Qed.

  Lemma first_unique a b : first_step M a -> first_step M b -> a = b.
  Proof.
    intros (A1 & A2 & A3) (B1 & B2 & B3).
    destruct (Nat.lt_trichotomy a b) as [H|[H|H]]; [|exact H|].
    - rewrite (B3 a H) in A2. lia.
    - rewrite (A3 b H) in B2. lia.
  Qed.

  Lemma viterbi_result abort :
    (aborted abort /\ viterbi bot add ltb log_inv M abort = Ok []) \/
    (~ aborted abort /\ exists sel,
        viterbi bot add ltb log_inv M abort = Ok sel /\
        ((sel = [] /\ forall t0 cs, complete M t0 cs -> below (score t0 cs) bot) \/
         (exists t0 cs, complete M t0 cs /\ sel = combine (seq t0 (length cs)) cs /\ ltb bot (score t0 cs) = true /\
            forall cs', complete M t0 cs' -> below (score t0 cs') (score t0 cs)))).
  Proof.
    unfold viterbi, aborted, polls. destruct (abort 0) eqn:A0.
    { left. split; [|reflexivity]. exists 0. split; [|exact A0].
      destruct (observations M) eqn:E; [lia|]. unfold ViterbiProofs.steps. rewrite E. cbn. lia. }
    destruct (observations M) as [|o0 rest] eqn:E.
    { right. split; [intros (i & Hi & Q); replace i with 0 in Q by lia; congruence|].
      exists []. split; [reflexivity|]. left. split; [reflexivity|].
      intros t0 cs ((F & _) & _). unfold ViterbiProofs.steps in F. rewrite E in F. cbn in F. lia. }
    rewrite <- E. assert (St : length (observations M) = S (length rest)) by (rewrite E; reflexivity).
    assert (St' : steps = S (length rest)) by exact St.
    destruct (existsb abort (seq 1 (length (observations M)))) eqn:AE.
    { left. split; [|reflexivity]. apply existsb_exists in AE. destruct AE as (i & Hi & Q). apply in_seq in Hi.
      exists i. split; [lia|exact Q]. }
    rewrite (first_column_pure o0 rest E). cbn [bindO].
    destruct (columns_abort abort (length rest) 0 (S (length (observations M))) ltac:(lia)) as (r & R & I & J).
    assert (Init : match o0 with [] => false | _ :: _ => true end = fst (ptab 0)).
    { cbn [ptab fst]. unfold ViterbiProofs.width. rewrite E. destruct o0; reflexivity. }
    assert (K0 : [map (fun _ : V => @None nat) o0] = map Kcol (seq 0 1)).
    { cbn [seq map]. f_equal. unfold Kcol. cbn [ptab snd]. rewrite map_map. cbn [snd].
      unfold ViterbiProofs.width. rewrite E. cbn [nth].
      change (fun _ : V => @None nat) with (fun _ : V => @None nat). clear.
      assert (G : forall (x : list V) i, map (fun _ : V => @None nat) x = map (fun _ : nat => None) (seq i (length x))).
      { induction x as [|a x IH]; intros i; cbn; [reflexivity|]. f_equal. apply IH. }
      apply G. }
    rewrite Init, K0, R. cbn [bindO].
    destruct J as [J|J].
    { left. subst r. split; [|reflexivity]. destruct I as [I _]. destruct (I eq_refl) as (i & Hi & Q).
      exists (S (length (observations M)) + i). split; [|exact Q]. unfold ViterbiProofs.steps. lia. }
    right. split.
    { intros (i & Hi & Q). destruct I as [_ I].
      destruct (Nat.eq_dec i 0) as [->|Ni]; [congruence|].
      destruct (le_lt_dec i (length (observations M))) as [G|G].
      - assert (T : existsb abort (seq 1 (length (observations M))) = true).
        { apply existsb_exists. exists i. split; [apply in_seq; lia|exact Q]. }
        congruence.
      - assert (X : r = None).
        { apply I. exists (i - S (length (observations M))). split; [unfold ViterbiProofs.steps in Hi; lia|].
          rewrite <- Q. f_equal. lia. }
        congruence. }
    subst r. cbn beta iota. rewrite St. replace (S (length rest) - 1) with (length rest) by lia.
    rewrite (nth_error_nth'' (observations M) (length rest) []) by lia. cbn [derefO].
    change (length (nth (length rest) (observations M) [])) with (width (length rest)).
    change (0 + length rest) with (length rest).
    rewrite best_last_pure. cbn [bindO].
    set (n := length rest) in *.
    set (b := argmax (fun g => nth g (Tcol n) bot) (seq 0 (width n)) (bot, None)).
    destruct (argmax_spec (fun g => nth g (Tcol n) bot) (seq 0 (width n)) (bot, None) b eq_refl) as (B1 & B2 & B3).
    assert (Up : forall t0 cs, complete M t0 cs -> below (score t0 cs) (fst b)).
    { intros t0 cs (F & Len & C). assert (F' := F). destruct F' as (F1 & F2 & _).
      assert (P : prefix t0 n cs).
      { split; [intros ->; cbn in Len; lia|]. split; [lia|exact C]. }
      eapply (sl_trans _ _ _ L); [apply (table_upper t0 F n cs P); lia|].
      apply B2. apply in_seq. assert (Z := prefix_last _ _ _ P). lia. }
    destruct B3 as [B3|(g & G1 & G2 & G3)].
    - assert (Sb : snd b = None) by (rewrite B3; reflexivity). rewrite Sb, back_none. cbn [bindO]. rewrite policy_of_none. cbn [policy_of].
      exists []. split; [reflexivity|]. left. split; [reflexivity|].
      intros t0 cs Hc. assert (Z := Up t0 cs Hc). rewrite B3 in Z. exact Z.
    - assert (Sb : snd b = Some g) by (rewrite G2; reflexivity). rewrite Sb. apply in_seq in G1.
      rewrite (back_chain (S n) n g []); [|lia|lia|intros u k Hu Hk s; apply Kcol_valid; exact Hk].
      cbn [bindO]. rewrite policy_of_none, app_nil_r, policy_of_some.
      destruct first_exists as [(t0 & F)|Z]; [|rewrite Z in G1; lia].
      destruct (table_lower t0 F n g ltac:(lia) ltac:(lia) G3) as ((P1 & P2 & P3) & Q & Lst).
      replace (0 + (S n - length (chain n g))) with t0 by lia.
      eexists. split; [reflexivity|]. right. exists t0, (chain n g).
      split; [split; [exact F|split; [lia|exact P3]]|]. split; [reflexivity|]. split; [rewrite Q; exact G3|].
      intros cs' Hc. rewrite Q. assert (Z := Up t0 cs' Hc). rewrite G2 in Z. exact Z.
  Qed.
End Proofs.
