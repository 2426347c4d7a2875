(** C42: removing duplicate measurements. *)
From Coq Require Import Sorted.
From Verif Require Import Base ListAux Simplify SimplifyProofs Detect.

Lemma update_spec {A} (f : A -> A) : forall l i, i < length l -> exists l', update i f l = Ok l' /\ length l' = length l
  /\ forall k, nth_error l' k = if k =? i then option_map f (nth_error l k) else nth_error l k.
Proof.
  induction l as [|x r IH]; intros i H; cbn in H; [lia|]. destruct i as [|j]; cbn [update].
  - exists (f x :: r). split; [reflexivity|]. split; [reflexivity|]. intros [|k]; reflexivity.
  - destruct (IH j) as (r' & -> & L & N); [lia|]. cbn. exists (x :: r'). split; [reflexivity|]. split; [cbn; lia|].
    intros [|k]; [reflexivity|]. cbn. apply N.
Qed.

Section C42.
  Context {P : Type}.
  Variable equals : P -> P -> bool.
  Variable sharp : P -> P -> P -> bool.

  (** point [i] repeats its predecessor *)
  Definition repeats (line : list P) (i : nat) : Prop :=
    exists j p q, i = S j /\ nth_error line j = Some p /\ nth_error line i = Some q /\ equals p q = true.
  (** a point is marked if it is a duplicate or the track turns back there *)
  Definition marked (ds : list dset) (i : nat) : Prop :=
    exists d, nth_error ds i = Some d /\ (d_equal d = true \/ d_fb d = true).
  (** [j] is the last unmarked point before [i] *)
  Definition last_unmarked (ds : list dset) (j i : nat) : Prop :=
    j < i /\ ~ marked ds j /\ forall k, j < k < i -> marked ds k.
  (** the track turns back at point [j] when going on to point [i] *)
  Definition turns (line : list P) (j i : nat) : Prop :=
    exists h o p q, j = S h /\ nth_error line h = Some o /\ nth_error line j = Some p /\ nth_error line i = Some q /\ sharp o p q = true.

  Lemma mark_equal_spec line n from ds : length ds = length line -> length line <= n + S from ->
    exists ds', mark_equal equals n from line ds = Ok ds' /\ length ds' = length line
      /\ forall i d, nth_error ds i = Some d -> exists d', nth_error ds' i = Some d' /\ d_none d' = d_none d /\ d_fb d' = d_fb d
         /\ (d_equal d' = true <-> d_equal d = true \/ (from < i /\ repeats line i)).
  Proof.
    revert from ds. induction n as [|n IH]; intros from ds L B; cbn [mark_equal].
    - exists ds. split; [reflexivity|]. split; [exact L|]. intros i d N. exists d. repeat split; auto.
      intros [H|[H _]]; [exact H|]. assert (i < length ds) by (apply nth_error_Some; congruence). lia.
    - destruct (Nat.ltb_spec (S from) (length line)) as [Hl|Hl].
      2: { exists ds. split; [reflexivity|]. split; [exact L|]. intros i d N. exists d. repeat split; auto.
           intros [H|[H _]]; [exact H|]. assert (i < length ds) by (apply nth_error_Some; congruence). lia. }
      assert (R : is_equal equals line from (S from) = true <-> repeats line (S from)).
      { unfold is_equal, repeats. split.
        - destruct (nth_error line from) as [p|] eqn:E1; [|discriminate]. destruct (nth_error line (S from)) as [q|] eqn:E2; [|discriminate].
          intros E. exists from, p, q. auto.
        - intros (j & p & q & E & N1 & N2 & Q). injection E as <-. rewrite N1, N2. exact Q. }
      assert (Step : exists ds1, (if is_equal equals line from (S from) then update (S from) add_equal ds else Ok ds) = Ok ds1
        /\ length ds1 = length line
        /\ forall i d, nth_error ds i = Some d -> exists d', nth_error ds1 i = Some d' /\ d_none d' = d_none d /\ d_fb d' = d_fb d
           /\ (d_equal d' = true <-> d_equal d = true \/ (i = S from /\ repeats line i))).
      { destruct (is_equal equals line from (S from)).
        - destruct (update_spec add_equal ds (S from)) as (ds1 & -> & L1 & N1); [lia|]. exists ds1. split; [reflexivity|]. split; [lia|].
          intros i d N. rewrite N1, N. destruct (Nat.eqb_spec i (S from)) as [->|Ne].
          + exists (add_equal d). repeat split; auto. intros _. right. split; [reflexivity|]. apply R. reflexivity.
          + exists d. repeat split; auto. intros [H|[H _]]; [exact H|congruence].
        - exists ds. split; [reflexivity|]. split; [exact L|]. intros i d N. exists d. repeat split; auto.
          intros [H|[-> H]]; [exact H|]. apply R in H. discriminate. }
      destruct Step as (ds1 & -> & L1 & N1). cbn [bindO]. destruct (IH (S from) ds1 L1) as (ds2 & E2 & L2 & N2); [lia|].
      exists ds2. split; [exact E2|]. split; [exact L2|]. intros i d N. destruct (N1 i d N) as (d1 & M1 & A1 & B1 & C1).
      destruct (N2 i d1 M1) as (d2 & M2 & A2 & B2 & C2). exists d2. split; [exact M2|]. split; [congruence|]. split; [congruence|].
      rewrite C2, C1. split.
      + intros [[H|[-> H]]|[H1 H2]]; [auto|right; split; [lia|exact H]|right; split; [lia|exact H2]].
      + intros [H|[H1 H2]]; [auto|]. destruct (Nat.eq_dec i (S from)) as [->|Ne]; [auto|]. right. split; [lia|exact H2].
  Qed.

  Lemma skip_spec (line : list P) ds : length ds = length line -> forall fuel to, length line < fuel + to -> to <= length line ->
    exists to1, skip_marked fuel to line ds = Ok to1 /\ to <= to1 <= length line /\ (forall k, to <= k < to1 -> marked ds k)
      /\ ~ marked ds to1.
  Proof.
    intros L. induction fuel as [|f IH]; intros to B T; [lia|]. cbn [skip_marked]. destruct (Nat.ltb_spec to (length line)) as [H|H].
    - destruct (nth_error ds to) as [d|] eqn:N; [|apply nth_error_None in N; lia]. cbn [derefO].
      destruct (d_fb d || d_equal d) eqn:M.
      + destruct (IH (S to)) as (t & E & T1 & K & Nm); [lia|lia|]. exists t. split; [exact E|]. split; [lia|]. split; [|exact Nm].
        intros k Hk. destruct (Nat.eq_dec k to) as [->|]; [|apply K; lia]. exists d. split; [exact N|].
        apply orb_true_iff in M. tauto.
      + exists to. split; [reflexivity|]. split; [lia|]. split; [intros; lia|]. intros (d' & N' & Q). rewrite N in N'. injection N' as <-.
        apply orb_false_iff in M. destruct M as [M1 M2], Q; congruence.
    - exists to. split; [reflexivity|]. split; [lia|]. split; [intros; lia|]. intros (d & N & _).
      assert (to < length ds) by (apply nth_error_Some; congruence). lia.
  Qed.

  Lemma fb_turns line from to : forward_backward sharp line from to = true <-> turns line from to.
  Proof.
    unfold forward_backward, turns. split.
    - destruct (nth_error line from) as [p|] eqn:E1; [|discriminate]. destruct (nth_error line to) as [q|] eqn:E2; [|discriminate].
      destruct from as [|h]; [discriminate|]. destruct (nth_error line h) as [o|] eqn:E3; [|discriminate]. intros S.
      exists h, o, p, q. auto.
    - intros (h & o & p & q & -> & N1 & N2 & N3 & S). rewrite N2, N3, N1. exact S.
  Qed.

  (** the mark at point [i] is the right one *)
  Definition right_at (line : list P) (ds : list dset) (i : nat) : Prop :=
    forall d, nth_error ds i = Some d ->
      (d_fb d = true <-> d_equal d = false /\ exists j, last_unmarked ds j i /\ turns line j i).

  Lemma last_unmarked_ext ds ds' i j : (forall k, k < i -> nth_error ds' k = nth_error ds k) ->
    last_unmarked ds j i -> last_unmarked ds' j i.
  Proof.
    intros H (A & B & C). split; [exact A|]. split.
    - intros (d & N & Q). apply B. exists d. rewrite <- H by exact A. auto.
    - intros k Hk. destruct (C k Hk) as (d & N & Q). exists d. rewrite H by lia. auto.
  Qed.
  Lemma right_ext line ds ds' i : (forall k, k <= i -> nth_error ds' k = nth_error ds k) -> right_at line ds i -> right_at line ds' i.
  Proof.
    intros H R d N. rewrite H in N by lia. rewrite (R d N). split; intros (E & j & A & B); (split; [exact E|]); exists j; (split; [|exact B]).
    - eapply last_unmarked_ext; [|exact A]. intros k Hk. apply H. lia.
    - eapply last_unmarked_ext; [|exact A]. intros k Hk. symmetry. apply H. lia.
  Qed.
  Lemma last_unmarked_fun ds i j j' : last_unmarked ds j i -> last_unmarked ds j' i -> j = j'.
  Proof.
    intros (A & B & C) (A' & B' & C'). destruct (Nat.lt_trichotomy j j') as [H|[H|H]]; [|exact H|].
    - exfalso. apply B'. apply C. lia.
    - exfalso. apply B. apply C'. lia.
  Qed.

  Definition unfb (ds : list dset) (i : nat) : Prop := forall d, nth_error ds i = Some d -> d_fb d = false.
  Definition pending (ds : list dset) (to : nat) : nat :=
    match nth_error ds to with Some d => if d_fb d then 0 else 1 | None => 0 end.

  Lemma mark_fb_spec line : forall fuel from to ds, length ds = length line ->
    2 * (length line - to) + pending ds to < fuel ->
    from < to <= S (length line) -> ~ marked ds from -> (forall k, from < k < to -> marked ds k) ->
    (forall k, to < k -> unfb ds k) ->
    (forall k, k < to \/ (k = to /\ pending ds to = 0) -> right_at line ds k) ->
    exists ds', mark_fb sharp fuel from to line ds = Ok ds' /\ length ds' = length line
      /\ (forall i d, nth_error ds i = Some d -> exists d', nth_error ds' i = Some d' /\ d_none d' = d_none d /\ d_equal d' = d_equal d)
      /\ forall i, right_at line ds' i.
  Proof.
    induction fuel as [|f IH]; intros from to ds L B T U K F R; [lia|]. cbn [mark_fb].
    destruct (Nat.ltb_spec to (length line)) as [Hl|Hl].
    2: { exists ds. split; [reflexivity|]. split; [exact L|]. split; [intros i d N; exists d; auto|].
         intros i. destruct (Nat.lt_ge_cases i to) as [H|H]; [apply R; auto|]. intros d N.
         assert (i < length ds) by (apply nth_error_Some; congruence). lia. }
    destruct (skip_spec line ds L (S (length line)) to) as (to1 & -> & T1 & K1 & U1); [lia|lia|]. cbn [bindO].
    assert (Up : forall k, k < to1 -> right_at line ds k).
    { intros k Hk. destruct (Nat.lt_ge_cases k to) as [H|H]; [apply R; auto|].
      destruct (K1 k) as (d & N & Q); [lia|]. destruct (d_fb d) eqn:Ef.
      - assert (k = to). { destruct (Nat.eq_dec k to) as [|Ne]; [assumption|]. specialize (F k ltac:(lia) d N). congruence. }
        apply R. right. split; [assumption|]. subst k. unfold pending. rewrite N, Ef. reflexivity.
      - intros d' N'. rewrite N in N'. injection N' as <-. rewrite Ef. destruct Q as [Q|Q]; [|congruence]. rewrite Q.
        split; [discriminate|intros [H' _]; discriminate]. }
    assert (Lu : last_unmarked ds from to1).
    { split; [lia|]. split; [exact U|]. intros k Hk. destruct (Nat.lt_ge_cases k to); [apply K; lia|apply K1; lia]. }
    destruct (forward_backward sharp line from to1) eqn:FB.
    - apply fb_turns in FB. assert (H1 : to1 < length ds).
      { destruct FB as (h & o & p & q & _ & _ & _ & N & _). rewrite L. apply nth_error_Some. congruence. }
      destruct (update_spec add_fb ds to1 H1) as (ds1 & -> & L1 & N1). cbn [bindO].
      assert (Nlow : forall k, k < to1 -> nth_error ds1 k = nth_error ds k).
      { intros k Hk. rewrite N1. destruct (Nat.eqb_spec k to1); [lia|reflexivity]. }
      assert (Nhere : exists d, nth_error ds to1 = Some d /\ nth_error ds1 to1 = Some (add_fb d) /\ d_equal d = false /\ d_fb d = false).
      { destruct (nth_error ds to1) as [d|] eqn:E; [|apply nth_error_None in E; lia]. exists d. split; [reflexivity|].
        rewrite N1, Nat.eqb_refl, E. split; [reflexivity|]. split; destruct (d_equal d) eqn:E1, (d_fb d) eqn:E2; try reflexivity;
          exfalso; apply U1; exists d; auto. }
      destruct Nhere as (d0 & A0 & B0 & C0 & D0).
      assert (P0 : pending ds1 to1 = 0) by (unfold pending; rewrite B0; reflexivity).
      destruct (IH from to1 ds1) as (ds2 & E2 & L2 & M2 & R2); [lia| | | | | | |].
      + rewrite P0. destruct (Nat.eq_dec to to1) as [->|]; [|lia].
        assert (pending ds to1 = 1) by (unfold pending; rewrite A0, D0; reflexivity). lia.
      + lia.
      + intros (d & N & Q). rewrite Nlow in N by lia. apply U. exists d. auto.
      + intros k Hk. destruct Lu as (_ & _ & Lu). destruct (Lu k Hk) as (d & N & Q). exists d. rewrite Nlow by lia. auto.
      + intros k Hk d N. rewrite N1 in N. destruct (Nat.eqb_spec k to1); [lia|]. apply (F k); [lia|exact N].
      + intros k [Hk|[-> _]].
        * apply right_ext with (ds := ds); [|apply Up; exact Hk]. intros k' Hk'. apply Nlow. lia.
        * intros d N. rewrite B0 in N. injection N as <-. cbn. split; [|reflexivity]. intros _. split; [exact C0|].
          exists from. split; [|exact FB]. eapply last_unmarked_ext; [exact Nlow|exact Lu].
      + exists ds2. split; [exact E2|]. split; [exact L2|]. split; [|exact R2]. intros i d N.
        assert (X : exists d1, nth_error ds1 i = Some d1 /\ d_none d1 = d_none d /\ d_equal d1 = d_equal d).
        { rewrite N1, N. destruct (Nat.eqb_spec i to1); [exists (add_fb d)|exists d]; auto. }
        destruct X as (d1 & N' & X1 & X2). destruct (M2 i d1 N') as (d2 & N'' & Y1 & Y2). exists d2. split; [exact N''|]. split; congruence.
    - assert (Hf : S (if negb (from + 1 =? to1) then to1 - 1 else from) = to1).
      { destruct (Nat.eqb_spec (from + 1) to1); cbn [negb]; lia. }
      rewrite Hf. destruct (IH to1 (S to1) ds L) as (ds2 & E2 & L2 & M2 & R2).
      + assert (pending ds (S to1) <= 1) by (unfold pending; destruct (nth_error ds (S to1)) as [d|]; [destruct (d_fb d)|]; lia).
        destruct (Nat.eq_dec to1 (length line)) as [->|].
        * assert (pending ds (S (length line)) = 0) by (unfold pending; destruct (nth_error ds (S (length line))) eqn:N; [assert (S (length line) < length ds) by (apply nth_error_Some; congruence)|reflexivity]; lia).
          lia.
        * assert (to = to1 \/ to < to1) as [<-|] by lia; [|lia].
          assert (pending ds to = 1); [|lia]. unfold pending. destruct (nth_error ds to) as [d|] eqn:N; [|apply nth_error_None in N; lia].
          destruct (d_fb d) eqn:E; [|reflexivity]. exfalso. apply U1. exists d. auto.
      + lia.
      + exact U1.
      + intros k Hk. lia.
      + intros k Hk. apply F. lia.
      + intros k [Hk|[-> Hp]].
        * destruct (Nat.eq_dec k to1) as [->|]; [|apply Up; lia]. intros d N.
          assert (d_fb d = false). { destruct (d_fb d) eqn:E; [|reflexivity]. exfalso. apply U1. exists d. auto. }
          rewrite H. split; [discriminate|]. intros (_ & j & Lj & Tj). rewrite (last_unmarked_fun ds to1 j from Lj Lu) in Tj.
          apply fb_turns in Tj. congruence.
        * intros d N. exfalso. unfold pending in Hp. rewrite N in Hp. rewrite (F (S to1) ltac:(lia) d N) in Hp. discriminate.
      + exists ds2. auto.
  Qed.

  (** Detecting: it ends, yields one set of defects per point and reads or writes nothing else. The duplicates are exactly
      the points equal to their predecessor; the track turns back at a point that is no duplicate exactly if it does with
      respect to the last point not marked. No set contains [none]. *)
  Theorem C42_detect fuel line dup fb : 2 * length line + 1 < fuel ->
    exists ds, detect equals sharp fuel line dup fb = Ok ds /\ length ds = length line
      /\ forall i d, nth_error ds i = Some d ->
           (d_equal d = true <-> dup = true /\ repeats line i)
           /\ (d_fb d = true <-> fb = true /\ d_equal d = false /\ exists j, last_unmarked ds j i /\ turns line j i)
           /\ d_none d = false.
  Proof.
    intros B. unfold detect. set (start := repeat (mkSet true false false) (length line)).
    assert (L0 : length start = length line) by apply repeat_length.
    assert (N0 : forall i d, nth_error start i = Some d -> d = mkSet true false false).
    { intros i d N. apply nth_error_In in N. apply repeat_spec in N. exact N. }
    assert (S1 : exists ds1, (if dup then mark_equal equals (length line) 0 line start else Ok start) = Ok ds1 /\ length ds1 = length line
      /\ forall i d, nth_error ds1 i = Some d -> d_fb d = false /\ d_none d = true /\ (d_equal d = true <-> dup = true /\ repeats line i)).
    { destruct dup.
      - destruct (mark_equal_spec line (length line) 0 start L0) as (ds1 & E & L1 & M); [lia|]. exists ds1. split; [exact E|]. split; [exact L1|].
        intros i d N. destruct (nth_error start i) as [d0|] eqn:N'.
        + destruct (M i d0 N') as (d' & Nd & A & Bf & C). rewrite N in Nd. injection Nd as <-. rewrite (N0 i d0 N') in *. cbn in *.
          split; [exact Bf|]. split; [exact A|]. rewrite C. split; [intros [H|[_ H]]; [discriminate|auto]|]. intros [_ H]. right.
          split; [|exact H]. destruct H as (j & _ & _ & -> & _). lia.
        + apply nth_error_None in N'. assert (i < length ds1) by (apply nth_error_Some; congruence). lia.
      - exists start. split; [reflexivity|]. split; [exact L0|]. intros i d N. rewrite (N0 i d N). cbn. repeat split; auto; [discriminate|].
        intros [H _]. discriminate. }
    destruct S1 as (ds1 & -> & L1 & M1). cbn [bindO].
    assert (S2 : exists ds2, (if fb then mark_fb sharp fuel 0 1 line ds1 else Ok ds1) = Ok ds2 /\ length ds2 = length line
      /\ (forall i d, nth_error ds1 i = Some d -> exists d', nth_error ds2 i = Some d' /\ d_none d' = d_none d /\ d_equal d' = d_equal d)
      /\ forall i d, nth_error ds2 i = Some d -> (d_fb d = true <-> fb = true /\ d_equal d = false /\ exists j, last_unmarked ds2 j i /\ turns line j i)).
    { destruct fb.
      - destruct (mark_fb_spec line fuel 0 1 ds1 L1) as (ds2 & E & L2 & A & R).
        + assert (pending ds1 1 <= 1) by (unfold pending; destruct (nth_error ds1 1) as [d|]; [destruct (d_fb d)|]; lia). lia.
        + lia.
        + intros (d & N & Q). destruct (M1 0 d N) as (H1 & _ & H2). destruct Q as [Q|Q]; [|congruence]. apply H2 in Q.
          destruct Q as (_ & j & _ & _ & H & _). discriminate.
        + intros k Hk. lia.
        + intros k _ d N. apply (M1 k d N).
        + intros k Hk. assert (k = 0 \/ k = 1 /\ length line <= 1) as [->|[-> Hl]].
          { destruct Hk as [|[-> Hp]]; [lia|]. right. split; [reflexivity|]. unfold pending in Hp. destruct (nth_error ds1 1) as [d|] eqn:N.
            - rewrite (proj1 (M1 1 d N)) in Hp. discriminate.
            - apply nth_error_None in N. lia. }
          * intros d N. rewrite (proj1 (M1 0 d N)). split; [discriminate|]. intros (_ & j & (H & _) & _). lia.
          * intros d N. assert (1 < length ds1) by (apply nth_error_Some; congruence). lia.
        + exists ds2. split; [exact E|]. split; [exact L2|]. split; [exact A|]. intros i d N. rewrite (R i d N). split; [intros [H1 H2]; auto|intros (_ & H1 & H2); auto].
      - exists ds1. split; [reflexivity|]. split; [exact L1|]. split; [intros i d N; exists d; auto|]. intros i d N. rewrite (proj1 (M1 i d N)).
        split; [discriminate|intros [H _]; discriminate]. }
    destruct S2 as (ds2 & -> & L2 & A2 & R2). cbn [bindO]. eexists. split; [reflexivity|]. split; [rewrite map_length; exact L2|].
    intros i d N. set (g := fun d : dset => if negb (empty_set d) then erase_none d else d) in *.
    assert (G : forall d, d_equal (g d) = d_equal d /\ d_fb (g d) = d_fb d /\ d_none (g d) = false).
    { intros [[] [] []]; cbn; auto. }
    assert (Mk : forall k, marked (map g ds2) k <-> marked ds2 k).
    { intros k. unfold marked. rewrite nth_error_map. destruct (nth_error ds2 k) as [x|]; cbn; [|split; intros (? & ? & _); discriminate].
      destruct (G x) as (G1 & G2 & _). split; intros (y & E & Q); injection E as <-; eexists; (split; [reflexivity|]); rewrite ?G1, ?G2 in *; exact Q. }
    rewrite nth_error_map in N. destruct (nth_error ds2 i) as [x|] eqn:Nx; [|discriminate]. cbn in N. injection N as <-.
    destruct (G x) as (-> & -> & ->). split; [|split; [|reflexivity]].
    - destruct (nth_error ds1 i) as [y|] eqn:Ny; [|apply nth_error_None in Ny; assert (i < length ds2) by (apply nth_error_Some; congruence); lia].
      destruct (A2 i y Ny) as (x' & Nx' & _ & Eq). rewrite Nx in Nx'. injection Nx' as <-. rewrite Eq. apply (M1 i y Ny).
    - rewrite (R2 i x Nx). split; intros (H1 & H2 & j & (K1 & K2 & K3) & H3); (split; [exact H1|]; split; [exact H2|]; exists j; split; [|exact H3]);
        (split; [exact K1|]; split; [rewrite Mk in *; exact K2|intros k Hk; apply Mk, K3, Hk]).
  Qed.

  (** the points whose set contains [none] *)
  Definition sound_points (line : list P) (ds : list dset) : list P := map fst (filter (fun x => d_none (snd x)) (combine line ds)).

  Lemma to_remove_ge ds : forall i k, In k (to_remove i ds) -> i <= k.
  Proof.
    induction ds as [|d r IH]; intros i k H; cbn in H; [destruct H|]. destruct (d_none d); cbn in H.
    - apply IH in H. lia.
    - destruct H as [->|H]; [lia|]. apply IH in H. lia.
  Qed.
  Lemma to_remove_sorted ds : forall i, StronglySorted lt (to_remove i ds).
  Proof.
    induction ds as [|d r IH]; intros i; cbn; [constructor|]. destruct (d_none d); cbn; [apply IH|]. constructor; [apply IH|].
    apply Forall_forall. intros k H. apply to_remove_ge in H. lia.
  Qed.
  (** Removing: exactly the points whose set contains [none] stay, in their order. *)
  Theorem C42_remove line ds : length ds = length line -> remove_defects line ds = sound_points line ds.
  Proof.
    intros L. unfold remove_defects. rewrite erase_keep by apply to_remove_sorted. unfold sound_points.
    generalize 0 as i. revert ds L. induction line as [|p line IH]; intros [|d ds] L i; try discriminate; [reflexivity|].
    cbn [keep to_remove combine filter snd]. cbn in L. destruct (d_none d) eqn:E; cbn [negb].
    - assert (X : existsb (Nat.eqb i) (to_remove (S i) ds) = false).
      { apply not_true_iff_false. rewrite existsb_eqb_In. intros H. apply to_remove_ge in H. lia. }
      rewrite X. cbn. f_equal. apply IH. lia.
    - cbn [existsb]. rewrite Nat.eqb_refl. cbn [orb]. rewrite <- (IH ds ltac:(lia) (S i)).
      apply keep_ext. intros j Hj. cbn. split; [|auto]. intros [H|H]; [lia|exact H].
  Qed.

  (** What is not true: [none] is erased from every set, not just from the sets of the defects, so that after detecting,
      removing the defects removes every point of every track. *)
  Theorem C42_detect_remove_refuted fuel line dup fb : 2 * length line + 1 < fuel ->
    exists ds, detect equals sharp fuel line dup fb = Ok ds /\ remove_defects line ds = [].
  Proof.
    intros B. destruct (C42_detect fuel line dup fb B) as (ds & E & L & H). exists ds. split; [exact E|].
    rewrite (C42_remove line ds L). unfold sound_points.
    replace (filter _ _) with (@nil (P * dset)); [reflexivity|]. symmetry.
    assert (A : forall x, In x (combine line ds) -> d_none (snd x) = false).
    { intros [p d] I. apply in_combine_r in I. apply In_nth_error in I. destruct I as (i & N). apply (H i d N). }
    revert A. generalize (combine line ds). induction l as [|x r IH]; intros A; [reflexivity|]. cbn. rewrite (A x (or_introl eq_refl)).
    apply IH. intros y Hy. apply A. right. exact Hy.
  Qed.

  (** What is not true: the environments do not remove duplicates at all, as they look for them in a track already moved
      away. Whatever the track is, it stays as it is. *)
  Theorem C42_set_refuted filter track : set_track equals sharp filter track = Ok track.
  Proof. destruct filter; reflexivity. Qed.
End C42.

(** a track with a duplicate at 1, at 3 and 4, and turning back at 7 *)
Definition Nsharp (o p q : nat) : bool := (o <? p) && (q <? p) || (p <? o) && (p <? q).
Example C42_demo : detect Nat.eqb Nsharp 20 [1; 1; 4; 4; 4; 6; 8; 7; 9; 5] true true
  = Ok (map (fun x => mkSet false (fst x) (snd x))
        [(false, false); (true, false); (false, false); (true, false); (true, false); (false, false); (false, false); (false, true); (false, false); (false, true)]).
Proof. reflexivity. Qed.
Example C42_remove_demo : remove_defects [1; 1; 4; 4] [mkSet true false false; mkSet false true false; mkSet true false false; mkSet false true false] = [1; 4].
Proof. reflexivity. Qed.
Example C42_set_demo : set_track Nat.eqb Nsharp true [1; 1; 4; 4] = Ok [1; 1; 4; 4] /\ repeats Nat.eqb [1; 1; 4; 4] 1.
Proof. split; [reflexivity|]. exists 0, 1, 1. auto. Qed.

Print Assumptions C42_detect.
Print Assumptions C42_remove.
Print Assumptions C42_detect_remove_refuted.
Print Assumptions C42_set_refuted.
