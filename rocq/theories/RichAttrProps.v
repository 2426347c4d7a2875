(** C22, C23: the attributes of eager and lazy lines. *)
From Coq Require Import ZArith Sorted.
From Verif Require Import Base ListAux Simplify SimplifyProofs RichLine RichLineProofs.
Local Open Scope nat_scope.

Section C22.
  Context {P L A : Type}.
  Variable eqp : P -> P -> bool.
  Variable dist : P -> P -> L.
  Variable azi : P -> P -> A.
  Variable addL : L -> L -> L.
  Variable zeroL : L.
  Variable addA : A -> A -> A.
  Variable zeroA : A.
  Variable diffA : A -> A -> A.
  Variable absA : A -> A.
  (** equal points have the same relation, distance and azimuth to other points *)
  Hypothesis dist_congruent : forall a b c, eqp a b = true -> eqp a c = eqp b c /\ dist a c = dist b c.
  Hypothesis azi_congruent : forall a b c, eqp a b = true -> eqp a c = eqp b c /\ azi a c = azi b c.

  Notation rich := (@rich P L A).
  Notation spec_len := (spec_len eqp dist addL zeroL).
  Notation spec_az := (spec_az eqp azi).
  Notation spec_dirs := (spec_dirs eqp azi addA zeroA diffA).
  Notation fulldata := (fulldata eqp dist azi addL zeroL addA zeroA diffA absA).
  Notation faithful := (faithful eqp dist azi addL zeroL addA zeroA diffA absA).

  Notation eager_make := (eager_make eqp dist azi addL zeroL addA zeroA diffA absA).
  Notation eager_of := (eager_of eqp dist azi addL zeroL addA zeroA diffA absA).
  Notation eager_assign_line := (eager_assign_line eqp dist azi addL zeroL addA zeroA diffA absA).
  Notation eager_merge := (eager_merge eqp dist azi addL zeroL addA zeroA diffA absA).
  Notation lazy_merge := (lazy_merge eqp (L := L) (A := A)).
  Notation eager_sub := (eager_sub eqp dist azi addL zeroL addA zeroA diffA absA).
  Notation eager_erase := (eager_erase eqp dist azi addL zeroL addA zeroA diffA absA).
  Notation lazy_erase := (lazy_erase eqp dist azi).
  Notation eager_erase_all := (eager_erase_all eqp dist azi addL zeroL addA zeroA diffA absA).
  Notation lazy_erase_all := (lazy_erase_all eqp dist azi).
  Notation eager_of_lazy := (eager_of_lazy eqp dist azi addL zeroL addA zeroA diffA absA).
  Notation lazy_get_length := (lazy_get_length eqp dist addL zeroL).
  Notation lazy_get_azimuth := (lazy_get_azimuth eqp azi).
  Notation lazy_get_directions := (lazy_get_directions eqp azi addA zeroA diffA absA).
  Notation lazy_get_length_at := (lazy_get_length_at eqp dist).
  Notation lazy_get_azimuth_at := (lazy_get_azimuth_at eqp azi).

  (** *** Histories: how eager and lazy lines come about.  The cases left out are shown to be wrong below. *)
  Inductive kind := Eager | Lazy.
  Inductive built : kind -> rich -> Prop :=
  | b_default k : built k (mkRich data0 [])
  (* eager *)
  | b_line line r : eager_of line = Ok r -> built Eager r
  | b_assign r line r' : built Eager r -> eager_assign_line r line = Ok r' -> built Eager r'
  | b_merge r rs r' : built Eager r -> (forall x, In x rs -> built Eager x) -> eager_merge r rs = Ok r' -> built Eager r'
  | b_sub r from to r' : built Eager r -> ~ (from = 0 /\ to + 1 = length (r_line r)) -> eager_sub r from to = Ok r' -> built Eager r'
  | b_erase r i r' : built Eager r -> i < length (r_line r) -> i = 0 \/ i + 1 <> length (r_line r) -> eager_erase r i = Ok r' -> built Eager r'
  | b_erase_all r idx r' : built Eager r -> StronglySorted lt idx -> Forall (fun i => i < length (r_line r)) idx ->
      eager_erase_all r idx = Ok r' -> built Eager r'
  | b_of_lazy r r' : built Lazy r -> length (r_line r) <> 2 -> eager_of_lazy r = Ok r' -> built Eager r'
  (* lazy *)
  | z_line line : built Lazy (lazy_of line)
  | z_assign r line : built Lazy r -> built Lazy (lazy_assign_line r line)
  | z_merge r rs r' : built Lazy r -> (forall x, In x rs -> built Lazy x) -> lazy_merge r rs = Ok r' -> built Lazy r'
  | z_sub r from to r' : built Lazy r -> ~ (from = 0 /\ to + 1 = length (r_line r)) -> lazy_sub r from to = Ok r' -> built Lazy r'
  | z_erase r i r' : built Lazy r -> i < length (r_line r) -> i = 0 \/ i + 1 <> length (r_line r) -> lazy_erase r i = Ok r' -> built Lazy r'
  | z_erase_all r idx r' : built Lazy r -> StronglySorted lt idx -> Forall (fun i => i < length (r_line r)) idx ->
      lazy_erase_all r idx = Ok r' -> built Lazy r'
  | z_of_eager r : built Eager r -> built Lazy (lazy_of_eager r)
  | z_length r r' : built Lazy r -> lazy_get_length r = Ok r' -> built Lazy r'
  | z_azimuth r r' : built Lazy r -> lazy_get_azimuth r = Ok r' -> built Lazy r'
  | z_directions r r' : built Lazy r -> lazy_get_directions r = Ok r' -> built Lazy r'
  | z_length_at r pos r' : built Lazy r -> lazy_get_length_at r pos = Ok r' -> built Lazy r'
  | z_azimuth_at r pos r' : built Lazy r -> lazy_get_azimuth_at r pos = Ok r' -> built Lazy r'.

  Definition eager_ok (r : rich) : Prop := r_data r = fulldata (r_line r) \/ r = mkRich data0 [].
  Definition lazy_ok (r : rich) : Prop := faithful (r_line r) (r_data r).

  Lemma eager_lists r : eager_ok r -> lists_full eqp dist azi (r_line r) (r_data r).
  Proof. intros [E| ->]; [rewrite E; split; reflexivity|]. split; reflexivity. Qed.
  Lemma eager_ok_lazy r : eager_ok r -> lazy_ok r.
  Proof. intros [E| ->]; unfold lazy_ok; [rewrite E; apply fulldata_faithful|apply data0_faithful]. Qed.
  Lemma lazy_lists r : lazy_ok r -> lists_ok eqp dist azi (r_line r) (r_data r).
  Proof. intros F. split; apply F. Qed.
  Lemma make_fresh line d : d_len d = Uninit -> d_az d = Uninit -> d_dirs d = Uninit ->
    (d_lens d = [] \/ d_lens d = full eqp dist line) -> (d_azs d = [] \/ d_azs d = full eqp azi line) ->
    eager_make line d = Ok (mkRich (fulldata line) line).
  Proof. intros. unfold RichLine.eager_make, on_line. rewrite compute_fresh by assumption. reflexivity. Qed.
  Lemma faithful_lists line d : d_len d = Uninit -> okv (d_az d) (to_cv (spec_az line)) -> d_dirs d = Uninit ->
    lists_ok eqp dist azi line d -> faithful line d.
  Proof. intros H1 H2 H3 [H4 H5]. constructor; auto. Qed.

  Lemma sub_line_inv {line from to} {line' : list P} : sub_line line from to = Ok line' ->
    from <= to /\ from < length line /\ to <= length line /\ line' = firstn (to - from) (skipn from line).
  Proof.
    unfold sub_line. destruct ((from <=? to) && (from <? length line) && (to <=? length line)) eqn:E; [|discriminate]. intros H. injection H as <-.
    apply andb_true_iff in E as [E E3]. apply andb_true_iff in E as [E1 E2]. apply Nat.leb_le in E1, E3. apply Nat.ltb_lt in E2. auto.
  Qed.
  Lemma single_ends line i : i = 0 \/ i + 1 <> length line -> ((i =? 0) || (i + 1 =? length (erase_point line i))) = false ->
    spec_az (erase_point line i) = spec_az line.
  Proof.
    intros H E. apply orb_false_iff in E as [E1 E2]. apply Nat.eqb_neq in E1. destruct H as [H|H]; [congruence|].
    destruct (Nat.ltb_spec i (length line)) as [G|G].
    - apply (spec_az_erase eqp dist azi addL zeroL addA zeroA diffA absA line [i]); [repeat constructor|constructor; auto|discriminate|].
      cbn. apply orb_false_iff. split; apply Nat.eqb_neq; lia.
    - unfold erase_point. replace (i <? length line) with false by (symmetry; apply Nat.ltb_ge; lia). reflexivity.
  Qed.

  Lemma initialize_at_spec {V} (f : P -> P -> V) line l pos l' : ok_list eqp f line l -> initialize_at eqp f line l pos = Ok l' ->
    Forall2 okv l' (full eqp f line) /\ nth_error l' pos = nth_error (full eqp f line) pos /\ pos < length line - 1.
  Proof.
    intros O H. unfold initialize_at in H. pose proof (compute_list_ok eqp f line l O) as C. set (m := compute_list eqp f line l) in *.
    pose proof (Forall2_len _ _ _ C) as Len. rewrite full_length in Len.
    destruct (nth_error m pos) as [c|] eqn:N; [|discriminate].
    assert (Hp : pos < length line - 1) by (rewrite <- Len; apply nth_error_Some; congruence).
    assert (R : c <> Uninit -> Ok m = Ok l' -> Forall2 okv l' (full eqp f line) /\ nth_error l' pos = nth_error (full eqp f line) pos /\ pos < length line - 1).
    { intros Nu E. injection E as <-. split; [exact C|]. split; [|exact Hp]. rewrite N. clear -C N Nu.
      revert pos N. induction C as [|x y m' q O C IH]; intros [|pos] N; try discriminate; cbn in *; [|auto].
      injection N as ->. destruct O as [->| ->]; congruence. }
    destruct c; [|apply R; [discriminate|exact H]|apply R; [discriminate|exact H]]. clear R.
    destruct (segment line pos) as [s|] eqn:S; [|discriminate]. injection H as <-.
    assert (Nf : nth_error (full eqp f line) pos = Some (seg_value eqp f s)).
    { unfold full. rewrite nth_error_map, segments_nth, S. reflexivity. }
    destruct (nth_error_split _ _ Nf) as (x & y & Ef & Lx). rewrite Ef in C. apply Forall2_app_inv_r in C as (m1 & m2 & C1 & C2 & Em).
    inversion C2 as [|c' s' m2' y' _ C3]; subst m2 s' y'. rewrite Em.
    assert (L1 : length m1 = pos) by (rewrite (Forall2_len _ _ _ C1); exact Lx).
    rewrite firstn_app, <- L1, firstn_all, Nat.sub_diag, skipn_app, skipn_all2 by lia. replace (length m1 + 1 - length m1) with 1 by lia.
    cbn [firstn skipn app]. rewrite app_nil_r, L1, Nf, Ef. split; [apply Forall2_app; [exact C1|constructor; [apply okv_refl|exact C3]]|].
    split; [|exact Hp]. rewrite nth_error_app2 by lia. rewrite L1, Nat.sub_diag. reflexivity.
  Qed.
  Lemma okv_full_keep {V} (f : P -> P -> V) line l pos l' : l = full eqp f line -> initialize_at eqp f line l pos = Ok l' -> l' = full eqp f line.
  Proof.
    intros -> H. unfold initialize_at in H.
    assert (Cf : compute_list eqp f line (full eqp f line) = full eqp f line).
    { unfold compute_list. destruct (full eqp f line) eqn:E; [exact E|reflexivity]. }
    rewrite Cf in H.
    destruct (nth_error (full eqp f line) pos) as [c|] eqn:N; [|discriminate].
    assert (c <> Uninit). { unfold full in N. rewrite nth_error_map in N. destruct (nth_error (segments line) pos); [|discriminate]. injection N as <-. unfold seg_value. destruct (eqp _ _); discriminate. }
    destruct c; congruence.
  Qed.

  (** the invariant of all histories *)
  Lemma built_ok k r : built k r -> match k with Eager => eager_ok r | Lazy => lazy_ok r end.
  Proof.
    induction 1 as [k|line r E|r line r' B IH E|r rs r' B IH Bs IHs E|r from to r' B IH X E|r i r' B IH Hi X E|r idx r' B IH So In' E|r r' B IH Ne E
                   |line|r line B IH|r rs r' B IH Bs IHs E|r from to r' B IH X E|r i r' B IH Hi X E|r idx r' B IH So In' E|r B IH|r r' B IH E|r r' B IH E|r r' B IH E|r pos r' B IH E|r pos r' B IH E].
    - destruct k; [right; reflexivity|apply data0_faithful].
    - unfold RichLine.eager_of in E. rewrite make_fresh in E by (cbn; auto). injection E as <-. left. reflexivity.
    - unfold RichLine.eager_assign_line in E. rewrite make_fresh in E by (cbn; auto). injection E as <-. left. reflexivity.
    - unfold RichLine.eager_merge, merge_raw in E. destruct (plain_merge eqp (r_line r) (map r_line rs)) as [line| | |] eqn:M; try discriminate.
      destruct (merge_raw_full eqp dist azi r rs line) as (d & Em & Fl); auto.
      { apply eager_lists. exact IH. } { intros x Hx. apply eager_lists. apply IHs. exact Hx. }
      unfold merge_raw in Em. rewrite M in Em. cbn [bindO] in E, Em. injection Em as Ed. rewrite Ed in E.
      cbn [r_line r_data] in E. rewrite rebuild_full in E; [|apply Fl|apply Fl|discriminate]. cbn in E. injection E as <-. left. reflexivity.
    - unfold RichLine.eager_sub in E. destruct (sub_line (r_line r) from to) as [line| | |] eqn:S; try discriminate. cbn [bindO] in E.
      destruct (sub_line_inv S) as (H1 & H2 & H3 & ->). pose proof (eager_lists r IH) as Lf.
      assert (Lo : lists_ok eqp dist azi (r_line r) (r_data r)) by (apply lazy_lists, eager_ok_lazy; exact IH).
      destruct (sub_data_spec eqp dist azi (r_line r) (r_data r) from to H1 H3 X Lo) as (S1 & S2 & S3 & S4 & S5 & S6). destruct (S6 Lf) as [S7 S8].
      rewrite make_fresh in E by assumption. injection E as <-. left. reflexivity.
    - pose proof (eager_lists r IH) as Lf. unfold RichLine.eager_erase in E.
      destruct (erase_raw_full eqp dist azi r i Lf) as (d & Er & Lf' & Sc). rewrite Er in E. cbn [bindO r_line r_data] in E.
      assert (Az : ((i =? 0) || (i + 1 =? length (erase_point (r_line r) i))) = false -> d_az d = to_cv (spec_az (erase_point (r_line r) i))).
      { intros T. rewrite single_ends by assumption. destruct Sc as (_ & -> & _). destruct IH as [Ed| ->]; [rewrite Ed; reflexivity|]. cbn in Hi. lia. }
      rewrite rebuild_full in E; [|apply Lf'|apply Lf'|exact Az]. cbn in E. injection E as <-. left. reflexivity.
    - destruct idx as [|i0 idx]; [injection E as <-; exact IH|]. remember (i0 :: idx) as ix eqn:Ei. pose proof (eager_lists r IH) as Lf.
      assert (E' : bindO (foldO (erase_raw eqp dist azi) (rev ix) r) (fun x => x)
                     (fun r1 => on_line r1 (rebuild eqp dist azi addL zeroL addA zeroA diffA absA (r_line r1) (ends_touched r ix) (r_data r1))) = Ok r').
      { rewrite <- E. subst ix. reflexivity. }
      clear E. destruct (erase_fold eqp dist azi (lists_full eqp dist azi) (erase_raw_full eqp dist azi) (rev ix) r Lf) as (d & Er & Lf' & Sc).
      rewrite Er in E'. cbn [bindO r_line r_data] in E'.
      assert (Az : ends_touched r ix = false -> d_az d = to_cv (spec_az (fold_left erase_point (rev ix) (r_line r)))).
      { intros T. rewrite (spec_az_erase eqp dist azi addL zeroL addA zeroA diffA absA); auto; [|subst ix; discriminate].
        destruct Sc as (_ & -> & _). destruct IH as [Ed| ->]; [rewrite Ed; reflexivity|]. subst ix. inversion In'; subst. cbn in *. lia. }
      rewrite rebuild_full in E'; [|apply Lf'|apply Lf'|exact Az]. cbn in E'. injection E' as <-. left. reflexivity.
    - unfold RichLine.eager_of_lazy, eager_assign_lazy, eager_default in E. cbn [r_data data0 d_lens d_azs app] in E.
      unfold compute in E.
      destruct (compute_length_spec eqp dist azi addL zeroL addA zeroA diffA absA _ _ IH) as (d1 & E1 & F1 & A1 & A2 & A3 & A4 & A5 & A6). rewrite E1 in E. cbn [bindO] in E.
      destruct (compute_azimuth_spec eqp dist azi addL zeroL addA zeroA diffA absA _ _ F1) as (F2 & B1 & B2 & B3 & B4 & B5 & B6).
      destruct (compute_directions_spec eqp dist azi addL zeroL addA zeroA diffA absA _ _ F2) as (d3 & E3 & F3 & C1 & C2 & C3 & C4 & C5 & C6 & C7).
      rewrite E3 in E. cbn [bindO] in E. injection E as <-. left. cbn [r_data r_line]. unfold RichLineProofs.fulldata.
      destruct C6 as [C6|C6]; [congruence|]. f_equal; congruence.
    - apply data0_faithful.
    - apply data0_faithful.
    - unfold RichLine.lazy_merge, merge_raw in E. destruct (plain_merge eqp (r_line r) (map r_line rs)) as [line| | |] eqn:M; try discriminate.
      destruct (merge_raw_ok eqp dist azi r rs line) as (d & Em & Fl); auto.
      { apply lazy_lists. exact IH. } { intros x Hx. apply lazy_lists. apply IHs. exact Hx. }
      unfold merge_raw in Em. rewrite M in Em. cbn [bindO] in E, Em. injection Em as Ed. rewrite Ed in E. injection E as <-.
      apply faithful_lists; [reflexivity|left; reflexivity|reflexivity|exact Fl].
    - unfold lazy_sub in E. destruct (sub_line (r_line r) from to) as [line| | |] eqn:S; try discriminate. cbn [bindO] in E. injection E as <-.
      destruct (sub_line_inv S) as (H1 & H2 & H3 & ->). 
      destruct (sub_data_spec eqp dist azi (r_line r) (r_data r) from to H1 H3 X (lazy_lists r IH)) as (S1 & S2 & S3 & S4 & S5 & S6).
      apply faithful_lists; cbn [r_line r_data]; auto. left. exact S2.
    - unfold RichLine.lazy_erase in E. destruct (erase_raw_ok eqp dist azi r i (lazy_lists r IH)) as (d & Er & Lf' & Sc). rewrite Er in E.
      cbn [bindO r_line r_data] in E. injection E as <-. apply faithful_lists; cbn [r_line r_data invalidate d_len d_az d_dirs]; auto.
      destruct ((i =? 0) || (i + 1 =? length (erase_point (r_line r) i))) eqn:T; [left; reflexivity|].
      rewrite single_ends by assumption. destruct Sc as (_ & -> & _). apply IH.
    - destruct idx as [|i0 idx]; [injection E as <-; exact IH|]. remember (i0 :: idx) as ix eqn:Ei.
      assert (E' : bindO (foldO (erase_raw eqp dist azi) (rev ix) r) (fun x => x)
                     (fun r1 => Ok (mkRich (invalidate true (ends_touched r ix) true false false (r_data r1)) (r_line r1))) = Ok r').
      { rewrite <- E. subst ix. reflexivity. }
      clear E. destruct (erase_fold eqp dist azi (lists_ok eqp dist azi) (erase_raw_ok eqp dist azi) (rev ix) r (lazy_lists r IH)) as (d & Er & Lf' & Sc).
      rewrite Er in E'. cbn [bindO r_line r_data] in E'. injection E' as <-. apply faithful_lists; cbn [r_line r_data invalidate d_len d_az d_dirs]; auto.
      destruct (ends_touched r ix) eqn:T; [left; reflexivity|].
      rewrite (spec_az_erase eqp dist azi addL zeroL addA zeroA diffA absA); auto; [|subst ix; discriminate]. destruct Sc as (_ & -> & _). apply IH.
    - apply eager_ok_lazy. exact IH.
    - unfold RichLine.lazy_get_length, on_line in E.
      destruct (compute_length_spec eqp dist azi addL zeroL addA zeroA diffA absA _ _ IH) as (d1 & E1 & F1 & _). rewrite E1 in E. injection E as <-. exact F1.
    - unfold RichLine.lazy_get_azimuth in E. injection E as <-.
      destruct (compute_azimuth_spec eqp dist azi addL zeroL addA zeroA diffA absA _ _ IH) as (F1 & _). exact F1.
    - unfold RichLine.lazy_get_directions, on_line in E.
      destruct (compute_directions_spec eqp dist azi addL zeroL addA zeroA diffA absA _ _ IH) as (d1 & E1 & F1 & _). rewrite E1 in E. injection E as <-. exact F1.
    - unfold RichLine.lazy_get_length_at in E. destruct (initialize_at eqp dist (r_line r) (d_lens (r_data r)) pos) as [l| | |] eqn:I; try discriminate.
      cbn [bindO] in E. injection E as <-. destruct IH as [G1 G2 G3 G4 G5]. destruct (initialize_at_spec dist _ _ _ _ G4 I) as [Fl _].
      constructor; cbn; auto; [|right; exact Fl]. destruct G1 as [G1|[G1 G1']]; [left; exact G1|]. right. split; [exact G1|].
      apply (okv_full_keep dist _ _ _ _ G1' I).
    - unfold RichLine.lazy_get_azimuth_at in E. destruct (initialize_at eqp azi (r_line r) (d_azs (r_data r)) pos) as [l| | |] eqn:I; try discriminate.
      cbn [bindO] in E. injection E as <-. destruct IH as [G1 G2 G3 G4 G5]. destruct (initialize_at_spec azi _ _ _ _ G5 I) as [Fl _].
      constructor; cbn; auto; [|right; exact Fl]. destruct G3 as [G3|[G3|(G3 & G3' & [G3''|G3''])]]; auto; right; right; repeat split; auto.
      right. apply (okv_full_keep azi _ _ _ _ G3'' I).
  Qed.

  (** what a caller sees of a cached value: it has one ([has_length()] etc.) or not *)
  Definition value {V} (c : cv V) : option V := match c with Val v => Some v | _ => None end.
  (** length or azimuth of a segment, none when its end points are equal *)
  Definition of_segment {V} (f : P -> P -> V) (s : P * P) : option V := if eqp (fst s) (snd s) then None else Some (f (fst s) (snd s)).

  Lemma value_to_cv {V} (o : option V) : value (to_cv o) = o.
  Proof. destruct o; reflexivity. Qed.
  Lemma value_full {V} (f : P -> P -> V) line : map value (full eqp f line) = map (of_segment f) (segments line).
  Proof. unfold full. rewrite map_map. apply map_ext. intros s. unfold seg_value, of_segment. destruct (eqp (fst s) (snd s)); reflexivity. Qed.

  (** **** C22: whatever the history, the attributes of an eager line are those of its points. *)
  Theorem C22_eager r : built Eager r ->
    value (d_len (r_data r)) = spec_len (r_line r)
    /\ value (d_az (r_data r)) = spec_az (r_line r)
    /\ value (d_dirs (r_data r)) = spec_dirs (fun x => x) (r_line r)
    /\ value (d_abs (r_data r)) = spec_dirs absA (r_line r)
    /\ map value (d_lens (r_data r)) = map (of_segment dist) (segments (r_line r))
    /\ map value (d_azs (r_data r)) = map (of_segment azi) (segments (r_line r))
    /\ (forall pos, match eager_direction diffA (r_data r) pos, plain_direction eqp azi diffA (r_line r) pos with
                    | Ok c, Ok c' => value c = value c'
                    | Throw _, Throw _ => True
                    | _, _ => False
                    end).
  Proof.
    intros B. pose proof (built_ok _ _ B) as K. cbn in K.
    destruct K as [K| ->]; [rewrite K; unfold RichLineProofs.fulldata; cbn; rewrite !value_to_cv, !value_full; repeat split|repeat split; intros; cbn; destruct pos; exact I].
    intros pos. unfold eager_direction, plain_direction. cbn [d_azs]. rewrite <- !segments_nth. unfold full. rewrite !nth_error_map.
    destruct (nth_error (segments (r_line r)) pos) as [[a b]|], (nth_error (segments (r_line r)) (pos + 1)) as [[c d]|];
      cbn [option_map]; try exact I; unfold seg_value; cbn [fst snd]; try (destruct (eqp a b); exact I).
    destruct (eqp a b), (eqp c d); reflexivity.
  Qed.

  (** **** C22: and so are those of a lazy line, whenever they are asked for. *)
  Theorem C22_lazy r : built Lazy r ->
    (exists r', lazy_get_length r = Ok r' /\ r_line r' = r_line r /\ value (d_len (r_data r')) = spec_len (r_line r))
    /\ (exists r', lazy_get_azimuth r = Ok r' /\ r_line r' = r_line r /\ value (d_az (r_data r')) = spec_az (r_line r))
    /\ (exists r', lazy_get_directions r = Ok r' /\ r_line r' = r_line r /\ value (d_dirs (r_data r')) = spec_dirs (fun x => x) (r_line r)
                   /\ value (d_abs (r_data r')) = spec_dirs absA (r_line r))
    /\ (forall pos s, segment (r_line r) pos = Some s ->
          (exists r', lazy_get_length_at r pos = Ok r' /\ r_line r' = r_line r /\ option_map value (nth_error (d_lens (r_data r')) pos) = Some (of_segment dist s))
          /\ (exists r', lazy_get_azimuth_at r pos = Ok r' /\ r_line r' = r_line r /\ option_map value (nth_error (d_azs (r_data r')) pos) = Some (of_segment azi s)))
    /\ (forall pos, segment (r_line r) pos = None ->
          (exists r', lazy_get_length_at r pos = Throw r') /\ (exists r', lazy_get_azimuth_at r pos = Throw r')).
  Proof.
    intros B. pose proof (built_ok _ _ B) as F. cbn in F. unfold lazy_ok in F.
    split; [|split; [|split; [|split]]].
    - destruct (compute_length_spec eqp dist azi addL zeroL addA zeroA diffA absA _ _ F) as (d1 & E1 & F1 & A1 & _).
      exists (mkRich d1 (r_line r)). unfold RichLine.lazy_get_length, on_line. rewrite E1. repeat split. cbn. rewrite A1. apply value_to_cv.
    - destruct (compute_azimuth_spec eqp dist azi addL zeroL addA zeroA diffA absA _ _ F) as (F1 & A1 & _).
      eexists. split; [reflexivity|]. split; [reflexivity|]. cbn [r_data]. rewrite A1. apply value_to_cv.
    - destruct (compute_directions_spec eqp dist azi addL zeroL addA zeroA diffA absA _ _ F) as (d1 & E1 & F1 & A1 & A2 & _).
      exists (mkRich d1 (r_line r)). unfold RichLine.lazy_get_directions, on_line. rewrite E1. cbn. rewrite A1, A2, !value_to_cv. auto.
    - intros pos s S.
      assert (G : forall {V} (f : P -> P -> V) l, ok_list eqp f (r_line r) l ->
                exists l', initialize_at eqp f (r_line r) l pos = Ok l' /\ option_map value (nth_error l' pos) = Some (of_segment f s)).
      { intros V f l O.
        assert (Len : length (compute_list eqp f (r_line r) l) = length (r_line r) - 1).
        { rewrite <- (full_length eqp f). apply (Forall2_len _ _ _ (compute_list_ok eqp f _ _ O)). }
        assert (Hp : pos < length (r_line r) - 1).
        { rewrite <- segments_length. apply nth_error_Some. rewrite segments_nth. congruence. }
        assert (I : exists l', initialize_at eqp f (r_line r) l pos = Ok l').
        { unfold initialize_at. destruct (nth_error (compute_list eqp f (r_line r) l) pos) as [c|] eqn:N; [|apply nth_error_None in N; lia].
          rewrite S. destruct c; eauto. }
        destruct I as (l' & I). exists l'. split; [exact I|]. destruct (initialize_at_spec f _ _ _ _ O I) as (_ & E & _). rewrite E.
        unfold full. rewrite nth_error_map, segments_nth, S. cbn. f_equal. unfold seg_value, of_segment. destruct (eqp (fst s) (snd s)); reflexivity. }
      split.
      + destruct (G L dist _ (fa_lens _ _ _ _ _ _ _ _ _ _ _ F)) as (l' & E & Q). eexists. unfold RichLine.lazy_get_length_at. rewrite E. cbn [bindO]. split; [reflexivity|]. auto.
      + destruct (G A azi _ (fa_azs _ _ _ _ _ _ _ _ _ _ _ F)) as (l' & E & Q). eexists. unfold RichLine.lazy_get_azimuth_at. rewrite E. cbn [bindO]. split; [reflexivity|]. auto.
    - intros pos S.
      assert (G : forall {V} (f : P -> P -> V) l, ok_list eqp f (r_line r) l -> exists l', initialize_at eqp f (r_line r) l pos = Throw l').
      { intros V f l O. unfold initialize_at. destruct (nth_error (compute_list eqp f (r_line r) l) pos) as [c|] eqn:N; [|eauto].
        assert (length (compute_list eqp f (r_line r) l) = length (r_line r) - 1).
        { rewrite <- (full_length eqp f). apply (Forall2_len _ _ _ (compute_list_ok eqp f _ _ O)). }
        assert (pos < length (segments (r_line r))) by (rewrite segments_length, <- H; apply nth_error_Some; congruence).
        apply nth_error_Some in H0. rewrite segments_nth in H0. congruence. }
      split.
      + destruct (G L dist _ (fa_lens _ _ _ _ _ _ _ _ _ _ _ F)) as (l' & E). eexists. unfold RichLine.lazy_get_length_at. rewrite E. reflexivity.
      + destruct (G A azi _ (fa_azs _ _ _ _ _ _ _ _ _ _ _ F)) as (l' & E). eexists. unfold RichLine.lazy_get_azimuth_at. rewrite E. reflexivity.
  Qed.

  (** **** C22: lines without cached data compute the same values on every call, and raise when there is none. *)
  Lemma plain_length_loop_spec segs : forall has acc,
    plain_length_loop eqp dist addL zeroL segs has acc =
    match filter (live eqp) segs with
    | [] => if has then Ok acc else Throw zeroL
    | l => Ok (fold_left addL (map (fun s => dist (fst s) (snd s)) l) acc)
    end.
  Proof.
    induction segs as [|[a b] segs IH]; intros has acc; [reflexivity|]. cbn [plain_length_loop filter]. unfold live at 1. cbn [fst snd].
    destruct (eqp a b); cbn [negb]; rewrite IH; [reflexivity|]. cbn [map fold_left fst snd]. destruct (filter (live eqp) segs); reflexivity.
  Qed.
  Lemma plain_directions_loop_spec g line : forall n pos has acc, n = length (segments line) - 1 - pos ->
    plain_directions_loop eqp azi addA zeroA diffA g line n pos has acc =
    match filter (fun t => live eqp (fst t) && live eqp (snd t)) (combine (skipn pos (segments line)) (tl (skipn pos (segments line)))) with
    | [] => if has then Ok acc else Throw zeroA
    | l => Ok (fold_left addA (map (fun t => g (diffA (azi (fst (fst t)) (snd (fst t))) (azi (fst (snd t)) (snd (snd t))))) l) acc)
    end.
  Proof.
    induction n as [|n IH]; intros pos has acc Hn.
    - destruct (skipn pos (segments line)) as [|x [|y r]] eqn:E; try reflexivity.
      apply (f_equal (@length _)) in E. rewrite skipn_length in E. cbn in E. lia.
    - destruct (skipn pos (segments line)) as [|[a b] [|[c d] r]] eqn:E; try (apply (f_equal (@length _)) in E; rewrite skipn_length in E; cbn in E; lia).
      assert (N1 : segment line pos = Some (a, b)) by (rewrite <- segments_nth, <- (Nat.add_0_r pos), <- nth_error_skipn, E; reflexivity).
      assert (N2 : segment line (pos + 1) = Some (c, d)) by (rewrite <- segments_nth, <- nth_error_skipn, E; reflexivity).
      assert (Sk : skipn (pos + 1) (segments line) = (c, d) :: r) by (rewrite <- skipn_add, E; reflexivity).
      cbn [plain_directions_loop]. unfold plain_direction. rewrite N1, N2.
      specialize (IH (pos + 1)). rewrite Sk in IH.
      change (combine ((a, b) :: (c, d) :: r) (tl ((a, b) :: (c, d) :: r))) with (((a, b), (c, d)) :: combine ((c, d) :: r) (tl ((c, d) :: r))).
      cbn [filter fst snd]. set (T := filter _ (combine ((c, d) :: r) (tl ((c, d) :: r)))) in *. clearbody T. unfold live. cbn [fst snd].
      destruct (eqp a b), (eqp c d); cbn [negb andb orb]; try (apply IH; lia).
      rewrite IH by lia. cbn [map fold_left fst snd]. destruct T; reflexivity.
  Qed.
  Theorem C22_plain line :
    plain_length eqp dist addL zeroL line = match spec_len line with Some v => Ok v | None => Throw zeroL end
    /\ plain_azimuth eqp azi zeroA line = match spec_az line with Some v => Ok v | None => Throw zeroA end
    /\ (forall g, plain_directions eqp azi addA zeroA diffA g line = match spec_dirs g line with Some v => Ok v | None => Throw zeroA end)
    /\ (plain_has_length eqp line = true <-> spec_len line <> None)
    /\ (plain_has_azimuth eqp line = true <-> spec_az line <> None)
    /\ (forall {V} (f : P -> P -> V) pos, plain_at eqp f line pos = match segment line pos with
          | Some s => match of_segment f s with Some v => Ok (Some v) | None => Throw None end
          | None => Throw None end).
  Proof.
    split; [|split; [|split; [|split; [|split]]]].
    - unfold plain_length, RichLineProofs.spec_len. rewrite plain_length_loop_spec. destruct (filter _ _); reflexivity.
    - unfold plain_azimuth, RichLineProofs.spec_az. destruct line as [|a [|b r]]; try reflexivity. rewrite (last_cons_default a b a r).
      destruct (eqp a (last (b :: r) b)); reflexivity.
    - intros g. unfold plain_directions, RichLineProofs.spec_dirs, turns. rewrite plain_directions_loop_spec by (rewrite segments_length; lia). cbn [skipn].
      destruct (filter _ _); reflexivity.
    - unfold plain_has_length, RichLineProofs.spec_len, live. rewrite existsb_exists. split.
      + intros (x & Hx & E). destruct (filter _ _) eqn:Ef; [|discriminate]. exfalso.
        assert (In x (filter (fun s => negb (eqp (fst s) (snd s))) (segments line))) by (apply filter_In; auto). rewrite Ef in H. exact H.
      + destruct (filter _ _) as [|x l] eqn:Ef; [congruence|]. intros _. exists x. apply (filter_In (fun s => negb (eqp (fst s) (snd s)))). rewrite Ef. left. reflexivity.
    - unfold plain_has_azimuth, RichLineProofs.spec_az. destruct line as [|a [|b r]]; try (split; [discriminate|congruence]).
      rewrite (last_cons_default a b a r). destruct (eqp a (last (b :: r) b)); cbn; split; congruence.
    - intros V f pos. unfold plain_at. destruct (segment line pos) as [[a b]|]; [|reflexivity]. unfold of_segment. cbn [fst snd]. destruct (eqp a b); reflexivity.
  Qed.

  (** **** C22: the operations succeed and have the expected points *)
  Theorem C22_operations :
    (forall line, exists r, eager_of line = Ok r /\ r_line r = line)
    /\ (forall r rs l, built Eager r -> (forall x, In x rs -> built Eager x) -> plain_merge eqp (r_line r) (map r_line rs) = Ok l ->
          exists r', eager_merge r rs = Ok r' /\ r_line r' = l)
    /\ (forall r i, built Eager r -> i < length (r_line r) -> i = 0 \/ i + 1 <> length (r_line r) ->
          exists r', eager_erase r i = Ok r' /\ r_line r' = firstn i (r_line r) ++ skipn (S i) (r_line r))
    /\ (forall r idx, built Eager r -> StronglySorted lt idx -> Forall (fun i => i < length (r_line r)) idx ->
          exists r', eager_erase_all r idx = Ok r'
            /\ r_line r' = map snd (filter (fun e => negb (existsb (Nat.eqb (fst e)) idx)) (combine (seq 0 (length (r_line r))) (r_line r))))
    /\ (forall r, built Lazy r -> exists r', eager_of_lazy r = Ok r' /\ r_line r' = r_line r).
  Proof.
    split; [|split; [|split; [|split]]].
    - intros line. eexists. unfold RichLine.eager_of. rewrite make_fresh by (cbn; auto). split; reflexivity.
    - intros r rs l B Bs M. unfold RichLine.eager_merge.
      destruct (merge_raw_full eqp dist azi r rs l) as (d & Em & Fl); auto.
      { apply eager_lists. apply (built_ok _ _ B). } { intros x Hx. apply eager_lists. apply (built_ok _ _ (Bs x Hx)). }
      rewrite Em. cbn [bindO r_line r_data]. rewrite rebuild_full; [|apply Fl|apply Fl|discriminate]. eexists. split; reflexivity.
    - intros r i B Hi X. unfold RichLine.eager_erase. pose proof (built_ok _ _ B) as IH. cbn in IH.
      destruct (erase_raw_full eqp dist azi r i (eager_lists r IH)) as (d & Er & Lf' & Sc). rewrite Er. cbn [bindO r_line r_data].
      assert (Az : ((i =? 0) || (i + 1 =? length (erase_point (r_line r) i))) = false -> d_az d = to_cv (spec_az (erase_point (r_line r) i))).
      { intros T. rewrite single_ends by assumption. destruct Sc as (_ & -> & _). destruct IH as [Ed| ->]; [rewrite Ed; reflexivity|]. cbn in Hi. lia. }
      rewrite rebuild_full; [|apply Lf'|apply Lf'|exact Az]. eexists. split; [reflexivity|]. cbn [r_line].
      unfold erase_point. replace (i <? length (r_line r)) with true by (symmetry; apply Nat.ltb_lt; exact Hi). reflexivity.
    - intros r ix B So In'. pose proof (built_ok _ _ B) as IH. cbn in IH.
      assert (K : forall (l : list P) idx i, keep idx i l = map snd (filter (fun e => negb (existsb (Nat.eqb (fst e)) idx)) (combine (seq i (length l)) l))).
      { induction l as [|p l Il]; intros idx i; [reflexivity|]. cbn [keep length seq combine filter fst]. rewrite Il. destruct (existsb (Nat.eqb i) idx); reflexivity. }
      rewrite <- K. destruct ix as [|i0 ix].
      { exists r. split; [reflexivity|]. rewrite keep_nil. reflexivity. }
      pose proof (eager_lists r IH) as Lf. unfold RichLine.eager_erase_all.
      destruct (erase_fold eqp dist azi (lists_full eqp dist azi) (erase_raw_full eqp dist azi) (rev (i0 :: ix)) r Lf) as (d & Er & Lf' & Sc).
      rewrite Er. cbn [bindO r_line r_data].
      assert (Az : ends_touched r (i0 :: ix) = false -> d_az d = to_cv (spec_az (fold_left erase_point (rev (i0 :: ix)) (r_line r)))).
      { intros T. rewrite (spec_az_erase eqp dist azi addL zeroL addA zeroA diffA absA); auto; [|discriminate].
        destruct Sc as (_ & -> & _). destruct IH as [Ed| ->]; [rewrite Ed; reflexivity|]. inversion In'; subst. cbn in *. lia. }
      rewrite rebuild_full; [|apply Lf'|apply Lf'|exact Az]. eexists. split; [reflexivity|]. cbn [r_line].
      rewrite <- (erase_keep _ _ So). reflexivity.
    - intros r B. pose proof (built_ok _ _ B) as IH. cbn in IH. unfold RichLine.eager_of_lazy, eager_assign_lazy, eager_default, compute.
      destruct (compute_length_spec eqp dist azi addL zeroL addA zeroA diffA absA _ _ IH) as (d1 & E1 & F1 & _). rewrite E1. cbn [bindO].
      destruct (compute_azimuth_spec eqp dist azi addL zeroL addA zeroA diffA absA _ _ F1) as (F2 & _).
      destruct (compute_directions_spec eqp dist azi addL zeroL addA zeroA diffA absA _ _ F2) as (d3 & E3 & _).
      rewrite E3. cbn [bindO]. eexists. split; reflexivity.
  Qed.

  (** **** C23: slices *)
  Theorem C23_eager r from to : built Eager r -> from <= to <= length (r_line r) -> from < length (r_line r) -> ~ (from = 0 /\ to + 1 = length (r_line r)) ->
    exists r', eager_sub r from to = Ok r' /\ built Eager r'
      /\ (forall i, nth_error (r_line r') i = if i <? to - from then nth_error (r_line r) (from + i) else None)
      /\ value (d_len (r_data r')) = match filter (fun s => negb (eqp (fst s) (snd s))) (segments (r_line r')) with
                                     | [] => None
                                     | l => Some (fold_left addL (map (fun s => dist (fst s) (snd s)) l) zeroL)
                                     end.
  Proof.
    intros B [H1 H2] H3 X. pose proof (built_ok _ _ B) as IH. cbn in IH. 
    assert (E : exists r', eager_sub r from to = Ok r' /\ r_line r' = firstn (to - from) (skipn from (r_line r))).
    { unfold RichLine.eager_sub, sub_line. apply Nat.leb_le in H1 as G1. apply Nat.leb_le in H2 as G2. apply Nat.ltb_lt in H3 as G3. rewrite G1, G2, G3. cbn [andb bindO].
      assert (Lo : lists_ok eqp dist azi (r_line r) (r_data r)) by (apply lazy_lists, eager_ok_lazy; exact IH).
      destruct (sub_data_spec eqp dist azi (r_line r) (r_data r) from to H1 H2 X Lo) as (S1 & S2 & S3 & S4 & S5 & S6). destruct (S6 (eager_lists r IH)) as [S7 S8].
      rewrite make_fresh by assumption. eexists. split; reflexivity. }
    destruct E as (r' & E & El). exists r'. assert (B' : built Eager r') by (eapply b_sub; eauto). split; [exact E|]. split; [exact B'|]. split.
    - intros i. rewrite El. destruct (Nat.ltb_spec i (to - from)) as [G|G].
      + rewrite nth_error_firstn_lt by exact G. apply nth_error_skipn.
      + apply nth_error_None. rewrite firstn_length. lia.
    - destruct (C22_eager _ B') as [-> _]. reflexivity.
  Qed.
  Theorem C23_lazy r from to : built Lazy r -> from <= to <= length (r_line r) -> from < length (r_line r) -> ~ (from = 0 /\ to + 1 = length (r_line r)) ->
    exists r' r'', lazy_sub r from to = Ok r' /\ built Lazy r' /\ lazy_get_length r' = Ok r''
      /\ (forall i, nth_error (r_line r'') i = if i <? to - from then nth_error (r_line r) (from + i) else None)
      /\ value (d_len (r_data r'')) = match filter (fun s => negb (eqp (fst s) (snd s))) (segments (r_line r')) with
                                     | [] => None
                                     | l => Some (fold_left addL (map (fun s => dist (fst s) (snd s)) l) zeroL)
                                     end.
  Proof.
    intros B [H1 H2] H3 X.
    assert (E : exists r', lazy_sub r from to = Ok r' /\ r_line r' = firstn (to - from) (skipn from (r_line r))).
    { unfold lazy_sub, sub_line. apply Nat.leb_le in H1 as G1. apply Nat.leb_le in H2 as G2. apply Nat.ltb_lt in H3 as G3. rewrite G1, G2, G3. cbn [andb bindO]. eexists. split; reflexivity. }
    destruct E as (r' & E & El). assert (B' : built Lazy r') by (eapply z_sub; eauto). destruct (C22_lazy _ B') as ((r'' & E'' & L'' & V'') & _).
    exists r', r''. split; [exact E|]. split; [exact B'|]. split; [exact E''|]. split.
    - intros i. rewrite L'', El. destruct (Nat.ltb_spec i (to - from)) as [G|G].
      + rewrite nth_error_firstn_lt by exact G. apply nth_error_skipn.
      + apply nth_error_None. rewrite firstn_length. lia.
    - rewrite V''. reflexivity.
  Qed.
  Theorem C23_out_of_range r from to : to < from \/ length (r_line r) <= from \/ length (r_line r) < to ->
    eager_sub r from to = Throw r /\ lazy_sub r from to = Throw r.
  Proof.
    intros H. assert (E : sub_line (r_line r) from to = Throw []).
    { unfold sub_line. destruct ((from <=? to) && (from <? length (r_line r)) && (to <=? length (r_line r))) eqn:E; [|reflexivity].
      apply andb_true_iff in E as [E E3]. apply andb_true_iff in E as [E1 E2]. apply Nat.leb_le in E1, E3. apply Nat.ltb_lt in E2. lia. }
    unfold RichLine.eager_sub, lazy_sub. rewrite E. split; reflexivity.
  Qed.
End C22.

(** *** An instance: integers as points, lengths and angles *)
Definition zdist (a b : Z) : Z := Z.abs (a - b).
Definition zazi (a b : Z) : Z := if (a <? b)%Z then 90%Z else (-90)%Z.
Definition zdiff (a b : Z) : Z := (b - a)%Z.
Notation zrich := (@rich Z Z Z).
Notation zbuilt := (built Z.eqb zdist zazi Z.add 0%Z Z.add 0%Z zdiff Z.abs).
Definition zeager := eager_of Z.eqb zdist zazi Z.add 0%Z Z.add 0%Z zdiff Z.abs.
Definition zmerge := eager_merge Z.eqb zdist zazi Z.add 0%Z Z.add 0%Z zdiff Z.abs.
Definition zerase := eager_erase Z.eqb zdist zazi Z.add 0%Z Z.add 0%Z zdiff Z.abs.
Definition zerase_all := eager_erase_all Z.eqb zdist zazi Z.add 0%Z Z.add 0%Z zdiff Z.abs.
Definition zsub := eager_sub Z.eqb zdist zazi Z.add 0%Z Z.add 0%Z zdiff Z.abs.
Definition zof_lazy := eager_of_lazy Z.eqb zdist zazi Z.add 0%Z Z.add 0%Z zdiff Z.abs.
Definition zlen := spec_len Z.eqb zdist Z.add 0%Z.
Definition zaz := spec_az Z.eqb zazi.
Definition getO {T} (d : T) (o : outcome T) : T := match o with Ok x => x | _ => d end.

Example C22_instance : forall a b c : Z, Z.eqb a b = true ->
  (Z.eqb a c = Z.eqb b c /\ zdist a c = zdist b c) /\ (Z.eqb a c = Z.eqb b c /\ zazi a c = zazi b c).
Proof. intros a b c H. apply Z.eqb_eq in H. subst. auto. Qed.

(** a history: two lines merged, a point erased, a slice taken; and the same with a lazy line *)
Definition demo1 : zrich := getO eager_default (zeager [0; 3; 3; 1]%Z).
Definition demo2 : zrich := getO eager_default (zmerge demo1 [getO eager_default (zeager [1; 7; 2]%Z); eager_default]).
Definition demo3 : zrich := getO eager_default (zerase demo2 1).
Definition demo4 : zrich := getO eager_default (zsub demo3 1 5).
Example C22_demo : zbuilt Eager demo4 /\ r_line demo4 = [3; 1; 7; 2]%Z /\ d_len (r_data demo4) = Val 13%Z
  /\ r_line demo2 = [0; 3; 3; 1; 7; 2]%Z /\ d_lens (r_data demo2) = [Val 3; Invalid; Val 2; Val 6; Val 5]%Z.
Proof.
  split; [|vm_compute; auto].
  assert (B1 : zbuilt Eager demo1) by (apply (b_line _ _ _ _ _ _ _ _ _ [0; 3; 3; 1]%Z); vm_compute; reflexivity).
  assert (B2 : zbuilt Eager demo2).
  { apply (b_merge _ _ _ _ _ _ _ _ _ demo1 [getO eager_default (zeager [1; 7; 2]%Z); eager_default]); [exact B1| |vm_compute; reflexivity].
    intros x [<-|[<-|[]]]; [apply (b_line _ _ _ _ _ _ _ _ _ [1; 7; 2]%Z); vm_compute; reflexivity|apply b_default]. }
  assert (B3 : zbuilt Eager demo3) by (apply (b_erase _ _ _ _ _ _ _ _ _ demo2 1); [exact B2|apply Nat.ltb_lt; vm_compute; reflexivity|right; apply Nat.eqb_neq; vm_compute; reflexivity|vm_compute; reflexivity]).
  apply (b_sub _ _ _ _ _ _ _ _ _ demo3 1 5); [exact B3|intros [G _]; discriminate G|vm_compute; reflexivity].
Qed.
Definition zlazy_merge := lazy_merge Z.eqb (P := Z) (L := Z) (A := Z).
Definition zlength_at := lazy_get_length_at Z.eqb zdist (A := Z).
(** a lazy line of which only one segment has been measured, merged with one that has not been measured at all *)
Definition demo5 : zrich := getO (lazy_of []) (zlength_at (lazy_of [0; 5; 9]%Z) 1).
Definition demo6 : zrich := getO (lazy_of []) (zlazy_merge demo5 [lazy_of [9; 1]%Z]).
Example C22_demo_lazy : zbuilt Lazy demo6 /\ r_line demo6 = [0; 5; 9; 1]%Z /\ d_lens (r_data demo6) = [Val 5; Val 4; Uninit]%Z.
Proof.
  split; [|vm_compute; auto].
  apply (z_merge _ _ _ _ _ _ _ _ _ demo5 [lazy_of [9; 1]%Z]); [| |vm_compute; reflexivity].
  - apply (z_length_at _ _ _ _ _ _ _ _ _ (lazy_of [0; 5; 9]%Z) 1); [apply z_line|vm_compute; reflexivity].
  - intros x [<-|[]]. apply z_line.
Qed.

(** *** What is not true *)

(** erasing the last point with [erase(index)] keeps the old azimuth: it is compared with the size after the removal *)
Theorem C22_erase_last_refuted : exists (r r' : zrich), zbuilt Eager r /\ zerase r (length (r_line r) - 1) = Ok r'
  /\ d_az (r_data r') = Val (-90)%Z /\ zaz (r_line r') = Some 90%Z.
Proof.
  exists (getO eager_default (zeager [1; 5; 0]%Z)). eexists. split; [apply (b_line _ _ _ _ _ _ _ _ _ [1; 5; 0]%Z); vm_compute; reflexivity|].
  vm_compute. auto.
Qed.
(** assigning a plain line keeps all attributes of the previous points *)
Theorem C22_assign_plain_refuted : exists (r r' : zrich) (line : list Z), zbuilt Eager r
  /\ eager_assign_plain Z.eqb zdist zazi Z.add 0%Z Z.add 0%Z zdiff Z.abs r line = Ok r' /\ r_line r' = line
  /\ d_len (r_data r') = Val 1%Z /\ zlen line = Some 99%Z.
Proof.
  exists (getO eager_default (zeager [0; 1]%Z)). eexists. exists [1; 100]%Z. split; [apply (b_line _ _ _ _ _ _ _ _ _ [0; 1]%Z); vm_compute; reflexivity|].
  vm_compute. auto.
Qed.
(** assigning a lazy line to a non-empty eager line appends the segment attributes to the old ones *)
Theorem C22_assign_lazy_refuted : exists (r o r' : zrich), zbuilt Eager r /\ zbuilt Lazy o
  /\ eager_assign_lazy Z.eqb zdist zazi Z.add 0%Z Z.add 0%Z zdiff Z.abs r o = Ok r' /\ r_line r' = r_line o
  /\ d_lens (r_data r') = [Val 1; Val 99]%Z /\ full Z.eqb zdist (r_line r') = [Val 99]%Z.
Proof.
  exists (getO eager_default (zeager [0; 1]%Z)), (lazy_of [1; 100]%Z). eexists. split; [apply (b_line _ _ _ _ _ _ _ _ _ [0; 1]%Z); vm_compute; reflexivity|].
  split; [apply z_line|]. vm_compute. auto.
Qed.
(** an eager line made from a merged lazy line with two points has no azimuth for its only segment *)
Theorem C22_of_lazy_refuted : exists (o r' : zrich), zbuilt Lazy o /\ zof_lazy o = Ok r'
  /\ d_azs (r_data r') = [Uninit] /\ full Z.eqb zazi (r_line r') = [Val 90]%Z.
Proof.
  exists (getO (lazy_of []) (zlazy_merge (lazy_of []) [lazy_of [3; 8]%Z])). eexists. split.
  - apply (z_merge _ _ _ _ _ _ _ _ _ (lazy_of []) [lazy_of [3; 8]%Z]); [apply z_line| |vm_compute; reflexivity]. intros x [<-|[]]. apply z_line.
  - vm_compute. auto.
Qed.
(** the direction at a point of a lazy line is never available *)
Theorem C22_lazy_direction_refuted : (exists line : list Z, spec_dirs Z.eqb zazi Z.add 0%Z zdiff (fun x => x) line = Some (-180)%Z)
  /\ forall (r : zrich) pos, exists r', lazy_get_direction_at Z.eqb zazi r pos = Throw r'.
Proof.
  split; [exists [0; 5; 1]%Z; reflexivity|]. intros r pos. unfold lazy_get_direction_at.
  destruct (pos + 1 <? length (compute_list Z.eqb zazi (r_line r) (d_azs (r_data r)))) eqn:E; [|eauto]. apply Nat.ltb_lt in E.
  assert (G : forall l p, match initialize_at Z.eqb zazi (r_line r) l p with Ok _ | Throw _ => True | _ => False end).
  { intros l p. unfold initialize_at. destruct (nth_error _ p) as [[]|]; auto. destruct (segment (r_line r) p); exact I. }
  set (l := compute_list Z.eqb zazi (r_line r) (d_azs (r_data r))). specialize (G l pos) as G1.
  destruct (initialize_at Z.eqb zazi (r_line r) l pos) as [l1| | |]; try destruct G1; cbn [bindO]; [|eauto].
  specialize (G l1 (pos + 1)). destruct (initialize_at Z.eqb zazi (r_line r) l1 (pos + 1)) as [l2| | |]; try destruct G; cbn [bindO]; eauto.
Qed.
(** a merge that raises leaves attributes of points that have not been taken over *)
Theorem C22_failed_merge_refuted : exists (r x r' : zrich), zbuilt Eager r /\ zbuilt Eager x /\ zmerge r [x] = Throw r'
  /\ r_line r' = r_line r /\ d_lens (r_data r) = [Val 1]%Z /\ d_lens (r_data r') = [Val 1; Val 4]%Z.
Proof.
  exists (getO eager_default (zeager [0; 1]%Z)), (getO eager_default (zeager [5; 9]%Z)). eexists.
  split; [apply (b_line _ _ _ _ _ _ _ _ _ [0; 1]%Z); vm_compute; reflexivity|]. split; [apply (b_line _ _ _ _ _ _ _ _ _ [5; 9]%Z); vm_compute; reflexivity|].
  vm_compute. auto.
Qed.
(** the azimuth of a multi-line whose first line is empty reads the first point of an empty line *)
Theorem C22_multi_azimuth_refuted : exists ls : list (list Z), multi_empty ls = false /\ multi_azimuth Z.eqb zazi 0%Z ls = UB.
Proof. exists [[]; [1; 2]%Z]. vm_compute. auto. Qed.
(** the slice of all points but the last reports the length of the whole line *)
Theorem C23_all_but_last_refuted : exists (r r' : zrich), zbuilt Eager r /\ zsub r 0 (length (r_line r) - 1) = Ok r'
  /\ r_line r' = [0; 1; 3]%Z /\ d_len (r_data r') = Val 7%Z /\ zlen (r_line r') = Some 3%Z.
Proof.
  exists (getO eager_default (zeager [0; 1; 3; 7]%Z)). eexists. split; [apply (b_line _ _ _ _ _ _ _ _ _ [0; 1; 3; 7]%Z); vm_compute; reflexivity|].
  vm_compute. auto.
Qed.

Print Assumptions C22_eager.
Print Assumptions C22_lazy.
Print Assumptions C22_plain.
Print Assumptions C22_operations.
Print Assumptions C23_eager.
Print Assumptions C23_lazy.
