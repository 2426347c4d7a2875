(** Proofs about lines with cached attributes. *)
From Coq Require Import Sorted.
From Verif Require Import Base ListAux Simplify SimplifyProofs RichLine.
Local Open Scope nat_scope.

Definition to_cv {V} (o : option V) : cv V := match o with None => Invalid | Some v => Val v end.
Definition okv {V} (c s : cv V) : Prop := c = Uninit \/ c = s.

Section Proofs.
  Context {P L A : Type}.
  Variable eqp : P -> P -> bool.
  Variable dist : P -> P -> L.
  Variable azi : P -> P -> A.
  Variable addL : L -> L -> L.
  Variable zeroL : L.
  Variable addA : A -> A -> A.
  Variable zeroA : A.
  Variable diffA : A -> A -> A.
  Variable absA : A -> A.

  Notation segment := (@segment P).
  Notation segments := (@segments P).
  Notation sv := (seg_value eqp).
  Notation data := (@data L A).

  (** *** segments *)
  Lemma segments_length line : length (segments line) = length line - 1.
  Proof. induction line as [|a [|b r] IH]; cbn in *; [reflexivity|reflexivity|]. rewrite IH. lia. Qed.
  Lemma segments_nth line : forall i, nth_error (segments line) i = segment line i.
  Proof.
    unfold RichLine.segment. induction line as [|a [|b r] IH]; intros i.
    - destruct i; reflexivity.
    - destruct i as [|i]; [reflexivity|]. cbn. destruct i; reflexivity.
    - destruct i as [|i]; [reflexivity|]. change (nth_error (segments (a :: b :: r)) (S i)) with (nth_error (segments (b :: r)) i). apply IH.
  Qed.
  Lemma segments_app u a v : segments (u ++ a :: v) = segments (u ++ [a]) ++ segments (a :: v).
  Proof.
    induction u as [|x [|y u] IH]; [destruct v; reflexivity|reflexivity|].
    cbn [app] in *. change (segments (x :: y :: u ++ a :: v)) with ((x, y) :: segments (y :: u ++ a :: v)). rewrite IH. reflexivity.
  Qed.

  (** *** initialization of lists *)
  Lemma init_list_spec {V} (f : P -> P -> V) line : forall l i,
    Forall2 okv l (map (sv f) (skipn i (segments line))) ->
    init_list eqp f line i l = Ok (map (sv f) (skipn i (segments line))).
  Proof.
    induction l as [|c l IH]; intros i H.
    - inversion H. reflexivity.
    - inversion H as [|c' s l' rest O F E1 E2]; subst.
      destruct (skipn i (segments line)) as [|sg rest'] eqn:Es; [discriminate|]. cbn [map] in E2. injection E2 as -> ->.
      assert (N : nth_error (segments line) i = Some sg).
      { rewrite <- (Nat.add_0_r i), <- nth_error_skipn, Es. reflexivity. }
      assert (Sk : skipn (i + 1) (segments line) = rest').
      { clear -Es. revert i Es. induction (segments line) as [|x r IHr]; intros [|i] Es; cbn in *; try discriminate; [injection Es as -> ->; reflexivity|].
        apply IHr. exact Es. }
      assert (R : init_list eqp f line (i + 1) l = Ok (map (sv f) rest')) by (rewrite <- Sk; apply IH; rewrite Sk; exact F).
      rewrite segments_nth in N. unfold okv in O. cbn [init_list map].
      destruct O as [->| ->].
      + rewrite N, R. reflexivity.
      + destruct (sv f sg) eqn:Ev; rewrite ?N, R; cbn [bindO]; rewrite ?Ev; reflexivity.
  Qed.

  Definition full {V} (f : P -> P -> V) (line : list P) : list (cv V) := map (sv f) (segments line).
  Definition ok_list {V} (f : P -> P -> V) (line : list P) (l : list (cv V)) : Prop := l = [] \/ Forall2 okv l (full f line).
  Lemma okv_refl {V} (c : cv V) : okv c c.
  Proof. right. reflexivity. Qed.
  Lemma okv_all {V} (l : list (cv V)) : Forall2 okv l l.
  Proof. induction l; constructor; [apply okv_refl|assumption]. Qed.
  Lemma full_ok {V} (f : P -> P -> V) line : ok_list f line (full f line).
  Proof. right. apply okv_all. Qed.
  Lemma full_length {V} (f : P -> P -> V) line : length (full f line) = length line - 1.
  Proof. unfold full. rewrite map_length. apply segments_length. Qed.
  Lemma ok_list_length {V} (f : P -> P -> V) line l : ok_list f line l -> l = [] \/ length l = length line - 1.
  Proof. intros [->|F]; [left; reflexivity|]. right. rewrite <- (full_length f). apply (Forall2_len _ _ _ F). Qed.

  Lemma compute_list_ok {V} (f : P -> P -> V) line l : ok_list f line l -> Forall2 okv (compute_list eqp f line l) (full f line).
  Proof. intros [->|F]; [apply okv_all|]. destruct l; [apply okv_all|]. exact F. Qed.
  Lemma init_compute {V} (f : P -> P -> V) line l : ok_list f line l ->
    init_list eqp f line 0 (compute_list eqp f line l) = Ok (full f line).
  Proof. intros H. apply (init_list_spec f line _ 0). apply compute_list_ok. exact H. Qed.

  (** *** specification of the attributes *)
  Definition live (s : P * P) : bool := negb (eqp (fst s) (snd s)).
  Definition spec_len (line : list P) : option L :=
    match filter live (segments line) with
    | [] => None
    | l => Some (fold_left addL (map (fun s => dist (fst s) (snd s)) l) zeroL)
    end.
  Definition spec_az (line : list P) : option A :=
    match line with
    | a :: _ :: _ => if eqp a (last line a) then None else Some (azi a (last line a))
    | _ => None
    end.
  Definition turns (line : list P) : list ((P * P) * (P * P)) :=
    filter (fun t => live (fst t) && live (snd t)) (combine (segments line) (tl (segments line))).
  Definition spec_dirs (g : A -> A) (line : list P) : option A :=
    match turns line with
    | [] => None
    | l => Some (fold_left addA (map (fun t => g (diffA (azi (fst (fst t)) (snd (fst t))) (azi (fst (snd t)) (snd (snd t))))) l) zeroA)
    end.

  Lemma sum_valid_spec segs : forall has acc,
    sum_valid addL (map (sv dist) segs) has acc =
    match filter live segs with
    | [] => if has then Val acc else Invalid
    | l => Val (fold_left addL (map (fun s => dist (fst s) (snd s)) l) acc)
    end.
  Proof.
    induction segs as [|s segs IH]; intros has acc; [reflexivity|].
    cbn [map sum_valid filter]. unfold seg_value at 1, live at 1. destruct (eqp (fst s) (snd s)); cbn [negb].
    - apply IH.
    - rewrite IH. cbn [map fold_left]. destruct (filter live segs); reflexivity.
  Qed.
  Lemma sum_valid_full line : sum_valid addL (full dist line) false zeroL = to_cv (spec_len line).
  Proof. unfold full. rewrite sum_valid_spec. unfold spec_len. destruct (filter live (segments line)); reflexivity. Qed.

  Lemma sum_directions_spec g segs : forall has acc,
    sum_directions addA diffA g (map (sv azi) segs) has acc =
    match filter (fun t => live (fst t) && live (snd t)) (combine segs (tl segs)) with
    | [] => if has then Val acc else Invalid
    | l => Val (fold_left addA (map (fun t => g (diffA (azi (fst (fst t)) (snd (fst t))) (azi (fst (snd t)) (snd (snd t))))) l) acc)
    end.
  Proof.
    induction segs as [|s [|t segs] IH]; intros has acc; [reflexivity| |].
    - cbn [map tl combine filter]. cbn. destruct (sv azi s); reflexivity.
    - change (combine (s :: t :: segs) (tl (s :: t :: segs))) with ((s, t) :: combine (t :: segs) (tl (t :: segs))).
      cbn [filter fst snd]. set (F := filter _ (combine (t :: segs) (tl (t :: segs)))) in *. clearbody F.
      change (map (sv azi) (s :: t :: segs)) with (sv azi s :: sv azi t :: map (sv azi) segs).
      change (map (sv azi) (t :: segs)) with (sv azi t :: map (sv azi) segs) in IH.
      unfold seg_value at 1 2. unfold seg_value at 1 in IH. unfold live.
      destruct (eqp (fst s) (snd s)) eqn:Es, (eqp (fst t) (snd t)) eqn:Et; cbn [negb andb]; try exact (IH has acc).
      etransitivity; [exact (IH true (addA acc (g (diffA (azi (fst s) (snd s)) (azi (fst t) (snd t))))))|].
      cbn [map fold_left fst snd]. destruct F; reflexivity.
  Qed.
  Lemma sum_directions_full g line : sum_directions addA diffA g (full azi line) false zeroA = to_cv (spec_dirs g line).
  Proof. unfold full. rewrite sum_directions_spec. unfold spec_dirs, turns. destruct (filter _ _); reflexivity. Qed.
  Lemma short_no_turns g line : length line <= 2 -> spec_dirs g line = None.
  Proof. intros H. destruct line as [|a [|b [|c r]]]; try reflexivity. cbn in H. lia. Qed.

  Lemma last_indep {T} (l : list T) d d' : l <> [] -> last l d = last l d'.
  Proof. induction l as [|a [|b l] IH]; intros H; [congruence|reflexivity|]. apply IH. discriminate. Qed.
  Lemma last_cons_default {T} (a b d : T) r : last (a :: b :: r) d = last (b :: r) b.
  Proof. change (last (a :: b :: r) d) with (last (b :: r) d). apply last_indep. discriminate. Qed.
  Lemma azimuth_of_spec line : azimuth_of eqp azi line = to_cv (spec_az line).
  Proof.
    unfold azimuth_of, spec_az. destruct line as [|a [|b r]]; try reflexivity. rewrite (last_cons_default a b a r).
    destruct (eqp a (last (b :: r) b)); reflexivity.
  Qed.

  (** *** faithful data: every cached value is missing or right *)
  Notation compute_length := (compute_length eqp dist addL zeroL).
  Notation compute_azimuth := (compute_azimuth eqp azi (L := L)).
  Notation compute_directions := (compute_directions eqp azi addA zeroA diffA absA (L := L)).
  Notation compute := (compute eqp dist azi addL zeroL addA zeroA diffA absA).
  Notation rebuild := (rebuild eqp dist azi addL zeroL addA zeroA diffA absA).
  Notation idA := (fun x : A => x).

  Record faithful (line : list P) (d : data) : Prop := mkFaithful {
    fa_len : d_len d = Uninit \/ (d_len d = to_cv (spec_len line) /\ d_lens d = full dist line);
    fa_az : okv (d_az d) (to_cv (spec_az line));
    fa_dirs : d_dirs d = Uninit \/ d_abs d = Uninit
              \/ (d_dirs d = to_cv (spec_dirs idA line) /\ d_abs d = to_cv (spec_dirs absA line) /\ (length line = 2 \/ d_azs d = full azi line));
    fa_lens : ok_list dist line (d_lens d);
    fa_azs : ok_list azi line (d_azs d) }.

  Definition fulldata (line : list P) : data :=
    mkData (to_cv (spec_len line)) (to_cv (spec_az line)) (to_cv (spec_dirs idA line)) (to_cv (spec_dirs absA line))
           (full dist line) (full azi line).

  Lemma to_cv_init {V} (o : option V) : initialized (to_cv o) = true.
  Proof. destruct o; reflexivity. Qed.

  Lemma fulldata_faithful line : faithful line (fulldata line).
  Proof.
    constructor; cbn; [right; auto|apply okv_refl| |apply full_ok|apply full_ok].
    right. right. auto.
  Qed.
  Lemma data0_faithful line : faithful line data0.
  Proof. constructor; cbn; auto; try (left; reflexivity). Qed.

  Lemma compute_length_spec line d : faithful line d ->
    exists d', compute_length line d = Ok d' /\ faithful line d' /\ d_len d' = to_cv (spec_len line) /\ d_lens d' = full dist line
               /\ d_az d' = d_az d /\ d_dirs d' = d_dirs d /\ d_abs d' = d_abs d /\ d_azs d' = d_azs d.
  Proof.
    intros F. unfold RichLine.compute_length. destruct F as [F1 F2 F3 F4 F5].
    destruct F1 as [E|[E El]]; rewrite E; cbn [initialized].
    - rewrite init_compute by exact F4. cbn [bindO]. rewrite sum_valid_full. eexists. split; [reflexivity|].
      cbn. split; [|repeat split]. constructor; cbn; auto. apply full_ok.
    - rewrite to_cv_init. exists d. split; [reflexivity|]. split; [constructor; auto|]. repeat split; auto.
  Qed.
  Lemma compute_azimuth_spec line d : faithful line d ->
    faithful line (compute_azimuth line d) /\ d_az (compute_azimuth line d) = to_cv (spec_az line)
    /\ d_len (compute_azimuth line d) = d_len d /\ d_lens (compute_azimuth line d) = d_lens d
    /\ d_dirs (compute_azimuth line d) = d_dirs d /\ d_abs (compute_azimuth line d) = d_abs d /\ d_azs (compute_azimuth line d) = d_azs d.
  Proof.
    intros [F1 F2 F3 F4 F5]. unfold RichLine.compute_azimuth. destruct F2 as [E|E]; rewrite E; cbn [initialized].
    - cbn. rewrite azimuth_of_spec. split; [|repeat split]. constructor; cbn; auto. apply okv_refl.
    - rewrite to_cv_init. rewrite E. split; [|repeat split]. constructor; auto. right. exact E.
  Qed.
  Lemma compute_directions_spec line d : faithful line d ->
    exists d', compute_directions line d = Ok d' /\ faithful line d'
               /\ d_dirs d' = to_cv (spec_dirs idA line) /\ d_abs d' = to_cv (spec_dirs absA line)
               /\ d_az d' = d_az d /\ d_len d' = d_len d /\ d_lens d' = d_lens d
               /\ (length line = 2 \/ d_azs d' = full azi line)
               /\ (d_azs d = full azi line \/ d_azs d = [] /\ d_dirs d = Uninit -> d_azs d' = full azi line).
  Proof.
    intros [F1 F2 F3 F4 F5]. unfold RichLine.compute_directions.
    destruct (initialized (d_dirs d) && initialized (d_abs d)) eqn:I.
    - apply andb_true_iff in I as [I1 I2]. exists d. split; [reflexivity|]. split; [constructor; auto|].
      destruct F3 as [E|[E|(E1 & E2 & E3)]]; [rewrite E in I1; discriminate|rewrite E in I2; discriminate|].
      repeat split; auto. intros [?|[_ Eu]]; [assumption|rewrite Eu in I1; discriminate].
    - pose proof (compute_list_ok azi line _ F5) as C. pose proof (Forall2_len _ _ _ C) as Len. rewrite full_length in Len.
      set (azs := compute_list eqp azi line (d_azs d)) in *. destruct (Nat.leb_spec 2 (length azs)) as [G|G].
      + unfold azs. rewrite init_compute by exact F5. cbn [bindO]. rewrite !sum_directions_full. eexists. split; [reflexivity|]. cbn.
        split; [|repeat split; auto]. constructor; cbn; auto; [right; right; auto|apply full_ok].
      + assert (D : forall g, to_cv (spec_dirs g line) = Invalid) by (intros g; rewrite short_no_turns by lia; reflexivity).
        eexists. split; [reflexivity|]. cbn. rewrite !D.
        assert (Az : length line = 2 \/ azs = full azi line).
        { destruct (Nat.eq_dec (length line) 2) as [->|Ne]; [left; reflexivity|]. right.
          assert (Z : length (full azi line) = 0) by (rewrite full_length; lia).
          destruct (full azi line); [|discriminate]. inversion C. reflexivity. }
        assert (Az2 : d_azs d = full azi line \/ d_azs d = [] /\ d_dirs d = Uninit -> azs = full azi line).
        { intros [E|[E _]]; unfold azs, compute_list; rewrite E; [|reflexivity]. destruct (full azi line) eqn:Ef; [exact Ef|reflexivity]. }
        split; [|repeat split; auto]. constructor; cbn; [exact F1|exact F2|right; right; rewrite !D; auto|exact F4|right; exact C].
  Qed.

  (** [_compute] of data without values and with empty or complete lists *)
  Lemma compute_fresh line d :
    d_len d = Uninit -> d_az d = Uninit -> d_dirs d = Uninit ->
    (d_lens d = [] \/ d_lens d = full dist line) -> (d_azs d = [] \/ d_azs d = full azi line) ->
    compute line d = Ok (fulldata line).
  Proof.
    intros E1 E2 E3 L1 L2.
    assert (F : faithful line d).
    { constructor; auto; try (left; assumption).
      - destruct L1 as [E|E]; rewrite E; [left; reflexivity|apply full_ok].
      - destruct L2 as [E|E]; rewrite E; [left; reflexivity|apply full_ok]. }
    unfold RichLine.compute. destruct (compute_length_spec line d F) as (d1 & H1 & F1 & A1 & A2 & A3 & A4 & A5 & A6). rewrite H1. cbn [bindO].
    destruct (compute_azimuth_spec line d1 F1) as (F2 & B1 & B2 & B3 & B4 & B5 & B6). set (d2 := compute_azimuth line d1) in *.
    destruct (compute_directions_spec line d2 F2) as (d3 & H3 & F3 & C1 & C2 & C3 & C4 & C5 & C6 & C7). rewrite H3. f_equal.
    destruct d3; unfold fulldata; cbn in *. f_equal; try congruence. apply C7. rewrite B6, A6, B4, A4, E3. tauto.
  Qed.
  Lemma rebuild_full line az d : d_lens d = full dist line -> d_azs d = full azi line ->
    (az = false -> d_az d = to_cv (spec_az line)) -> rebuild line az d = Ok (fulldata line).
  Proof.
    intros L1 L2 Ha. unfold RichLine.rebuild.
    unfold RichLine.compute_length. cbn [d_len d_lens d_az d_dirs d_abs d_azs invalidate initialized].
    rewrite init_compute by (rewrite L1; apply full_ok). cbn [bindO]. rewrite sum_valid_full.
    set (d1 := mkData _ _ _ _ _ _). set (d2 := if az then _ else d1).
    assert (E : invalidate false false true false false d2
                = mkData (to_cv (spec_len line)) (to_cv (spec_az line)) Uninit Uninit (full dist line) (full azi line)).
    { unfold d2. destruct az; unfold d1, RichLine.compute_azimuth; cbn; rewrite ?azimuth_of_spec, L2; [reflexivity|]. rewrite (Ha eq_refl). reflexivity. }
    rewrite E.
    match goal with |- compute_directions line ?x = _ => assert (F : faithful line x) end.
    { constructor; cbn; auto using full_ok, okv_refl. }
    destruct (compute_directions_spec _ _ F) as (d3 & H3 & F3 & C1 & C2 & C3 & C4 & C5 & C6 & C7). rewrite H3. f_equal.
    destruct d3; unfold fulldata; cbn in *. f_equal; try congruence. apply C7. auto.
  Qed.

  (** *** erasing a point *)
  Section Erase.
    Context {V : Type}.
    Variable f : P -> P -> V.
    Variable R : cv V -> cv V -> Prop.
    Hypothesis R_refl : forall c, R c c.

    Lemma Forall2_app_inv_r' (l a b : list (cv V)) : Forall2 R l (a ++ b) -> exists l1 l2, l = l1 ++ l2 /\ Forall2 R l1 a /\ Forall2 R l2 b.
    Proof. intros H. apply Forall2_app_inv_r in H as (l1 & l2 & H1 & H2 & ->). eauto. Qed.

    Lemma erase_at_split {T} (pre : list T) x post : erase_at (length pre) (pre ++ x :: post) = pre ++ post.
    Proof.
      unfold erase_at. rewrite firstn_app, firstn_all, Nat.sub_diag. cbn [firstn]. rewrite app_nil_r. f_equal.
      rewrite skipn_app, skipn_all2 by lia. replace (S (length pre) - length pre) with 1 by lia. reflexivity.
    Qed.
    Lemma erase_and_replace_spec line i (l : list (cv V)) : Forall2 R l (full f line) ->
      exists l', erase_and_replace eqp f (erase_point line i) i l = Ok l' /\ Forall2 R l' (full f (erase_point line i)).
    Proof.
      intros F. pose proof (Forall2_len _ _ _ F) as Len. rewrite full_length in Len.
      unfold erase_point. destruct (Nat.ltb_spec i (length line)) as [Hi|Hi].
      2:{ exists l. split; [|exact F]. unfold erase_and_replace. destruct l; [reflexivity|].
          destruct (Nat.leb_spec i (length (c :: l))); [|reflexivity]. cbn [length] in *. lia. }
      destruct (nth_error line i) as [x|] eqn:N; [|apply nth_error_None in N; lia].
      apply nth_error_split in N as (pre & post & -> & <-). rewrite erase_at_split.
      destruct l as [|c0 l0].
      { exists []. split; [reflexivity|]. assert (Z : length (full f (pre ++ post)) = 0).
        { rewrite full_length. rewrite !app_length in *. cbn [length] in *. lia. }
        destruct (full f (pre ++ post)); [constructor|discriminate]. }
      remember (c0 :: l0) as l eqn:El. assert (l <> []) as Ne by (subst; discriminate).
      unfold erase_and_replace. destruct l as [|c1 l1]; [congruence|]. clear Ne El c0 l0. remember (c1 :: l1) as l eqn:El. clear El c1 l1.
      rewrite !app_length in *. cbn [length] in *.
      destruct (Nat.leb_spec (length pre) (length l)); [|lia].
      destruct (rev_ind (fun u => u = [] \/ exists v b, u = v ++ [b]) (or_introl eq_refl) (fun b v _ => or_intror (ex_intro _ v (ex_intro _ b eq_refl))) pre) as [->|(pre' & a & ->)].
      - (* first point *)
        cbn [app length] in *. destruct post as [|b post'].
        + destruct l; cbn in Len; [|lia]. exists []. split; [|constructor]. cbn. reflexivity.
        + cbn [full segments map] in F. inversion F as [|c s l' m _ F' E1 E2]; subst. cbn [length].
          replace (0 <? S (length l')) with true by reflexivity. unfold erase_at. cbn [firstn skipn app].
          exists l'. split; [destruct l'; reflexivity|]. exact F'.
      - rewrite app_length in *. cbn [length] in *. rewrite <- app_assoc in F. cbn [app] in F. unfold full in F. rewrite segments_app, map_app in F.
        change ((pre' ++ [a]) ++ post) with ((pre' ++ [a]) ++ post). rewrite <- app_assoc. cbn [app].
        apply Forall2_app_inv_r' in F as (l1 & l2 & -> & Fa & Fb). pose proof (Forall2_len _ _ _ Fa) as La.
        rewrite map_length, segments_length, app_length in La. cbn [length] in La.
        rewrite app_length in *.
        destruct post as [|b post'].
        + (* last point *)
          cbn [segments map] in Fb. inversion Fb as [|c s l' m Rc F' E1 E2]; subst. inversion F'; subst. cbn [length].
          replace (length pre' + 1 <? length l1 + 1) with false by (symmetry; apply Nat.ltb_ge; lia).
          replace (length pre' + 1 - 1) with (length l1) by lia. rewrite erase_at_split, app_nil_r.
          exists l1. split; [|unfold full; rewrite ?app_nil_r; exact Fa].
          destruct l1; [reflexivity|]. replace (length pre' + 1 <? length pre' + 1 + 0) with false by (symmetry; apply Nat.ltb_ge; lia).
          rewrite andb_false_r. reflexivity.
        + (* inner point *)
          cbn [segments map] in Fb. inversion Fb as [|c s l' m Rc F' E1 E2]; subst. inversion F' as [|c' s' l'' m' Rc' F'' E1' E2']; subst. cbn [length].
          replace (length pre' + 1 <? length l1 + S (S (length l''))) with true by (symmetry; apply Nat.ltb_lt; lia).
          replace (length pre' + 1) with (length (l1 ++ [c])) by (rewrite app_length; cbn; lia).
          change (l1 ++ c :: c' :: l'') with (l1 ++ [c] ++ c' :: l''). rewrite app_assoc, erase_at_split, <- app_assoc. cbn [app].
          assert (Sg : segment (pre' ++ a :: b :: post') (length l1) = Some (a, b)).
          { rewrite <- segments_nth, segments_app, nth_error_app2 by (rewrite segments_length, app_length; cbn; lia).
            rewrite segments_length, app_length. cbn [length]. replace (length l1 - (length pre' + 1 - 1)) with 0 by lia. reflexivity. }
          assert (Q : exists l', l' = l1 ++ sv f (a, b) :: l'' /\ Forall2 R l' (map (sv f) (segments (pre' ++ a :: b :: post')))).
          { eexists. split; [reflexivity|]. rewrite segments_app, map_app. apply Forall2_app; [exact Fa|]. cbn [segments map]. constructor; [apply R_refl|exact F'']. }
          destruct Q as (l' & -> & Q). exists (l1 ++ sv f (a, b) :: l''). split; [|exact Q].
          destruct (l1 ++ c :: l'') as [|y ys] eqn:Ey; [destruct l1; discriminate|]. rewrite <- Ey. clear y ys Ey.
          rewrite !app_length. cbn [length]. replace (length l1 + 1 - 1) with (length l1) by lia.
          replace (0 <? length l1 + 1) with true by (symmetry; apply Nat.ltb_lt; lia).
          replace (length l1 + 1 <? length l1 + 1 + S (length post')) with true by (symmetry; apply Nat.ltb_lt; lia). cbn [andb].
          rewrite Sg. replace (length l1 <? length l1 + S (length l'')) with true by (symmetry; apply Nat.ltb_lt; lia).
          rewrite firstn_app, firstn_all, Nat.sub_diag. cbn [firstn]. rewrite app_nil_r.
          rewrite skipn_app, skipn_all2 by lia. replace (length l1 + 1 - length l1) with 1 by lia. reflexivity.
    Qed.
  End Erase.

  Notation rich := (@rich P L A).
  Notation erase_raw := (erase_raw eqp dist azi).

  Lemma Forall2_eq {T} (l m : list T) : Forall2 eq l m <-> l = m.
  Proof. split; [induction 1; congruence|]. intros ->. induction m; constructor; auto. Qed.

  Definition lists_full (line : list P) (d : data) : Prop := d_lens d = full dist line /\ d_azs d = full azi line.
  Definition lists_ok (line : list P) (d : data) : Prop := ok_list dist line (d_lens d) /\ ok_list azi line (d_azs d).
  Definition same_scalars (d d' : data) : Prop :=
    d_len d' = d_len d /\ d_az d' = d_az d /\ d_dirs d' = d_dirs d /\ d_abs d' = d_abs d.

  Lemma er_full {V} (f : P -> P -> V) line i : erase_and_replace eqp f (erase_point line i) i (full f line) = Ok (full f (erase_point line i)).
  Proof.
    destruct (erase_and_replace_spec f eq (fun c => eq_refl) line i (full f line)) as (l' & E & F); [apply Forall2_eq; reflexivity|].
    apply Forall2_eq in F. subst l'. exact E.
  Qed.
  Lemma er_ok {V} (f : P -> P -> V) line i l : ok_list f line l ->
    exists l', erase_and_replace eqp f (erase_point line i) i l = Ok l' /\ ok_list f (erase_point line i) l'.
  Proof.
    intros [->|F]; [exists []; split; [reflexivity|left; reflexivity]|].
    destruct (erase_and_replace_spec f okv okv_refl line i l F) as (l' & E & F'). exists l'. split; [exact E|right; exact F'].
  Qed.
  Lemma erase_raw_full r i : lists_full (r_line r) (r_data r) ->
    exists d, erase_raw r i = Ok (mkRich d (erase_point (r_line r) i)) /\ lists_full (erase_point (r_line r) i) d /\ same_scalars (r_data r) d.
  Proof.
    intros [H1 H2]. unfold RichLine.erase_raw. rewrite H1, H2, !er_full. cbn [bindO]. eexists. split; [reflexivity|]. repeat split.
  Qed.
  Lemma erase_raw_ok r i : lists_ok (r_line r) (r_data r) ->
    exists d, erase_raw r i = Ok (mkRich d (erase_point (r_line r) i)) /\ lists_ok (erase_point (r_line r) i) d /\ same_scalars (r_data r) d.
  Proof.
    intros [H1 H2]. unfold RichLine.erase_raw. destruct (er_ok dist _ i _ H1) as (l1 & -> & O1). destruct (er_ok azi _ i _ H2) as (l2 & -> & O2).
    cbn [bindO]. eexists. split; [reflexivity|]. repeat split; auto.
  Qed.
  Lemma same_scalars_trans a b c : same_scalars a b -> same_scalars b c -> same_scalars a c.
  Proof. intros (?&?&?&?) (?&?&?&?). repeat split; congruence. Qed.
  Lemma erase_fold (Q : list P -> data -> Prop)
    (step : forall r i, Q (r_line r) (r_data r) ->
      exists d, erase_raw r i = Ok (mkRich d (erase_point (r_line r) i)) /\ Q (erase_point (r_line r) i) d /\ same_scalars (r_data r) d) :
    forall idx r, Q (r_line r) (r_data r) ->
    exists d, foldO erase_raw idx r = Ok (mkRich d (fold_left erase_point idx (r_line r))) /\ Q (fold_left erase_point idx (r_line r)) d
              /\ same_scalars (r_data r) d.
  Proof.
    induction idx as [|i idx IH]; intros r H.
    - exists (r_data r). cbn. destruct r; cbn in *. repeat split; auto.
    - cbn [foldO fold_left]. destruct (step r i H) as (d & E & H' & S1). rewrite E. cbn [bindO].
      destruct (IH (mkRich d (erase_point (r_line r) i)) H') as (d' & E' & H'' & S2). exists d'. cbn [r_line r_data] in *.
      repeat split; try assumption; destruct S1 as (?&?&?&?), S2 as (?&?&?&?); congruence.
  Qed.

  (** the end points survive when neither end is touched *)
  Lemma keep_last idx (line : list P) x : ~ In (length line) idx -> exists u, keep idx 0 (line ++ [x]) = u ++ [x].
  Proof.
    intros H. rewrite keep_app. cbn [keep Nat.add]. destruct (existsb (Nat.eqb (length line)) idx) eqn:E; [apply existsb_eqb_In in E; tauto|].
    eauto.
  Qed.
  Lemma sorted_last_max : forall idx d, StronglySorted lt idx -> idx <> [] -> forall i, In i idx -> i <= last idx d.
  Proof.
    induction idx as [|a [|b idx] IH]; intros d S Ne i Hi; [congruence| |].
    - destruct Hi as [->|[]]. cbn. lia.
    - inversion S as [|? ? S' F]; subst. change (last (a :: b :: idx) d) with (last (b :: idx) d).
      destruct Hi as [->|Hi]; [|apply IH; auto; discriminate]. inversion F; subst.
      pose proof (IH d S' ltac:(discriminate) b (or_introl eq_refl)). lia.
  Qed.
  Lemma sorted_head_min a idx i : StronglySorted lt (a :: idx) -> In i (a :: idx) -> a <= i.
  Proof. intros S [->|H]; [lia|]. inversion S as [|? ? _ F]; subst. rewrite Forall_forall in F. specialize (F _ H). lia. Qed.

  Lemma spec_az_erase line idx : StronglySorted lt idx -> Forall (fun i => i < length line) idx -> idx <> [] ->
    ends_touched (mkRich data0 line : rich) idx = false -> spec_az (fold_left erase_point (rev idx) line) = spec_az line.
  Proof.
    intros So F Ne T. change (fold_left erase_point (rev idx) line) with (erase_indices line idx). rewrite erase_keep by exact So.
    destruct idx as [|i idx]; [congruence|]. cbn [ends_touched r_line] in T. apply orb_false_iff in T as [T1 T2].
    apply Nat.eqb_neq in T1. apply Nat.eqb_neq in T2.
    assert (Hlast : last (i :: idx) i < length line).
    { rewrite Forall_forall in F. apply F. assert (G : forall l (d : nat), l <> [] -> In (last l d) l).
      { induction l as [|x [|y l] IHl]; intros d Hl; [congruence|left; reflexivity|]. right. apply IHl. discriminate. }
      apply G. discriminate. }
    pose proof (fun j => sorted_last_max (i :: idx) i So ltac:(discriminate) j) as Hmax.
    pose proof (fun j => sorted_head_min i idx j So) as Hmin. pose proof (Hmax i (or_introl eq_refl)) as Hi.
    destruct line as [|a line]; [cbn in Hlast; lia|].
    destruct (@exists_last _ line) as (mid & z & ->). { destruct line; [cbn in *; lia|discriminate]. }
    assert (N0 : ~ In 0 (i :: idx)) by (intros H; apply Hmin in H; lia).
    assert (Nz : ~ In (length (a :: mid)) (i :: idx)).
    { intros H. apply Hmax in H. cbn [length] in *. rewrite app_length in *. cbn [length] in *. lia. }
    change (a :: mid ++ [z]) with ([a] ++ mid ++ [z]) at 1. rewrite keep_app. cbn [length Nat.add].
    assert (K0 : keep (i :: idx) 0 [a] = [a]).
    { cbn [keep]. destruct (existsb (Nat.eqb 0) (i :: idx)) eqn:E; [apply existsb_eqb_In in E; tauto|reflexivity]. }
    rewrite K0, keep_app. cbn [length Nat.add]. set (m := keep (i :: idx) 1 mid).
    assert (Kz : keep (i :: idx) (S (length mid)) [z] = [z]).
    { cbn [keep]. cbn [length] in Nz. destruct (existsb (Nat.eqb (S (length mid))) (i :: idx)) eqn:E; [apply existsb_eqb_In in E; tauto|reflexivity]. }
    rewrite Kz. cbn [app]. unfold spec_az. change (a :: m ++ [z]) with ((a :: m) ++ [z]). change (a :: mid ++ [z]) with ((a :: mid) ++ [z]).
    rewrite !last_last. destruct m, mid; reflexivity.
  Qed.

  (** *** merging *)
  Definition congruent {V} (f : P -> P -> V) : Prop := forall a b c, eqp a b = true -> eqp a c = eqp b c /\ f a c = f b c.

  Lemma merge_single_full {V} (f : P -> P -> V) line next line' : congruent f -> merge_single eqp line next = Ok line' ->
    full f line' = full f line ++ full f next.
  Proof.
    intros C H. unfold merge_single in H. destruct next as [|q n]; [injection H as <-; rewrite app_nil_r; reflexivity|].
    destruct line as [|p0 l0]; [injection H as <-; reflexivity|].
    destruct (@exists_last _ (p0 :: l0)) as (u & p & E); [discriminate|]. rewrite E in *. clear p0 l0 E.
    rewrite last_last in H. destruct (u ++ [p]) eqn:Eu; [destruct u; discriminate|]. rewrite <- Eu in *. clear Eu.
    destruct (eqp p q) eqn:Q; [|discriminate]. injection H as <-. rewrite <- app_assoc. cbn [app].
    unfold full. rewrite segments_app, map_app. f_equal. destruct n as [|x n]; [reflexivity|]. cbn [RichLine.segments map]. f_equal.
    unfold seg_value. cbn [fst snd]. destruct (C p q x Q) as [-> ->]. reflexivity.
  Qed.
  Lemma plain_merge_full {V} (f : P -> P -> V) : congruent f -> forall lines line line', plain_merge eqp line lines = Ok line' ->
    full f line' = full f line ++ concat (map (full f) lines).
  Proof.
    intros C. induction lines as [|n lines IH]; intros line line' H; cbn in H |- *.
    - injection H as <-. rewrite app_nil_r. reflexivity.
    - unfold plain_merge in *. cbn [foldO] in H. destruct (merge_single eqp line n) as [l1| | |] eqn:E; try discriminate. cbn [bindO] in H.
      rewrite (IH _ _ H), (merge_single_full f _ _ _ C E), app_assoc. reflexivity.
  Qed.
  Lemma okv_repeat {V} (l : list (cv V)) : Forall2 okv (repeat Uninit (length l)) l.
  Proof. induction l; cbn; constructor; [left; reflexivity|assumption]. Qed.
  Lemma pad_ok {V} (f : P -> P -> V) line l : ok_list f line l -> Forall2 okv (pad line l) (full f line).
  Proof.
    intros H. destruct line as [|a r].
    - destruct H as [->|F]; [constructor|]. inversion F. constructor.
    - unfold pad. destruct H as [->|F].
      + cbn [app]. replace (length (a :: r) - 1 - length (@nil (cv V))) with (length (full f (a :: r))) by (rewrite full_length; cbn; lia). apply okv_repeat.
      + rewrite (Forall2_len _ _ _ F), full_length, Nat.sub_diag. cbn [repeat]. rewrite app_nil_r. exact F.
  Qed.
  Lemma pad_full {V} (f : P -> P -> V) line : pad line (full f line) = full f line.
  Proof. unfold pad. destruct line; [reflexivity|]. rewrite full_length, Nat.sub_diag. cbn [repeat]. apply app_nil_r. Qed.

  Lemma merge_data_lists (nexts : list (data * list P)) : forall (d : data),
    d_lens (fold_left merge_single_data nexts d) = d_lens d ++ concat (map (fun n => pad (snd n) (d_lens (fst n))) nexts)
    /\ d_azs (fold_left merge_single_data nexts d) = d_azs d ++ concat (map (fun n => pad (snd n) (d_azs (fst n))) nexts).
  Proof.
    induction nexts as [|n nexts IH]; intros d; cbn [fold_left map concat]; [rewrite !app_nil_r; auto|].
    destruct (IH (merge_single_data d n)) as [-> ->]. cbn [merge_single_data d_lens d_azs]. rewrite <- !app_assoc. auto.
  Qed.
  Lemma Forall2_concat {S T} (R : S -> T -> Prop) (l : list (list S)) (m : list (list T)) :
    Forall2 (Forall2 R) l m -> Forall2 R (concat l) (concat m).
  Proof. induction 1; cbn; [constructor|]. apply Forall2_app; assumption. Qed.

  Lemma merge_raw_full r rs line : congruent dist -> congruent azi ->
    lists_full (r_line r) (r_data r) -> (forall x, In x rs -> lists_full (r_line x) (r_data x)) ->
    plain_merge eqp (r_line r) (map r_line rs) = Ok line ->
    exists d, merge_raw eqp r rs = Ok (mkRich d line) /\ lists_full line d.
  Proof.
    intros C1 C2 [H1 H2] Hs E. unfold merge_raw. rewrite E. cbn [bindO]. eexists. split; [reflexivity|]. unfold merge_data.
    match goal with |- lists_full _ (fold_left _ ?n ?d) => destruct (merge_data_lists n d) as [El Ea] end.
    split; [rewrite El|rewrite Ea].
    - rewrite (plain_merge_full dist C1 _ _ _ E). unfold reserve. cbn [d_lens]. rewrite H1, pad_full. f_equal. f_equal. rewrite !map_map.
      apply map_ext_in. intros x Hx. cbn [fst snd]. destruct (Hs x Hx) as [-> _]. apply pad_full.
    - rewrite (plain_merge_full azi C2 _ _ _ E). unfold reserve. cbn [d_azs]. rewrite H2, pad_full. f_equal. f_equal. rewrite !map_map.
      apply map_ext_in. intros x Hx. cbn [fst snd]. destruct (Hs x Hx) as [_ ->]. apply pad_full.
  Qed.
  Lemma merge_raw_ok r rs line : congruent dist -> congruent azi ->
    lists_ok (r_line r) (r_data r) -> (forall x, In x rs -> lists_ok (r_line x) (r_data x)) ->
    plain_merge eqp (r_line r) (map r_line rs) = Ok line ->
    exists d, merge_raw eqp r rs = Ok (mkRich d line) /\ lists_ok line d.
  Proof.
    intros C1 C2 [H1 H2] Hs E. unfold merge_raw. rewrite E. cbn [bindO]. eexists. split; [reflexivity|]. unfold merge_data.
    match goal with |- lists_ok _ (fold_left _ ?n ?d) => destruct (merge_data_lists n d) as [El Ea] end.
    assert (G : forall {V} (f : P -> P -> V) (sel : data -> list (cv V)), (forall x, In x rs -> ok_list f (r_line x) (sel (r_data x))) ->
              Forall2 okv (concat (map (fun n => pad (snd n) (sel (fst n))) (map (fun x => (r_data x, r_line x)) rs))) (concat (map (full f) (map r_line rs)))).
    { intros V f sel Hx. apply Forall2_concat. rewrite !map_map. cbn [fst snd]. clear -Hx. induction rs as [|x l IH]; cbn; constructor.
      - apply pad_ok. apply Hx. left. reflexivity.
      - apply IH. intros y Hy. apply Hx. right. exact Hy. }
    split; right; [rewrite El, (plain_merge_full dist C1 _ _ _ E)|rewrite Ea, (plain_merge_full azi C2 _ _ _ E)];
      (apply Forall2_app; [unfold reserve; cbn; apply pad_ok; assumption|]); apply G; intros x Hx; apply Hs; exact Hx.
  Qed.

  (** *** slices *)
  Lemma segments_skipn k : forall l, segments (skipn k l) = skipn k (segments l).
  Proof.
    induction k as [|k IH]; intros l; [reflexivity|]. destruct l as [|a [|b l]]; [reflexivity|cbn; rewrite skipn_nil; reflexivity|].
    change (skipn (S k) (a :: b :: l)) with (skipn k (b :: l)). rewrite IH. reflexivity.
  Qed.
  Lemma segments_firstn n : forall l, segments (firstn n l) = firstn (n - 1) (segments l).
  Proof.
    induction n as [|n IH]; intros l; [reflexivity|]. destruct l as [|a [|b l]]; [cbn; rewrite firstn_nil; reflexivity|cbn; rewrite !firstn_nil; reflexivity|].
    cbn [Nat.sub]. rewrite Nat.sub_0_r. destruct n as [|n]; [reflexivity|].
    specialize (IH (b :: l)). cbn [Nat.sub] in IH. rewrite Nat.sub_0_r in IH.
    change (firstn (S (S n)) (a :: b :: l)) with (a :: b :: firstn n l). change (firstn (S n) (b :: l)) with (b :: firstn n l) in IH.
    change (segments (a :: b :: firstn n l)) with ((a, b) :: segments (b :: firstn n l)). rewrite IH. reflexivity.
  Qed.
  Lemma full_sub {V} (f : P -> P -> V) line from to : full f (firstn (to - from) (skipn from line)) = firstn (to - 1 - from) (skipn from (full f line)).
  Proof.
    unfold full. rewrite segments_firstn, segments_skipn, <- firstn_map, <- skipn_map. f_equal. lia.
  Qed.
  Lemma Forall2_firstn' {S T} (R : S -> T -> Prop) n : forall l m, Forall2 R l m -> Forall2 R (firstn n l) (firstn n m).
  Proof. induction n; intros l m H; [constructor|]. inversion H; cbn; constructor; auto. Qed.
  Lemma Forall2_skipn' {S T} (R : S -> T -> Prop) n : forall l m, Forall2 R l m -> Forall2 R (skipn n l) (skipn n m).
  Proof. induction n; intros l m H; [exact H|]. inversion H; cbn; [constructor|auto]. Qed.

  Lemma sub_list_spec {V} (f : P -> P -> V) (R : cv V -> cv V -> Prop) line l from to :
    from < to - 1 -> to <= length line -> Forall2 R l (full f line) ->
    Forall2 R (sub_list l from (to - 1)) (full f (firstn (to - from) (skipn from line))).
  Proof.
    intros H1 H2 F. pose proof (Forall2_len _ _ _ F) as Len. rewrite full_length in Len. rewrite full_sub. unfold sub_list.
    destruct l as [|c l]; [cbn in Len; lia|].
    replace (from <=? to - 1) with true by (symmetry; apply Nat.leb_le; lia).
    replace (from <? length (c :: l)) with true by (symmetry; apply Nat.ltb_lt; lia).
    replace (to - 1 <=? length (c :: l)) with true by (symmetry; apply Nat.leb_le; lia). cbn [andb].
    apply Forall2_firstn', Forall2_skipn'. exact F.
  Qed.

  Lemma sub_data_spec line d from to :
    from <= to -> to <= length line -> ~ (from = 0 /\ to + 1 = length line) -> lists_ok line d ->
    let line' := firstn (to - from) (skipn from line) in
    let d' := sub_data d from to in
    d_len d' = Uninit /\ d_az d' = Uninit /\ d_dirs d' = Uninit /\ d_abs d' = Uninit /\ lists_ok line' d'
    /\ (lists_full line d -> (d_lens d' = [] \/ d_lens d' = full dist line') /\ (d_azs d' = [] \/ d_azs d' = full azi line')).
  Proof.
    intros H1 H2 X [O1 O2] line' d'. unfold d', sub_data. destruct (Nat.leb_spec (to - 1) from) as [G|G].
    { cbn. repeat split; auto; left; reflexivity. }
    assert (W : forall {V} (f : P -> P -> V) l, ok_list f line l -> (from =? 0) && (to - 1 + 1 =? length l) = false).
    { intros V f l Hl. apply andb_false_iff. destruct (Nat.eqb_spec from 0) as [->|]; [right|left; reflexivity]. apply Nat.eqb_neq.
      destruct (ok_list_length f line l Hl) as [->|E]; [cbn; lia|]. lia. }
    rewrite (W L dist _ O1), (W A azi _ O2). cbn.
    assert (G1 : forall {V} (f : P -> P -> V) l, ok_list f line l -> ok_list f line' (sub_list l from (to - 1))).
    { intros V f l [->|F]; [left; reflexivity|]. right. apply sub_list_spec; auto. }
    assert (G2 : forall {V} (f : P -> P -> V), sub_list (full f line) from (to - 1) = full f line').
    { intros V f. apply Forall2_eq. apply sub_list_spec; auto. apply Forall2_eq. reflexivity. }
    repeat split; auto; [apply (G1 L dist); exact O1|apply (G1 A azi); exact O2| |]; right.
    - destruct H as [-> _]. apply G2.
    - destruct H as [_ ->]. apply G2.
  Qed.
End Proofs.
