(** C52: the attributes of lines made of several parts. *)
From Coq Require Import ZArith.
From Verif Require Import Base ListAux Simplify SimplifyProofs RichLine RichLineProofs RichLineProps RichAttrProps MultiRich.
Local Open Scope nat_scope.

Section C52.
  Context {P L A : Type}.
  Variable eqp : P -> P -> bool.
  Variable dist : P -> P -> L.
  Variable azi : P -> P -> A.
  Variable addL : L -> L -> L.
  Variable zeroL : L.
  Variable addA : A -> A -> A.
  Variable zeroA : A.
  Variable diffA : A -> A -> A.
  Variable absA : A -> A.

  Notation spec_len := (spec_len eqp dist addL zeroL).
  Notation spec_az := (spec_az eqp azi).
  Notation spec_dirs := (spec_dirs eqp azi addA zeroA diffA).
  Notation live := (live eqp).
  Notation filled := (Forall (fun l : list P => l <> [])).

  (** *** specification *)
  Definition listed {V} (o : option V) : list V := match o with Some v => [v] | None => [] end.
  (** the sum of the values that exist, if there is one *)
  Definition total {V} (add : V -> V -> V) (zero : V) (l : list V) : option V :=
    match l with [] => None | _ => Some (fold_left add l zero) end.
  Definition spec_multi_len (ls : list (list P)) : option L := total addL zeroL (flat_map (fun l => listed (spec_len l)) ls).
  (** from the very first to the very last point *)
  Definition spec_multi_az (ls : list (list P)) : option A := spec_az (concat ls).
  (** the change of direction where [b] continues [a] *)
  Definition spec_joint (a b : list P) : option A :=
    match rev a, b with
    | p :: _, q :: _ =>
        if eqp p q then
          match rev (segments a), segments b with
          | s :: _, t :: _ => if live s && live t then Some (diffA (azi (fst s) (snd s)) (azi (fst t) (snd t))) else None
          | _, _ => None
          end
        else None
    | _, _ => None
    end.
  (** the turns of the parts and of the joints, in order *)
  Fixpoint spec_changes (g : A -> A) (ls : list (list P)) : list A :=
    match ls with
    | [] => []
    | l :: r => listed (spec_dirs g l) ++ match r with n :: _ => map g (listed (spec_joint l n)) | [] => [] end ++ spec_changes g r
    end.
  Definition spec_multi_dirs (g : A -> A) (ls : list (list P)) : option A := total addA zeroA (spec_changes g ls).
  Definition answer {V} (zero : V) (o : option V) : outcome V := match o with Some v => Ok v | None => Throw zero end.
  Definition some {V} (o : option V) : bool := match o with Some _ => true | None => false end.

  (** *** proofs *)
  Lemma plain l :
    plain_length eqp dist addL zeroL l = answer zeroL (spec_len l)
    /\ plain_azimuth eqp azi zeroA l = answer zeroA (spec_az l)
    /\ (forall g, plain_directions eqp azi addA zeroA diffA g l = answer zeroA (spec_dirs g l))
    /\ plain_has_length eqp l = some (spec_len l)
    /\ plain_has_azimuth eqp l = some (spec_az l).
  Proof.
    destruct (C22_plain eqp dist azi addL zeroL addA zeroA diffA l) as (H1 & H2 & H3 & H4 & H5 & _).
    split; [exact H1|]. split; [exact H2|]. split; [exact H3|]. split.
    - destruct (spec_len l); cbn.
      + apply H4. discriminate.
      + apply not_true_iff_false. intros E. apply H4 in E. congruence.
    - destruct (spec_az l); cbn.
      + apply H5. discriminate.
      + apply not_true_iff_false. intros E. apply H5 in E. congruence.
  Qed.

  Lemma has_directions_loop_spec line : forall n pos has acc g, pos + n + 2 = length line \/ n = 0 ->
    plain_directions_loop eqp azi addA zeroA diffA g line n pos has acc
    = if has || has_directions_loop eqp azi diffA line n pos
      then Ok (match plain_directions_loop eqp azi addA zeroA diffA g line n pos has acc with Ok v => v | _ => zeroA end)
      else Throw zeroA.
  Proof.
    induction n as [|n IH]; intros pos has acc g H; cbn [plain_directions_loop has_directions_loop].
    - destruct has; reflexivity.
    - assert (D : exists c, plain_direction eqp azi diffA line pos = Ok c).
      { unfold plain_direction, segment. destruct H as [H|H]; [|discriminate].
        destruct (nth_error line pos) eqn:E1; [|apply nth_error_None in E1; lia].
        destruct (nth_error line (pos + 1)) eqn:E2; [|apply nth_error_None in E2; lia].
        destruct (nth_error line (pos + 1 + 1)) eqn:E3; [|apply nth_error_None in E3; lia].
        destruct (_ || _); eauto. }
      destruct D as (c & D). rewrite D.
      assert (H' : pos + 1 + n + 2 = length line \/ n = 0) by lia.
      destruct c as [| |v].
      + apply (IH (pos + 1) has acc g H').
      + apply (IH (pos + 1) has acc g H').
      + rewrite (IH (pos + 1) true (addA acc (g v)) g H') at 1. rewrite orb_true_r. reflexivity.
  Qed.
  Lemma has_directions_spec l : forall g, plain_has_directions eqp azi diffA l = some (spec_dirs g l).
  Proof.
    intros g. pose proof (has_directions_loop_spec l (length l - 2) 0 false zeroA g ltac:(lia)) as E.
    destruct (plain l) as (_ & _ & H & _). specialize (H g). unfold plain_directions in H. rewrite H in E.
    unfold plain_has_directions. cbn [orb] in E. destruct (has_directions_loop eqp azi diffA l (length l - 2) 0), (spec_dirs g l); cbn in *; congruence.
  Qed.

  Lemma rev_segments_last (l : list P) p0 p r : rev l = p :: p0 :: r -> exists t, rev (segments l) = (p0, p) :: t.
  Proof.
    intros E. assert (El : l = rev r ++ [p0; p]).
    { rewrite <- (rev_involutive l), E. cbn. rewrite <- app_assoc. reflexivity. }
    clear E. subst l. induction (rev r) as [|x u IH]; cbn [app].
    - exists []. reflexivity.
    - destruct IH as (t & IH). destruct (u ++ [p0; p]) as [|y w] eqn:Eu; [destruct u; discriminate|].
      exists (t ++ [(x, y)]). change (segments (x :: y :: w)) with ((x, y) :: segments (y :: w)). cbn [rev]. rewrite IH. reflexivity.
  Qed.
  Lemma joint_spec a b : a <> [] -> b <> [] -> joint eqp azi diffA a b = Ok (spec_joint a b).
  Proof.
    intros Ha Hb. unfold joint, spec_joint. destruct (rev a) as [|p a'] eqn:Ea.
    { exfalso. apply Ha. rewrite <- (rev_involutive a), Ea. reflexivity. }
    destruct b as [|q b']; [congruence|]. destruct (eqp p q); [|reflexivity].
    destruct a' as [|p0 a'].
    - assert (a = [p]) by (rewrite <- (rev_involutive a), Ea; reflexivity). subst a. reflexivity.
    - destruct (rev_segments_last a p0 p a' Ea) as (t & ->). destruct b' as [|q1 b']; [reflexivity|].
      change (segments (q :: q1 :: b')) with ((q, q1) :: segments (q1 :: b')). unfold RichLineProofs.live. cbn [fst snd].
      destruct (eqp p0 p), (eqp q q1); reflexivity.
  Qed.

  Definition put {V} (add : V -> V -> V) (zero : V) (has : bool) (acc : V) (l : list V) : outcome V :=
    match l with [] => if has then Ok acc else Throw zero | _ => Ok (fold_left add l acc) end.
  Lemma put_cons {V} (add : V -> V -> V) (zero : V) has acc v l : put add zero true (add acc v) l = put add zero has acc (v :: l).
  Proof. destruct l; reflexivity. Qed.
  Lemma put_total {V} (add : V -> V -> V) (zero : V) l : put add zero false zero l = answer zero (total add zero l).
  Proof. destruct l; reflexivity. Qed.

  Lemma multi_length_loop_spec ls : forall has acc,
    multi_length_loop eqp dist addL zeroL ls has acc = put addL zeroL has acc (flat_map (fun l => listed (spec_len l)) ls).
  Proof.
    induction ls as [|l ls IH]; intros has acc; [reflexivity|]. cbn [multi_length_loop flat_map].
    destruct (plain l) as (E1 & _ & _ & E2 & _). rewrite E2, E1. destruct (spec_len l) as [v|]; cbn [some answer bindO listed app]; rewrite IH; [|reflexivity].
    apply put_cons.
  Qed.
  Lemma multi_directions_loop_spec g ls : filled ls -> forall has acc,
    multi_directions_loop eqp azi addA zeroA diffA g ls has acc = put addA zeroA has acc (spec_changes g ls).
  Proof.
    induction ls as [|l ls IH]; intros F has acc; [reflexivity|]. inversion F as [|? ? Fl Fr]; subst. specialize (IH Fr).
    cbn [multi_directions_loop spec_changes]. destruct (plain l) as (_ & _ & E1 & _ & _). rewrite (has_directions_spec l g), (E1 g).
    destruct ls as [|n ls].
    - destruct (spec_dirs g l) as [v|]; cbn [some answer bindO fst snd listed app]; rewrite IH; reflexivity.
    - inversion Fr; subst. rewrite joint_spec by assumption.
      destruct (spec_dirs g l) as [v|]; cbn [some answer bindO fst snd listed app]; destruct (spec_joint l n) as [d|]; cbn [listed map app]; rewrite IH;
        rewrite ?(put_cons _ _ true), ?(put_cons _ _ has); reflexivity.
  Qed.
  Lemma multi_has_directions_loop_spec g ls : filled ls -> multi_has_directions_loop eqp azi diffA ls = Ok (some (spec_multi_dirs g ls)).
  Proof.
    unfold spec_multi_dirs. induction ls as [|l ls IH]; intros F; [reflexivity|]. inversion F as [|? ? Fl Fr]; subst. specialize (IH Fr).
    cbn [multi_has_directions_loop]. destruct ls as [|n ls].
    - cbn [spec_changes]. rewrite (has_directions_spec l g). destruct (spec_dirs g l); reflexivity.
    - cbn [spec_changes] in *. inversion Fr; subst. rewrite (has_directions_spec l g), joint_spec by assumption. destruct (spec_dirs g l); [reflexivity|].
      cbn [some listed app]. destruct (spec_joint l n); [reflexivity|]. cbn [listed map app]. exact IH.
  Qed.

  Lemma multi_empty_filled ls : filled ls -> ls <> [] -> multi_empty ls = false.
  Proof. intros F N. destruct ls as [|l ls]; [congruence|]. inversion F; subst. destruct l; [congruence|reflexivity]. Qed.
  Lemma spec_changes_single g l : total addA zeroA (spec_changes g [l]) = match spec_dirs g l with Some v => Some (addA zeroA v) | None => None end.
  Proof. cbn [spec_changes]. destruct (spec_dirs g l); reflexivity. Qed.

  (** the ends of several parts *)
  Lemma last_concat (ls : list (list P)) d : last ls [] <> [] -> ls <> [] -> last (concat ls) d = last (last ls []) d.
  Proof.
    intros H1 H2. destruct (@exists_last _ ls H2) as (u & z & ->). rewrite last_last in *. rewrite concat_app. cbn [concat]. rewrite app_nil_r.
    destruct (@exists_last _ z H1) as (w & y & ->). rewrite app_assoc, !last_last. reflexivity.
  Qed.
  Lemma ends_spec f n r : filled (f :: n :: r) ->
    exists a b fr br, f = a :: fr /\ rev (last (f :: n :: r) []) = b :: br
      /\ spec_multi_az (f :: n :: r) = if eqp a b then None else Some (azi a b).
  Proof.
    intros F. inversion F as [|? ? Ff Fr]; subst. destruct f as [|a fr]; [congruence|].
    assert (Nl : last ((a :: fr) :: n :: r) [] <> []).
    { destruct (@exists_last _ ((a :: fr) :: n :: r)) as (u & z & E); [discriminate|]. rewrite E, last_last.
      rewrite Forall_forall in F. apply F. rewrite E. apply in_elt. }
    destruct (@exists_last _ _ Nl) as (w & b & Ew). exists a, b, fr, (rev w). split; [reflexivity|]. split; [rewrite Ew, rev_unit; reflexivity|].
    unfold spec_multi_az. assert (Lc : last (concat ((a :: fr) :: n :: r)) a = b) by (rewrite last_concat, Ew, last_last by (try discriminate; exact Nl); reflexivity).
    revert Lc. destruct (concat ((a :: fr) :: n :: r)) as [|x [|y c]] eqn:Ec; intros Lc; cbn [concat app] in Ec.
    - discriminate.
    - inversion Fr; subst. destruct n as [|n0 n']; [congruence|]. destruct fr; discriminate.
    - injection Ec as <- _. unfold RichLineProofs.spec_az. rewrite Lc. reflexivity.
  Qed.

  (** **** C52: the attributes computed from the parts on every call.  Two and more parts: the sums start from zero; one part:
      its own values. *)
  Definition one_or {V} (ls : list (list P)) (single : list P -> option V) (o : option V) : option V :=
    match ls with [l] => single l | _ => o end.
  Theorem C52_values ls : filled ls ->
    multi_length eqp dist addL zeroL ls = answer zeroL (spec_multi_len ls)
    /\ multi_has_length eqp ls = some (spec_multi_len ls)
    /\ multi_azimuth eqp azi zeroA ls = answer zeroA (spec_multi_az ls)
    /\ multi_has_azimuth eqp ls = Ok (some (spec_multi_az ls))
    /\ (forall g, multi_directions eqp azi addA zeroA diffA g ls = answer zeroA (one_or ls (spec_dirs g) (spec_multi_dirs g ls))
        /\ multi_has_directions eqp azi diffA ls = Ok (some (spec_multi_dirs g ls))).
  Proof.
    intros F. split; [|split; [|split; [|split]]].
    - unfold multi_length. rewrite multi_length_loop_spec. apply put_total.
    - unfold multi_has_length, spec_multi_len. clear F. induction ls as [|l ls IH]; [reflexivity|]. cbn [existsb flat_map].
      destruct (plain l) as (_ & _ & _ & -> & _). destruct (spec_len l); [reflexivity|]. exact IH.
    - destruct ls as [|f [|n r]]; [reflexivity| |].
      + unfold multi_azimuth. rewrite multi_empty_filled by (auto; discriminate). unfold spec_multi_az. cbn [concat]. rewrite app_nil_r. apply plain.
      + destruct (ends_spec f n r F) as (a & b & fr & br & -> & E2 & ->). unfold multi_azimuth. rewrite multi_empty_filled by (auto; discriminate). rewrite E2.
        destruct (eqp a b); reflexivity.
    - destruct ls as [|f [|n r]]; [reflexivity| |].
      + unfold multi_has_azimuth. rewrite multi_empty_filled by (auto; discriminate). unfold spec_multi_az. cbn [concat]. rewrite app_nil_r. f_equal. apply plain.
      + destruct (ends_spec f n r F) as (a & b & fr & br & -> & E2 & ->). unfold multi_has_azimuth. rewrite multi_empty_filled by (auto; discriminate). rewrite E2.
        destruct (eqp a b); reflexivity.
    - intros g. split.
      + unfold multi_directions. destruct ls as [|f [|n r]]; [reflexivity| |]; rewrite multi_empty_filled by (auto; discriminate).
        * rewrite (has_directions_spec f g). destruct (plain f) as (_ & _ & -> & _). cbn [one_or]. destruct (spec_dirs g f); reflexivity.
        * rewrite multi_directions_loop_spec by exact F. cbn [one_or]. apply put_total.
      + unfold multi_has_directions. destruct ls as [|f [|n r]]; [reflexivity| |]; rewrite multi_empty_filled by (auto; discriminate).
        * f_equal. rewrite (has_directions_spec f g). unfold spec_multi_dirs. rewrite spec_changes_single. destruct (spec_dirs g f); reflexivity.
        * apply multi_has_directions_loop_spec. exact F.
  Qed.

  Lemma fold_add (ls : list (list P)) : forall n, fold_left (fun k l => k + length l) ls n = n + length (concat ls).
  Proof. induction ls as [|l ls IH]; intros n; cbn [fold_left concat]; [cbn; lia|]. rewrite IH, app_length. lia. Qed.
  (** the number of points, emptiness, and the geometry without the empty parts *)
  Theorem C52_points (ls : list (list P)) :
    sizes ls = length (concat ls)
    /\ (multi_empty ls = true <-> concat ls = [])
    /\ concat (multi_line ls) = concat ls /\ (forall l, In l (multi_line ls) <-> In l ls /\ l <> []).
  Proof.
    split; [unfold sizes; rewrite fold_add; lia|]. split; [|split].
    - unfold multi_empty. induction ls as [|[|x l] ls IH]; cbn; [tauto|exact IH|]. split; discriminate.
    - induction ls as [|[|x l] ls IH]; cbn; [reflexivity|exact IH|]. rewrite <- IH. reflexivity.
    - intros l. unfold multi_line. rewrite filter_In. destruct l; split; intros [H1 H2]; split; auto; congruence.
  Qed.

  (** *** cached values *)
  Notation data := (@data L A).
  Definition full_multi (ls : list (list P)) : data :=
    mkData (to_cv (spec_multi_len ls)) (to_cv (spec_multi_az ls))
           (to_cv (spec_multi_dirs (fun x => x) ls)) (to_cv (spec_multi_dirs absA ls))
           (map (fun l => to_cv (spec_len l)) ls)
           (map (fun ab => to_cv (spec_joint (fst ab) (snd ab))) (combine ls (tl ls))).

  Lemma m_lengths_spec ls l : filled ls -> l = [] \/ l = map (fun l => to_cv (spec_len l)) ls ->
    m_lengths eqp dist addL zeroL ls l = map (fun l => to_cv (spec_len l)) ls.
  Proof.
    intros F [->| ->].
    - cbn [m_lengths]. destruct ls as [|x ls]; [reflexivity|]. rewrite multi_empty_filled by (auto; discriminate). apply map_ext. intros y.
      destruct (plain y) as (-> & _ & _ & -> & _). destruct (spec_len y); reflexivity.
    - destruct ls; [reflexivity|]. reflexivity.
  Qed.
  Lemma sum_valid_put l : forall has acc,
    sum_valid addL (map (fun l => to_cv (spec_len l)) l) has acc
    = match put addL zeroL has acc (flat_map (fun l => listed (spec_len l)) l) with Ok v => Val v | _ => Invalid end.
  Proof.
    induction l as [|x l IH]; intros has acc; cbn [map sum_valid flat_map]; [destruct has; reflexivity|].
    destruct (spec_len x) as [v|]; cbn [to_cv listed app]; rewrite IH; [rewrite (put_cons _ _ has)|]; reflexivity.
  Qed.
  Lemma m_azimuth_spec ls : filled ls -> m_azimuth eqp azi zeroA ls = Ok (to_cv (spec_multi_az ls)).
  Proof.
    intros F. unfold m_azimuth. destruct ls as [|f [|n r]]; [reflexivity| |]; rewrite multi_empty_filled by (auto; discriminate).
    - unfold spec_multi_az. cbn [concat]. rewrite app_nil_r. destruct (plain f) as (_ & -> & _ & _ & ->). destruct (spec_az f); reflexivity.
    - destruct (ends_spec f n r F) as (a & b & fr & br & -> & -> & ->). destruct (eqp a b); reflexivity.
  Qed.
  Lemma m_joints_spec ls : filled ls -> m_joints eqp azi diffA ls = Ok (map (fun ab => to_cv (spec_joint (fst ab) (snd ab))) (combine ls (tl ls))).
  Proof.
    induction ls as [|l [|n r] IH]; intros F; [reflexivity|reflexivity|]. inversion F as [|? ? Fl Fr]; subst. specialize (IH Fr). inversion Fr; subst.
    change (m_joints eqp azi diffA (l :: n :: r)) with
      (match joint eqp azi diffA l n with
       | Ok d => bindO (m_joints eqp azi diffA (n :: r)) (fun js => js) (fun js => Ok ((match d with Some v => Val v | None => Invalid end) :: js))
       | _ => UB end).
    rewrite joint_spec, IH by assumption. cbn [bindO tl combine map fst snd]. destruct (spec_joint l n); reflexivity.
  Qed.
  Lemma m_sum_spec g ls : forall has acc,
    m_sum eqp azi addA zeroA diffA g ls (map (fun ab => to_cv (spec_joint (fst ab) (snd ab))) (combine ls (tl ls))) has acc
    = match put addA zeroA has acc (spec_changes g ls) with Ok v => Val v | _ => Invalid end.
  Proof.
    induction ls as [|l ls IH]; intros has acc; [destruct has; reflexivity|]. destruct (plain l) as (_ & _ & E & _ & _). specialize (E g).
    destruct ls as [|n r].
    - cbn [tl combine map m_sum spec_changes]. rewrite (has_directions_spec l g), E.
      destruct (spec_dirs g l); cbn [some answer fst snd listed app put]; [reflexivity|]. destruct has; reflexivity.
    - cbn [tl combine map m_sum spec_changes fst snd] in *. rewrite (has_directions_spec l g), E.
      destruct (spec_dirs g l) as [v|]; cbn [some answer fst snd listed app]; destruct (spec_joint l n) as [d|]; cbn [to_cv listed map app]; rewrite IH;
        rewrite ?(put_cons _ _ true), ?(put_cons _ _ has); reflexivity.
  Qed.
  Lemma put_cv {V} (add : V -> V -> V) (zero : V) l : match put add zero false zero l with Ok v => Val v | _ => Invalid end = to_cv (total add zero l).
  Proof. destruct l; reflexivity. Qed.

  (** lines as constructed: eagerly computed, or lazily with any of the getters having been called *)
  Inductive built_multi : bool -> @multi P L A -> Prop :=
  | bm_default e : built_multi e (mkMulti data0 [])
  | bm_eager ls m : filled ls -> eager_multi_of eqp dist azi addL zeroL addA zeroA diffA absA ls = Ok m -> built_multi true m
  | bm_lazy ls : filled ls -> built_multi false (lazy_multi_of ls)
  | bm_of_eager m : built_multi true m -> built_multi false m
  | bm_length m : built_multi false m -> built_multi false (lazy_multi_length eqp dist addL zeroL m)
  | bm_azimuth m m' : built_multi false m -> lazy_multi_azimuth eqp azi zeroA m = Ok m' -> built_multi false m'
  | bm_directions m m' : built_multi false m -> lazy_multi_directions eqp azi addA zeroA diffA absA m = Ok m' -> built_multi false m'.

  Record ok_multi (m : @multi P L A) : Prop := {
    om_filled : filled (m_lines m);
    om_len : okv (d_len (m_data m)) (d_len (full_multi (m_lines m)));
    om_az : okv (d_az (m_data m)) (d_az (full_multi (m_lines m)));
    om_dirs : d_dirs (m_data m) = Uninit
      \/ (d_dirs (m_data m) = d_dirs (full_multi (m_lines m)) /\ d_abs (m_data m) = d_abs (full_multi (m_lines m)));
    om_lens : d_lens (m_data m) = [] \/ d_lens (m_data m) = d_lens (full_multi (m_lines m));
    om_azs : d_azs (m_data m) = [] \/ d_azs (m_data m) = d_azs (full_multi (m_lines m)) }.

  Lemma to_cv_init {V} (o : option V) : initialized (to_cv o) = true.
  Proof. destruct o; reflexivity. Qed.
  Lemma ok_fresh ls : filled ls -> ok_multi (mkMulti data0 ls).
  Proof. intros F. constructor; cbn; auto; left; reflexivity. Qed.
  Lemma ok_length m : ok_multi m -> ok_multi (lazy_multi_length eqp dist addL zeroL m)
    /\ d_len (m_data (lazy_multi_length eqp dist addL zeroL m)) = d_len (full_multi (m_lines m))
    /\ d_lens (m_compute_length eqp dist addL zeroL (m_lines m) (m_data m)) = (if initialized (d_len (m_data m)) then d_lens (m_data m) else d_lens (full_multi (m_lines m))).
  Proof.
    intros [F H1 H2 H3 H4 H5]. unfold lazy_multi_length, m_compute_length. destruct (initialized (d_len (m_data m))) eqn:I.
    - split; [constructor; auto|]. split; [|reflexivity]. destruct H1 as [H1|H1]; [rewrite H1 in I; discriminate|exact H1].
    - rewrite m_lengths_spec by assumption.
      assert (E : sum_valid addL (map (fun l => to_cv (spec_len l)) (m_lines m)) false zeroL = to_cv (spec_multi_len (m_lines m)))
        by (rewrite sum_valid_put; apply put_cv).
      rewrite E. split; [|split; reflexivity]. constructor; cbn [m_lines m_data d_len d_az d_dirs d_abs d_lens d_azs]; auto; right; reflexivity.
  Qed.
  Lemma ok_azimuth m : ok_multi m -> exists m', lazy_multi_azimuth eqp azi zeroA m = Ok m' /\ ok_multi m' /\ m_lines m' = m_lines m
    /\ d_az (m_data m') = d_az (full_multi (m_lines m)) /\ d_len (m_data m') = d_len (m_data m) /\ d_dirs (m_data m') = d_dirs (m_data m)
    /\ d_lens (m_data m') = d_lens (m_data m) /\ d_azs (m_data m') = d_azs (m_data m).
  Proof.
    intros [F H1 H2 H3 H4 H5]. unfold lazy_multi_azimuth, m_compute_azimuth. destruct (initialized (d_az (m_data m))) eqn:I.
    - eexists. cbn [on_lines bindO]. split; [reflexivity|]. split; [constructor; auto|]. split; [reflexivity|].
      split; [|repeat split; reflexivity]. destruct H2 as [H2|H2]; [rewrite H2 in I; discriminate|exact H2].
    - rewrite m_azimuth_spec by exact F. cbn [bindO on_lines]. eexists. split; [reflexivity|]. split; [|cbn; repeat split; reflexivity].
      constructor; cbn [m_lines m_data d_len d_az d_dirs d_abs d_lens d_azs]; auto. right. reflexivity.
  Qed.
  Lemma ok_directions m : ok_multi m -> exists m', lazy_multi_directions eqp azi addA zeroA diffA absA m = Ok m' /\ ok_multi m' /\ m_lines m' = m_lines m
    /\ d_dirs (m_data m') = d_dirs (full_multi (m_lines m)) /\ d_abs (m_data m') = d_abs (full_multi (m_lines m))
    /\ d_len (m_data m') = d_len (m_data m) /\ d_az (m_data m') = d_az (m_data m) /\ d_lens (m_data m') = d_lens (m_data m)
    /\ (d_dirs (m_data m) = Uninit -> d_azs (m_data m') = d_azs (full_multi (m_lines m))).
  Proof.
    intros [F H1 H2 H3 H4 H5]. unfold lazy_multi_directions, m_compute_directions.
    destruct (initialized (d_dirs (m_data m)) && initialized (d_abs (m_data m))) eqn:I.
    - cbn [on_lines bindO]. apply andb_true_iff in I as [I1 I2]. destruct H3 as [H3|[H3 H3']]; [rewrite H3 in I1; discriminate|].
      eexists. split; [reflexivity|]. split; [constructor; auto|]. cbn. repeat split; auto. intros H. rewrite H in I1. discriminate.
    - assert (J : match d_azs (m_data m) with [] => m_joints eqp azi diffA (m_lines m) | js => Ok js end = Ok (d_azs (full_multi (m_lines m)))).
      { destruct H5 as [H5|H5]; rewrite H5; [apply m_joints_spec; exact F|].
        pose proof (m_joints_spec (m_lines m) F) as E. cbn [full_multi d_azs]. destruct (map _ _); [exact E|reflexivity]. }
      rewrite J. cbn [bindO].
      assert (S : forall g, (if multi_empty (m_lines m) then Invalid else m_sum eqp azi addA zeroA diffA g (m_lines m) (d_azs (full_multi (m_lines m))) false zeroA)
                  = to_cv (spec_multi_dirs g (m_lines m))).
      { intros g. cbn [full_multi d_azs]. rewrite m_sum_spec, put_cv. destruct (m_lines m) as [|l r] eqn:El; [reflexivity|].
        rewrite multi_empty_filled by (auto; discriminate). reflexivity. }
      pose proof (S (fun x => x)) as S1. pose proof (S absA) as S2.
      destruct (multi_empty (m_lines m)) eqn:Em; cbn [on_lines bindO]; eexists; (split; [reflexivity|]); (split; [constructor|]); cbn [m_lines m_data d_len d_az d_dirs d_abs d_lens d_azs]; rewrite ?S1, ?S2; auto;
        cbn [full_multi d_dirs d_abs]; rewrite <- ?S1, <- ?S2; repeat split; auto.
  Qed.
  Lemma eager_full ls : filled ls -> ls <> [] -> exists m, eager_multi_of eqp dist azi addL zeroL addA zeroA diffA absA ls = Ok m
    /\ m_lines m = ls /\ m_data m = full_multi ls.
  Proof.
    intros F N. pose proof (ok_fresh ls F) as O0. destruct (ok_length _ O0) as (O1 & L1 & L2).
    destruct (ok_azimuth _ O1) as (m2 & E2 & O2 & M2 & Z2 & Z2' & Z2'' & Z2l & Z2a). destruct (ok_directions _ O2) as (m3 & E3 & O3 & M3 & D3 & D3' & D3l & D3z & D3s & D3a).
    exists m3. unfold eager_multi_of, m_compute. unfold lazy_multi_azimuth in E2. cbn [lazy_multi_length m_lines m_data] in E2, M2, Z2', Z2l.
    destruct (m_compute_azimuth eqp azi zeroA ls (m_compute_length eqp dist addL zeroL ls data0)) as [d| d| |] eqn:Ea; cbn [on_lines bindO] in E2; try discriminate.
    injection E2 as <-. cbn [m_lines m_data bindO] in *. unfold lazy_multi_directions in E3. cbn [m_lines m_data] in E3. rewrite E3.
    split; [reflexivity|]. split; [rewrite M3; reflexivity|]. cbn [m_lines m_data] in *.
    cbn [lazy_multi_length m_data] in L1. cbn in L2. destruct (m_data m3) as [x1 x2 x3 x4 x5 x6]. cbn [d_len d_az d_dirs d_abs d_lens d_azs] in *.
    unfold full_multi in *. cbn [d_len d_az d_dirs d_abs d_lens d_azs] in *.
    assert (x6 = map (fun ab => to_cv (spec_joint (fst ab) (snd ab))) (combine ls (tl ls))) by (apply D3a; rewrite Z2''; reflexivity).
    subst x3 x4 x6. f_equal; [rewrite D3l, Z2'; exact L1|rewrite D3z, Z2; reflexivity|rewrite D3s, Z2l; exact L2].
  Qed.

  Lemma built_multi_ok e m : built_multi e m -> ok_multi m /\ (e = true -> m_data m = full_multi (m_lines m) \/ m = mkMulti data0 []).
  Proof.
    induction 1 as [e|ls m F E|ls F|m _ [O _]|m _ [O _]|m m' _ [O _] E|m m' _ [O _] E]; (split; [|intros He; try discriminate]).
    - apply ok_fresh. constructor.
    - right. reflexivity.
    - destruct ls as [|l ls].
      + cbn in E. injection E as <-. constructor; cbn; auto; right; reflexivity.
      + destruct (eager_full (l :: ls) F ltac:(discriminate)) as (m0 & E0 & M & D). rewrite E0 in E. injection E as <-.
        constructor; rewrite ?M, ?D; auto; right; auto.
    - destruct ls as [|l ls].
      + cbn in E. injection E as <-. left. reflexivity.
      + destruct (eager_full (l :: ls) F ltac:(discriminate)) as (m0 & E0 & M & D). rewrite E0 in E. injection E as <-. left. rewrite M. exact D.
    - apply ok_fresh. exact F.
    - exact O.
    - apply ok_length. exact O.
    - destruct (ok_azimuth m O) as (m1 & E1 & O1 & _). congruence.
    - destruct (ok_directions m O) as (m1 & E1 & O1 & _). congruence.
  Qed.

  (** **** C52: the values kept by eager lines and reported by lazy lines, after any sequence of calls, are the values computed
      from the parts. *)
  Theorem C52_eager m : built_multi true m -> m_lines m <> [] -> m_data m = full_multi (m_lines m).
  Proof. intros B N. destruct (built_multi_ok true m B) as [_ H]. destruct (H eq_refl) as [E|E]; [exact E|]. subst m. cbn in N. congruence. Qed.
  Theorem C52_eager_exists ls : filled ls -> exists m, eager_multi_of eqp dist azi addL zeroL addA zeroA diffA absA ls = Ok m /\ m_lines m = ls.
  Proof. intros F. destruct ls as [|l ls]; [eexists; split; reflexivity|]. destruct (eager_full (l :: ls) F ltac:(discriminate)) as (m & E & M & _). eauto. Qed.
  Theorem C52_lazy m : built_multi false m ->
    d_len (m_data (lazy_multi_length eqp dist addL zeroL m)) = to_cv (spec_multi_len (m_lines m))
    /\ (exists m', lazy_multi_azimuth eqp azi zeroA m = Ok m' /\ d_az (m_data m') = to_cv (spec_multi_az (m_lines m)) /\ m_lines m' = m_lines m)
    /\ (exists m', lazy_multi_directions eqp azi addA zeroA diffA absA m = Ok m'
          /\ d_dirs (m_data m') = to_cv (spec_multi_dirs (fun x => x) (m_lines m))
          /\ d_abs (m_data m') = to_cv (spec_multi_dirs absA (m_lines m)) /\ m_lines m' = m_lines m).
  Proof.
    intros B. destruct (built_multi_ok false m B) as [O _]. split; [apply ok_length; exact O|]. split.
    - destruct (ok_azimuth m O) as (m' & E & _ & M & Z & _). exists m'. auto.
    - destruct (ok_directions m O) as (m' & E & _ & M & D1 & D2 & _). exists m'. auto.
  Qed.
End C52.

(** *** several parts and the line they make when joined *)
Section Joined.
  Context {P L A : Type}.
  Variable eqp : P -> P -> bool.
  Variable dist : P -> P -> L.
  Variable azi : P -> P -> A.
  Variable addL : L -> L -> L.
  Variable zeroL : L.
  Variable addA : A -> A -> A.
  Variable zeroA : A.
  Variable diffA : A -> A -> A.
  (** equal points have the same relation, distance and azimuth to other points; exact addition *)
  Hypothesis congruent : forall a b c, eqp a b = true -> eqp a c = eqp b c /\ dist a c = dist b c /\ azi a c = azi b c.
  Hypothesis addL_assoc : forall x y z, addL (addL x y) z = addL x (addL y z).
  Hypothesis addL_0_l : forall x, addL zeroL x = x.
  Hypothesis addL_0_r : forall x, addL x zeroL = x.
  Hypothesis addA_assoc : forall x y z, addA (addA x y) z = addA x (addA y z).
  Hypothesis addA_0_l : forall x, addA zeroA x = x.
  Hypothesis addA_0_r : forall x, addA x zeroA = x.

  Lemma fold_from {V} (add : V -> V -> V) zero (assoc : forall x y z, add (add x y) z = add x (add y z)) (zr : forall x, add x zero = x) (zl : forall x, add zero x = x) l :
    forall acc, fold_left add l acc = add acc (fold_left add l zero).
  Proof.
    induction l as [|x l IH]; intros acc; cbn [fold_left]; [symmetry; apply zr|]. rewrite (IH (add acc x)), (IH (add zero x)), zl. apply assoc.
  Qed.

  (** values of the segments: only those with two different ends have one *)
  Definition seg_val {V} (f : P -> P -> V) (s : P * P) : option V := if live eqp s then Some (f (fst s) (snd s)) else None.
  Fixpoint adj (g : A -> A) (l : list (option A)) : list A :=
    match l with
    | Some a :: ((Some b :: _) as r) => g (diffA a b) :: adj g r
    | _ :: r => adj g r
    | [] => []
    end.
  Definition link (g : A -> A) (a b : option A) : list A := match a, b with Some x, Some y => [g (diffA x y)] | _, _ => [] end.

  Lemma len_vals l : spec_len eqp dist addL zeroL l = total addL zeroL (flat_map (fun s => listed (seg_val dist s)) (segments l)).
  Proof.
    unfold spec_len. assert (E : map (fun s => dist (fst s) (snd s)) (filter (live eqp) (segments l)) = flat_map (fun s => listed (seg_val dist s)) (segments l)).
    { induction (segments l) as [|s r IH]; [reflexivity|]. cbn [filter flat_map]. unfold seg_val at 1. destruct (live eqp s); cbn [map listed app]; rewrite IH; reflexivity. }
    rewrite <- E. destruct (filter (live eqp) (segments l)); reflexivity.
  Qed.
  Lemma dirs_vals g l : spec_dirs eqp azi addA zeroA diffA g l = total addA zeroA (adj g (map (seg_val azi) (segments l))).
  Proof.
    unfold spec_dirs, turns.
    assert (E : map (fun t => g (diffA (azi (fst (fst t)) (snd (fst t))) (azi (fst (snd t)) (snd (snd t)))))
                  (filter (fun t => live eqp (fst t) && live eqp (snd t)) (combine (segments l) (tl (segments l)))) = adj g (map (seg_val azi) (segments l))).
    { induction (segments l) as [|s [|t r] IH]; [reflexivity|cbn; destruct (seg_val azi s); reflexivity|]. cbn [tl] in *.
      cbn [combine filter map fst snd] in *. unfold seg_val at 1 2. cbn [adj]. destruct (live eqp s) eqn:E1; cbn [andb].
      - destruct (live eqp t) eqn:E2; cbn [map fst snd]; rewrite IH; unfold seg_val at 1; rewrite E2; reflexivity.
      - rewrite IH. unfold seg_val at 1. destruct (live eqp t); reflexivity. }
    rewrite <- E. destruct (filter _ _); reflexivity.
  Qed.
  Lemma adj_app g x a b y : adj g ((x ++ [a]) ++ b :: y) = adj g (x ++ [a]) ++ link g a b ++ adj g (b :: y).
  Proof.
    induction x as [|c x IH].
    - destruct a, b; reflexivity.
    - destruct x as [|c' x].
      + clear IH. destruct c as [c|], a as [a|], b as [b|]; reflexivity.
      + change (((c :: c' :: x) ++ [a]) ++ b :: y) with (c :: c' :: (x ++ [a]) ++ b :: y).
        change ((c :: c' :: x) ++ [a]) with (c :: c' :: x ++ [a]).
        change (((c' :: x) ++ [a]) ++ b :: y) with (c' :: (x ++ [a]) ++ b :: y) in IH. change ((c' :: x) ++ [a]) with (c' :: x ++ [a]) in IH.
        destruct c as [c|], c' as [c'|]; cbn [adj] in *; rewrite IH; reflexivity.
  Qed.
  Lemma segments_split u (p : P) y : segments ((u ++ [p]) ++ y) = segments (u ++ [p]) ++ segments (p :: y).
  Proof.
    induction u as [|x u IH]; [reflexivity|]. cbn [app] in *. destruct ((u ++ [p]) ++ y) as [|z w] eqn:E; [destruct u; discriminate|].
    change (segments (x :: z :: w)) with ((x, z) :: segments (z :: w)). rewrite IH.
    destruct (u ++ [p]) as [|z' w'] eqn:E'; [destruct u; discriminate|]. injection E as <- _. reflexivity.
  Qed.
  Lemma vals_cong {V} (f : P -> P -> V) p q y : eqp p q = true -> (forall c, f p c = f q c) ->
    map (seg_val f) (segments (p :: y)) = map (seg_val f) (segments (q :: y)).
  Proof.
    intros E H. destruct y as [|z y]; [reflexivity|]. change (segments (p :: z :: y)) with ((p, z) :: segments (z :: y)).
    change (segments (q :: z :: y)) with ((q, z) :: segments (z :: y)). cbn [map]. f_equal. unfold seg_val, live. cbn [fst snd].
    destruct (congruent p q z E) as (-> & _). rewrite H. reflexivity.
  Qed.
  Lemma joined_cons2 (a b : list P) r : joined (a :: b :: r) = a ++ tl (joined (b :: r)) \/ b = [].
  Proof. destruct b; [right; reflexivity|left]. reflexivity. Qed.
  Lemma vals_joined {V} (f : P -> P -> V) a b r : attached eqp a b -> (forall p q c, eqp p q = true -> f p c = f q c) ->
    map (seg_val f) (segments (joined (a :: b :: r))) = map (seg_val f) (segments a) ++ map (seg_val f) (segments (joined (b :: r))).
  Proof.
    intros (u & p & q & v & -> & -> & E) H. destruct (joined_cons2 (u ++ [p]) (q :: v) r) as [J|J]; [|discriminate]. rewrite J.
    assert (Jb : joined ((q :: v) :: r) = q :: tl (joined ((q :: v) :: r))) by reflexivity. rewrite Jb at 2.
    rewrite segments_split, map_app. f_equal. apply vals_cong; auto.
  Qed.

  Lemma sum_listed {V} (add : V -> V -> V) zero (assoc : forall x y z, add (add x y) z = add x (add y z)) (zr : forall x, add x zero = x) (zl : forall x, add zero x = x)
    (x y : list V) : total add zero (listed (total add zero x) ++ y) = total add zero (x ++ y).
  Proof.
    destruct x as [|a x]; [reflexivity|]. unfold total at 2. cbn [listed app total]. f_equal. cbn [fold_left]. rewrite zl.
    rewrite fold_left_app. rewrite (fold_from add zero assoc zr zl x (add zero a)), zl. reflexivity.
  Qed.
  Lemma total_app {V} (add : V -> V -> V) zero (assoc : forall x y z, add (add x y) z = add x (add y z)) (zr : forall x, add x zero = x) (zl : forall x, add zero x = x)
    (x y y' : list V) : total add zero y = total add zero y' -> total add zero (x ++ y) = total add zero (x ++ y').
  Proof.
    intros E. destruct y as [|b y], y' as [|b' y']; try discriminate; [reflexivity|].
    assert (E' : fold_left add (b :: y) zero = fold_left add (b' :: y') zero) by (injection E; auto). clear E.
    destruct x as [|a x]; [exact (f_equal Some E')|]. unfold total. cbn [app]. f_equal.
    change (a :: x ++ b :: y) with ((a :: x) ++ b :: y). change (a :: x ++ b' :: y') with ((a :: x) ++ b' :: y').
    rewrite !fold_left_app. generalize (fold_left add (a :: x) zero). intros t.
    rewrite (fold_from add zero assoc zr zl (b :: y) t), (fold_from add zero assoc zr zl (b' :: y') t), E'. reflexivity.
  Qed.

  Notation long := (Forall (fun l : list P => 2 <= length l)).

  Lemma len_joined ls : chained eqp ls -> ls <> [] -> spec_multi_len eqp dist addL zeroL ls = spec_len eqp dist addL zeroL (joined ls).
  Proof.
    unfold spec_multi_len. induction ls as [|a [|b r] IH]; intros C N; [congruence| |].
    - cbn [flat_map joined map concat]. rewrite !app_nil_r. rewrite len_vals. destruct (flat_map _ (segments a)); cbn; [reflexivity|]. rewrite addL_0_l. reflexivity.
    - destruct C as [C1 C2]. specialize (IH C2 ltac:(discriminate)). rewrite (len_vals (joined (a :: b :: r))).
      assert (Fm : forall l, flat_map (fun s => listed (seg_val dist s)) l = flat_map listed (map (seg_val dist) l)).
      { intros l. induction l as [|x l IHl]; [reflexivity|]. cbn. rewrite IHl. reflexivity. }
      rewrite Fm, vals_joined by (try exact C1; intros; apply congruent; assumption). rewrite flat_map_app, <- !Fm.
      change (flat_map (fun l => listed (spec_len eqp dist addL zeroL l)) (a :: b :: r))
        with (listed (spec_len eqp dist addL zeroL a) ++ flat_map (fun l => listed (spec_len eqp dist addL zeroL l)) (b :: r)).
      rewrite (len_vals a). rewrite sum_listed by assumption. apply total_app; auto. rewrite IH. apply len_vals.
  Qed.
  Lemma joint_link g a b r : attached eqp a b -> 2 <= length a -> 2 <= length b ->
    exists x v w y, map (seg_val azi) (segments a) = x ++ [v] /\ map (seg_val azi) (segments (joined (b :: r))) = w :: y
      /\ map g (listed (spec_joint eqp azi diffA a b)) = link g v w.
  Proof.
    intros (u & p & q & v & -> & -> & E) La Lb. destruct v as [|q1 v]; [cbn in Lb; lia|].
    destruct (rev u) as [|p0 u'] eqn:Eu; [apply (f_equal (@length P)) in Eu; rewrite rev_length in Eu; cbn in Eu; rewrite app_length, Eu in La; cbn in La; lia|].
    assert (Er : rev (u ++ [p]) = p :: p0 :: u') by (rewrite rev_unit, Eu; reflexivity).
    destruct (rev_segments_last (u ++ [p]) p0 p u' Er) as (t & Et).
    assert (Es : segments (u ++ [p]) = rev t ++ [(p0, p)]) by (rewrite <- (rev_involutive (segments (u ++ [p]))), Et; reflexivity).
    exists (map (seg_val azi) (rev t)), (seg_val azi (p0, p)), (seg_val azi (q, q1)), (map (seg_val azi) (segments (q1 :: v ++ concat (map (@tl P) r)))).
    split; [rewrite Es, map_app; reflexivity|]. split; [reflexivity|].
    unfold spec_joint. rewrite Er, Et, E. change (segments (q :: q1 :: v)) with ((q, q1) :: segments (q1 :: v)). unfold seg_val.
    destruct (live eqp (p0, p)), (live eqp (q, q1)); reflexivity.
  Qed.
  Lemma dirs_joined g ls : chained eqp ls -> ls <> [] -> long ls ->
    spec_multi_dirs eqp azi addA zeroA diffA g ls = spec_dirs eqp azi addA zeroA diffA g (joined ls).
  Proof.
    unfold spec_multi_dirs. induction ls as [|a [|b r] IH]; intros C N F; [congruence| |].
    - rewrite spec_changes_single. cbn [joined map concat]. rewrite app_nil_r. destruct (spec_dirs eqp azi addA zeroA diffA g a); [rewrite addA_0_l|]; reflexivity.
    - destruct C as [C1 C2]. inversion F as [|? ? Fa Fr]; subst. specialize (IH C2 ltac:(discriminate) Fr).
      inversion Fr as [|? ? Fb _]; subst. destruct (joint_link g a b r C1 Fa Fb) as (x & v & w & y & E1 & E2 & E3).
      change (spec_changes eqp azi addA zeroA diffA g (a :: b :: r)) with
        (listed (spec_dirs eqp azi addA zeroA diffA g a) ++ map g (listed (spec_joint eqp azi diffA a b)) ++ spec_changes eqp azi addA zeroA diffA g (b :: r)).
      rewrite (dirs_vals g (joined (a :: b :: r))), vals_joined by (try exact C1; intros; apply congruent; assumption).
      rewrite (dirs_vals g a), sum_listed by assumption. rewrite E1, E2, adj_app, <- E3. apply total_app; auto. apply total_app; auto.
      rewrite IH, dirs_vals, E2. reflexivity.
  Qed.
  (** **** C52: chained parts of at least two points each have the length and the turns of the joined line. *)
  Theorem C52_joined ls : chained eqp ls -> ls <> [] -> long ls ->
    multi_length eqp dist addL zeroL ls = plain_length eqp dist addL zeroL (joined ls)
    /\ (forall g, multi_directions eqp azi addA zeroA diffA g ls = plain_directions eqp azi addA zeroA diffA g (joined ls)).
  Proof.
    intros C N F. assert (F' : Forall (fun l : list P => l <> []) ls) by (eapply Forall_impl; [|exact F]; intros [|x l] H; [cbn in H; lia|discriminate]).
    destruct (C52_values eqp dist azi addL zeroL addA zeroA diffA ls F') as (H1 & _ & _ & _ & H2).
    destruct (plain eqp dist azi addL zeroL addA zeroA diffA (joined ls)) as (P1 & _ & P2 & _).
    split; [rewrite H1, P1, len_joined by assumption; reflexivity|]. intros g. destruct (H2 g) as (-> & _). rewrite P2. f_equal.
    destruct ls as [|a [|b r]]; [congruence| |]; cbn [one_or].
    - cbn [joined map concat]. rewrite app_nil_r. reflexivity.
    - apply dirs_joined; assumption.
  Qed.
End Joined.

(** *** C21: lines that attach can be merged *)
Theorem C21_attaches {P} (eqp : P -> P -> bool) (a b : list P) : attaches eqp a b = true <-> attached eqp a b.
Proof.
  unfold attaches, attached. destruct (rev a) as [|p u] eqn:E.
  - assert (a = []) by (rewrite <- (rev_involutive a), E; reflexivity). subst a. split; [discriminate|].
    intros (w & x & y & z & H & _). destruct w; discriminate.
  - assert (Ea : a = rev u ++ [p]) by (rewrite <- (rev_involutive a), E; reflexivity). destruct b as [|q v].
    + split; [discriminate|]. intros (w & x & y & z & _ & H & _). discriminate.
    + split; intros H; [exists (rev u), p, q, v; auto|]. destruct H as (w & x & y & z & H1 & H2 & H3). rewrite Ea in H1.
      apply app_inj_tail in H1 as [_ ->]. injection H2 as -> _. exact H3.
Qed.

Notation zmulti := (@multi Z Z Z).
Notation zeager_multi := (eager_multi_of Z.eqb zdist zazi Z.add 0%Z Z.add 0%Z zdiff Z.abs).
Example C52_instance : forall a b c : Z, Z.eqb a b = true -> Z.eqb a c = Z.eqb b c /\ zdist a c = zdist b c /\ zazi a c = zazi b c.
Proof. intros a b c H. apply Z.eqb_eq in H. subst. auto. Qed.
Definition parts : list (list Z) := [[0; 5; 5; 3]; [3; 9]; [20; 10; 30]]%Z.
Example C52_demo : Forall (fun l => l <> []) parts
  /\ multi_length Z.eqb zdist Z.add 0%Z parts = Ok 43%Z /\ multi_azimuth Z.eqb zazi 0%Z parts = Ok 90%Z
  /\ multi_directions Z.eqb zazi Z.add 0%Z zdiff Z.abs parts = Ok 360%Z
  /\ exists m : zmulti, zeager_multi parts = Ok m /\ d_lens (m_data m) = [Val 7; Val 6; Val 30]%Z /\ d_azs (m_data m) = [Val 180; Invalid]%Z.
Proof. repeat split; [repeat constructor; discriminate|]. eexists. vm_compute. repeat split. Qed.
Example C52_demo_joined : chained Z.eqb [[0; 5; 3]; [3; 9]]%Z /\ Forall (fun l : list Z => 2 <= length l) [[0; 5; 3]; [3; 9]]%Z
  /\ joined [[0; 5; 3]; [3; 9]]%Z = [0; 5; 3; 9]%Z.
Proof. split; [|split; [repeat constructor|reflexivity]]. cbn. split; [|exact I]. exists [0; 5]%Z, 3%Z, 3%Z, [9]%Z. auto. Qed.

(** merging into an eager multi line leaves the old values in place *)
Theorem C52_merge_refuted : exists (m m' : zmulti), zeager_multi [[0; 5]]%Z = Ok m /\ cached_multi_merge Z.eqb m [[5; 9]]%Z = Ok m'
  /\ d_len (m_data m') <> to_cv (spec_multi_len Z.eqb zdist Z.add 0%Z (m_lines m')).
Proof. do 2 eexists. vm_compute. repeat split. discriminate. Qed.
(** so does assigning other lines *)
Theorem C52_assign_refuted : exists (m m' : zmulti), zeager_multi [[0; 5]]%Z = Ok m
  /\ eager_multi_assign Z.eqb zdist zazi Z.add 0%Z Z.add 0%Z zdiff Z.abs m [[0; 9]]%Z = Ok m'
  /\ d_len (m_data m') <> to_cv (spec_multi_len Z.eqb zdist Z.add 0%Z (m_lines m')).
Proof. do 2 eexists. vm_compute. repeat split. discriminate. Qed.
(** a part that is a single point hides the turn at that point *)
Theorem C52_single_point_refuted : exists ls : list (list Z), chained Z.eqb ls /\ Forall (fun l => l <> []) ls
  /\ plain_directions Z.eqb zazi Z.add 0%Z zdiff (fun x => x) (joined ls) = Ok (-180)%Z
  /\ multi_directions Z.eqb zazi Z.add 0%Z zdiff (fun x => x) ls = Throw 0%Z.
Proof.
  exists [[0; 5]; [5]; [5; 1]]%Z. split; [|vm_compute; repeat split; repeat constructor; discriminate].
  cbn. split; [exists [0]%Z, 5%Z, 5%Z, []; auto|]. split; [|exact I]. exists [], 5%Z, 5%Z, [1]%Z. auto.
Qed.
(** an empty part: undefined *)
Theorem C52_empty_part_refuted : exists ls : list (list Z), multi_empty ls = false
  /\ multi_azimuth Z.eqb zazi 0%Z ls = UB /\ multi_has_directions Z.eqb zazi zdiff ls = UB /\ zeager_multi ls = UB.
Proof. exists [[0; 5]; []]%Z. vm_compute. auto. Qed.

Print Assumptions C52_values.
Print Assumptions C52_points.
Print Assumptions C52_eager.
Print Assumptions C52_eager_exists.
Print Assumptions C52_lazy.
Print Assumptions C52_joined.
Print Assumptions C21_attaches.
Print Assumptions C52_merge_refuted.
Print Assumptions C52_assign_refuted.
Print Assumptions C52_single_point_refuted.
Print Assumptions C52_empty_part_refuted.
