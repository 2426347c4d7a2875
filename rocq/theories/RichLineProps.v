(** C21, C22, C23: lines, their attributes and their merging. *)
From Coq Require Import ZArith Sorted.
From Verif Require Import Base ListAux Simplify SimplifyProofs RichLine RichLineProofs.
Local Open Scope nat_scope.

(** *** C21: merging *)
Section C21.
  Context {P : Type}.
  Variable eqp : P -> P -> bool.
  (** equality of points as computed (coordinates compared with ==): symmetric and transitive *)
  Hypothesis eqp_sym : forall a b, eqp a b = true -> eqp b a = true.
  Hypothesis eqp_trans : forall a b c, eqp a b = true -> eqp b c = true -> eqp a c = true.

  Definition nonempty (l : list P) : bool := match l with [] => false | _ => true end.
  (** [a] ends where [b] begins *)
  Definition attached (a b : list P) : Prop := exists u p q v, a = u ++ [p] /\ b = q :: v /\ eqp p q = true.
  Fixpoint chained (ls : list (list P)) : Prop :=
    match ls with
    | a :: ((b :: _) as r) => attached a b /\ chained r
    | _ => True
    end.
  (** the points of the lines, every joint once *)
  Definition joined (ls : list (list P)) : list P :=
    match ls with
    | [] => []
    | a :: r => a ++ concat (map (@tl P) r)
    end.

  Lemma eqp_cong p q x : eqp p q = true -> eqp p x = eqp q x.
  Proof. intros H. destruct (eqp p x) eqn:A, (eqp q x) eqn:B; auto; [rewrite <- B|rewrite <- A]; [symmetry|]; eauto. Qed.

  (** chained, starting behind the point [p] *)
  Fixpoint from (p : P) (ls : list (list P)) : Prop :=
    match ls with
    | [] => True
    | b :: r => match b with
                | [] => from p r
                | q :: v => eqp p q = true /\ from (last v q) r
                end
    end.
  Lemma from_cong ls : forall p q, eqp p q = true -> from p ls -> from q ls.
  Proof.
    induction ls as [|[|x v] ls IH]; intros p q E H; cbn in *; eauto. destruct H as [H1 H2]. split; [|exact H2]. rewrite <- (eqp_cong p q x E). exact H1.
  Qed.
  Lemma from_filter ls : forall p, from p ls <-> from p (filter nonempty ls).
  Proof.
    induction ls as [|[|x v] ls IH]; intros p; cbn; [tauto|apply IH|]. rewrite IH. tauto.
  Qed.
  Lemma last_snoc_cons (u : list P) p d : last (u ++ [p]) d = p.
  Proof. apply last_last. Qed.
  Lemma last_cons_indep (q : P) v : forall d, last (q :: v) d = last v q.
  Proof. revert q. induction v as [|x v IH]; intros q d; [reflexivity|]. change (last (q :: x :: v) d) with (last (x :: v) d). rewrite !IH. reflexivity. Qed.
  Lemma chained_from ls : forall u p, Forall (fun l => nonempty l = true) ls -> (chained ((u ++ [p]) :: ls) <-> from p ls).
  Proof.
    induction ls as [|b ls IH]; intros u p F; [cbn; tauto|]. inversion F as [|? ? Fb Fr]; subst.
    destruct b as [|q v]; [discriminate|]. change (chained ((u ++ [p]) :: (q :: v) :: ls)) with (attached (u ++ [p]) (q :: v) /\ chained ((q :: v) :: ls)).
    cbn [from]. destruct (@exists_last _ (q :: v)) as (w & z & Ez); [discriminate|].
    assert (El : last v q = z) by (rewrite <- (last_cons_indep q v q), Ez; apply last_last).
    rewrite El. rewrite Ez at 2. rewrite (IH w z Fr). split; intros [H1 H2]; (split; [|exact H2]).
    - destruct H1 as (u' & p' & q' & v' & E1 & E2 & E3). apply app_inj_tail in E1 as [_ <-]. injection E2 as <- _. exact E3.
    - exists u, p, q, v. auto.
  Qed.

  Lemma merge_from lines : forall cur p u, cur = u ++ [p] ->
    (from p lines -> plain_merge eqp cur lines = Ok (cur ++ concat (map (@tl P) lines)))
    /\ (~ from p lines -> exists l, plain_merge eqp cur lines = Throw l).
  Proof.
    unfold plain_merge. induction lines as [|[|q v] lines IH]; intros cur p u E; cbn [foldO map concat from].
    - rewrite app_nil_r. tauto.
    - cbn [merge_single bindO tl app]. apply (IH cur p u E).
    - assert (M : merge_single eqp cur (q :: v) = if eqp p q then Ok (cur ++ v) else Throw cur).
      { rewrite E. unfold merge_single. destruct (u ++ [p]) eqn:Eu; [destruct u; discriminate|]. rewrite <- Eu, last_last. reflexivity. }
      rewrite M. destruct (eqp p q) eqn:Q; cbn [bindO].
      2:{ split; [intros [H _]; discriminate|]. intros _. eauto. }
      destruct v as [|x v'].
      + rewrite app_nil_r. cbn [tl app last]. destruct (IH cur p u E) as [I1 I2]. split.
        * intros [_ H]. apply I1. apply (from_cong _ q p); auto.
        * intros H. apply I2. intros H'. apply H. split; [reflexivity|]. apply (from_cong _ p q); auto.
      + destruct (@exists_last _ (x :: v')) as (w & z & Ez); [discriminate|].
        destruct (IH (cur ++ x :: v') z (cur ++ w)) as [I1 I2]; [rewrite Ez, app_assoc; reflexivity|].
        assert (El : last (x :: v') q = z) by (rewrite Ez; apply last_last). rewrite El. cbn [tl]. rewrite app_assoc. split.
        * intros [_ H]. apply I1. exact H.
        * intros H. apply I2. intros H'. apply H. auto.
  Qed.
  Lemma map_tl_filter ls : concat (map (@tl P) (filter nonempty ls)) = concat (map (@tl P) ls).
  Proof. induction ls as [|[|x v] ls IH]; cbn; [reflexivity|exact IH|]. rewrite IH. reflexivity. Qed.

  (** **** C21: attached lines are concatenated with each joint once; empty lines do not matter; otherwise an exception
      is raised. *)
  Theorem C21_merge line lines :
    let parts := filter nonempty (line :: lines) in
    (chained parts -> plain_merge eqp line lines = Ok (joined parts))
    /\ (~ chained parts -> exists l, plain_merge eqp line lines = Throw l).
  Proof.
    cbv zeta. revert line.
    assert (G : forall cur lines, cur <> [] ->
      (chained (filter nonempty (cur :: lines)) -> plain_merge eqp cur lines = Ok (joined (filter nonempty (cur :: lines))))
      /\ (~ chained (filter nonempty (cur :: lines)) -> exists l, plain_merge eqp cur lines = Throw l)).
    { intros cur ls Ne. destruct (@exists_last _ cur Ne) as (u & p & E). destruct (merge_from ls cur p u E) as [M1 M2].
      assert (Ef : filter nonempty (cur :: ls) = cur :: filter nonempty ls) by (destruct cur; [congruence|reflexivity]).
      assert (C : chained (filter nonempty (cur :: ls)) <-> from p ls).
      { rewrite Ef, E, chained_from; [rewrite <- from_filter; tauto|]. apply Forall_forall. intros x Hx. apply filter_In in Hx. tauto. }
      rewrite C. split; [|exact M2]. intros H. rewrite M1 by exact H. rewrite Ef. cbn [joined]. rewrite map_tl_filter. reflexivity. }
    intros [|x line]; [|apply G; discriminate].
    induction lines as [|[|q v] lines IH]; [cbn; split; [reflexivity|tauto]|exact IH|].
    apply (G (q :: v) lines). discriminate.
  Qed.
  (** the space reserved beforehand is the size of the result *)
  Theorem C21_size line lines l : plain_merge eqp line lines = Ok l -> length l = calculate_new_size line lines.
  Proof.
    unfold plain_merge, calculate_new_size. revert line. induction lines as [|n lines IH]; intros line H; cbn [foldO fold_left] in *.
    - injection H as <-. reflexivity.
    - destruct (merge_single eqp line n) as [l1| | |] eqn:E; try discriminate. cbn [bindO] in H. rewrite (IH _ H). f_equal.
      unfold merge_single in E. destruct n as [|q v]; [injection E as <-; reflexivity|]. unfold add_size. cbn [length].
      destruct line as [|p r]; [injection E as <-; cbn; lia|].
      destruct (eqp (last (p :: r) q) q); [|discriminate]. injection E as <-. cbn [length app Nat.eqb]. rewrite app_length. lia.
  Qed.
  Lemma merge_two x y : plain_merge eqp x [y] = merge_single eqp x y.
  Proof. unfold plain_merge. cbn [foldO]. destruct (merge_single eqp x y); reflexivity. Qed.
  Lemma merge_snoc u0 p0 q0 v0 : merge_single eqp (u0 ++ [p0]) (q0 :: v0) = if eqp p0 q0 then Ok (u0 ++ p0 :: v0) else Throw (u0 ++ [p0]).
  Proof. unfold merge_single. destruct (u0 ++ [p0]) eqn:Eu; [destruct u0; discriminate|]. rewrite <- Eu, last_last, <- app_assoc. reflexivity. Qed.
  Lemma merge_assoc a b c l :
    (exists m, merge_single eqp a b = Ok m /\ merge_single eqp m c = Ok l) <-> (exists m, merge_single eqp b c = Ok m /\ merge_single eqp a m = Ok l).
  Proof.
    assert (Em : forall x, merge_single eqp [] x = Ok x) by (intros [|? ?]; reflexivity).
    destruct b as [|q v].
    { rewrite Em. cbn [merge_single]. split; intros (m & H1 & H2); injection H1 as <-; eauto. }
    destruct c as [|x w].
    { split; intros (m & H1 & H2); cbn [merge_single] in H1, H2.
      - injection H2 as <-. exists (q :: v). split; [reflexivity|exact H1].
      - injection H1 as <-. exists l. split; [exact H2|reflexivity]. }
    destruct a as [|a0 a'].
    { rewrite Em. split; intros (m & H1 & H2).
      - injection H1 as <-. exists l. rewrite Em. auto.
      - rewrite Em in H2. injection H2 as <-. eauto. }
    destruct (@exists_last _ (a0 :: a')) as (u & p & E); [discriminate|]. rewrite E. clear E a0 a'.
    destruct v as [|y v'].
    - (* b is one point *)
      rewrite (merge_snoc u p q []). change [q] with ([] ++ [q]). rewrite (merge_snoc [] q x w).
      destruct (eqp p q) eqn:Q1, (eqp q x) eqn:Q2; cbn [app]; split; intros (m & H1 & H2); try discriminate; injection H1 as <-;
        rewrite merge_snoc in H2; rewrite ?(eqp_cong p q x Q1), ?Q1, ?Q2 in H2; try discriminate; injection H2 as <-.
      + eexists. split; [reflexivity|]. rewrite merge_snoc, Q1. reflexivity.
      + eexists. split; [reflexivity|]. rewrite merge_snoc, (eqp_cong p q x Q1), Q2. reflexivity.
    - destruct (@exists_last _ (y :: v')) as (t & z & Ez); [discriminate|]. rewrite Ez.
      rewrite (merge_snoc u p q (t ++ [z])). change (q :: t ++ [z]) with ((q :: t) ++ [z]). rewrite (merge_snoc (q :: t) z x w).
      assert (R : u ++ p :: t ++ [z] = (u ++ p :: t) ++ [z]) by (rewrite <- app_assoc; reflexivity).
      destruct (eqp p q) eqn:Q1, (eqp z x) eqn:Q2; cbn [app]; split; intros (m & H1 & H2); try discriminate; injection H1 as <-;
        rewrite ?R, merge_snoc, ?Q1, ?Q2 in H2; try discriminate; injection H2 as <-; eexists; (split; [reflexivity|]).
      + rewrite merge_snoc, Q1, <- app_assoc. reflexivity.
      + rewrite R, merge_snoc, Q2, <- app_assoc. reflexivity.
  Qed.
  (** merging is associative: both ways raise, or both give the same line *)
  Theorem C21_associative a b c l :
    (exists m, plain_merge eqp a [b] = Ok m /\ plain_merge eqp m [c] = Ok l)
    <-> (exists m, plain_merge eqp b [c] = Ok m /\ plain_merge eqp a [m] = Ok l).
  Proof.
    pose proof (merge_assoc a b c l) as [H1 H2]. split; intros (m & A & B); rewrite merge_two in A, B;
      [destruct H1 as (m' & C & D); [eauto|]|destruct H2 as (m' & C & D); [eauto|]]; exists m'; rewrite !merge_two; auto.
  Qed.

  (** **** C21: merging lines without empty ones into a multi-line cuts the sequence exactly where lines are unattached. *)
  Fixpoint cut (groups : list (list (list P))) : Prop :=
    match groups with
    | g :: ((h :: _) as r) => (exists g' x y h', g = g' ++ [x] /\ h = y :: h' /\ ~ attached x y) /\ cut r
    | _ => True
    end.
  Lemma plain_merge_nil g : Forall (fun l => nonempty l = true) g -> chained g -> plain_merge eqp [] g = Ok (joined g).
  Proof.
    intros F C. destruct (C21_merge [] g) as [M _]. cbn [filter nonempty] in M. rewrite filter_true in M; [|apply Forall_forall; exact F]. auto.
  Qed.
  Lemma chained_snoc g x y : chained (g ++ [x]) -> attached x y -> chained (g ++ [x; y]).
  Proof.
    induction g as [|a [|b g] IH]; intros H1 H2; cbn in *; [auto|tauto|]. destruct H1 as [H1 H3]. split; [exact H1|]. apply IH; auto.
  Qed.
  Lemma multi_loop lines : forall done prev group,
    Forall (fun l => nonempty l = true) (prev :: group) -> Forall (fun l => nonempty l = true) lines -> chained (rev (prev :: group)) ->
    exists groups, concat groups = rev (prev :: group) ++ lines /\ Forall chained groups /\ cut groups /\ Forall (fun g => g <> []) groups
      /\ multi_merge_loop eqp done (prev :: group) lines = Ok (done ++ map joined groups)
      /\ exists ext gs, groups = (rev (prev :: group) ++ ext) :: gs.
  Proof.
    induction lines as [|n lines IH]; intros done prev group F1 F2 C.
    - exists [rev (prev :: group)]. cbn [concat map]. rewrite app_nil_r. split; [reflexivity|]. split; [constructor; auto|]. split; [exact I|].
      split; [constructor; [|constructor]; cbn; destruct (rev group); discriminate|]. split.
      + cbn [multi_merge_loop]. rewrite plain_merge_nil; [reflexivity| |exact C]. apply Forall_rev. exact F1.
      + exists [], []. rewrite app_nil_r. reflexivity.
    - inversion F2 as [|? ? Fn Fr]; subst. inversion F1 as [|? ? Fp Fg]; subst.
      destruct prev as [|p0 prev']; [discriminate|]. destruct n as [|q v]; [discriminate|].
      destruct (@exists_last _ (p0 :: prev')) as (u & p & E); [discriminate|].
      assert (St : multi_merge_loop eqp done ((p0 :: prev') :: group) ((q :: v) :: lines)
                   = if eqp p q then multi_merge_loop eqp done ((q :: v) :: (p0 :: prev') :: group) lines
                     else bindO (plain_merge eqp [] (rev ((p0 :: prev') :: group))) (fun _ => done) (fun l => multi_merge_loop eqp (done ++ [l]) [q :: v] lines)).
      { cbn [multi_merge_loop]. rewrite E, rev_unit. reflexivity. }
      rewrite St. destruct (eqp p q) eqn:Q.
      + destruct (IH done (q :: v) ((p0 :: prev') :: group)) as (gs & G1 & G2 & G3 & G4 & G5 & ext & gr & G6); auto.
        { cbn [rev]. rewrite <- app_assoc. cbn [app]. apply chained_snoc; [exact C|]. exists u, p, q, v. rewrite E. auto. }
        exists gs. split; [rewrite G1; cbn [rev]; rewrite <- !app_assoc; reflexivity|]. repeat (split; [assumption|]).
        exists ((q :: v) :: ext), gr. rewrite G6. cbn [rev]. rewrite <- !app_assoc. reflexivity.
      + rewrite plain_merge_nil; [|apply Forall_rev; exact F1|exact C]. cbn [bindO].
        destruct (IH (done ++ [joined (rev ((p0 :: prev') :: group))]) (q :: v) []) as (gs & G1 & G2 & G3 & G4 & G5 & ext & gr & G6); auto; [exact I|].
        exists (rev ((p0 :: prev') :: group) :: gs). cbn [concat map]. split; [rewrite G1; reflexivity|]. split; [constructor; auto|].
        split; [|split; [constructor; [cbn; destruct (rev group); discriminate|exact G4]|split]].
        * rewrite G6. rewrite G6 in G3. split; [|exact G3]. exists (rev group), (p0 :: prev'), (q :: v), ext. split; [reflexivity|]. split; [reflexivity|].
          intros (u' & p' & q' & v' & E1 & E2 & E3). rewrite E in E1. apply app_inj_tail in E1 as [_ <-]. injection E2 as <- _. congruence.
        * rewrite G5, <- app_assoc. reflexivity.
        * exists [], gs. rewrite app_nil_r. reflexivity.
  Qed.
  Theorem C21_multi have lines : lines <> [] -> Forall (fun l => nonempty l = true) lines ->
    exists groups, concat groups = lines /\ Forall (fun g => g <> [] /\ chained g) groups /\ cut groups
      /\ multi_merge eqp have lines = Ok (have ++ map joined groups).
  Proof.
    intros Ne F. destruct lines as [|l lines]; [congruence|]. inversion F; subst.
    destruct (multi_loop lines have l []) as (gs & G1 & G2 & G3 & G4 & G5 & _); auto; [exact I|].
    exists gs. split; [exact G1|]. split; [|split; [exact G3|exact G5]]. clear -G2 G4. rewrite Forall_forall in *. auto.
  Qed.
End C21.

Example C21_eqp : (forall a b, Z.eqb a b = true -> Z.eqb b a = true) /\ (forall a b c, Z.eqb a b = true -> Z.eqb b c = true -> Z.eqb a c = true).
Proof. split; intros *; rewrite ?Z.eqb_eq; congruence. Qed.
Example C21_demo : plain_merge Z.eqb [1; 2]%Z [[2; 3; 4]; []; [4]; [4; 1]]%Z = Ok [1; 2; 3; 4; 1]%Z
  /\ plain_merge Z.eqb [1; 2]%Z [[3; 4]]%Z = Throw [1; 2]%Z
  /\ multi_merge Z.eqb [] [[1; 2]; [2; 3]; [5; 6]; [6; 5]]%Z = Ok [[1; 2; 3]; [5; 6; 5]]%Z.
Proof. vm_compute. auto. Qed.
Example C21_demo_parts : chained Z.eqb (filter nonempty [[1; 2]; [2; 3; 4]; []; [4]; [4; 1]])%Z /\ ~ chained Z.eqb [[1; 2]; [3; 4]]%Z.
Proof.
  split.
  - cbn. repeat split.
    + exists [1]%Z, 2%Z, 2%Z, [3; 4]%Z. auto.
    + exists [2; 3]%Z, 4%Z, 4%Z, []. auto.
    + exists [], 4%Z, 4%Z, [1]%Z. auto.
  - intros [(u & p & q & v & E1 & E2 & E3) _]. apply Z.eqb_eq in E3. subst q. injection E2 as <- <-.
    change [1; 2]%Z with ([1] ++ [2])%Z in E1. apply app_inj_tail in E1 as [_ E]. discriminate.
Qed.
(** What is not true: an empty line between two unattached lines hides the gap, and the multi-line merge raises. *)
Theorem C21_multi_empty_refuted : exists lines : list (list Z),
  multi_merge Z.eqb [] lines = Throw [] /\ multi_merge Z.eqb [] (filter nonempty lines) = Ok [[1; 2]; [5; 6]]%Z.
Proof. exists [[1; 2]; []; [5; 6]]%Z. split; reflexivity. Qed.

Print Assumptions C21_merge.
Print Assumptions C21_size.
Print Assumptions C21_associative.
Print Assumptions C21_multi.
