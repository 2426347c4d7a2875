(** C57: every edge near a measurement yields one candidate, with its projection, its distance and the parts of the edge before and after. *)
From Coq Require Import QArith Qround Sorted Lqa Qabs.
From Verif Require Import Base ListAux CandCreate.
Local Open Scope nat_scope.

Lemma lessQ_true : forall a b, lessQ a b = true <-> (a < b)%Q.
Proof. intros a b. unfold lessQ. rewrite negb_true_iff, <- not_true_iff_false, Qle_bool_iff. split; [apply Qnot_le_lt|intros H K; apply (Qlt_not_le _ _ H K)]. Qed.
Lemma lessQ_false : forall a b, lessQ a b = false <-> (b <= a)%Q.
Proof. intros a b. unfold lessQ. rewrite negb_false_iff, Qle_bool_iff. reflexivity. Qed.

Section C57.
  Context {P : Type}.
  Variable dist : P -> P -> Q.
  Variable eqp : P -> P -> bool.
  Variable closest : P -> list P -> P.
  Variable nearest_segment : P -> option (P * P).
  Variable sub_to sub_from : list P -> P -> list P.
  Variable len : list P -> option Q.
  Hypothesis dist_self : forall p, dist p p == 0.
  Hypothesis len_nil : len [] = None.

  Let create := create dist eqp closest nearest_segment sub_to sub_from len.
  Let process := process dist eqp closest nearest_segment sub_to sub_from len.
  Let create_loop := create_loop dist eqp closest nearest_segment sub_to sub_from len.

  (** [c] is a candidate on the line: at its begin, at its end, or in between *)
  Definition at_begin (line : list P) (c : @candidate P) : Prop :=
    after c = line /\ (before c = [] \/ no_length len (before c) = true) /\ exists f, hd_error line = Some f /\ (projection c = f \/ eqp f (projection c) = true).
  Definition at_end (line : list P) (c : @candidate P) : Prop :=
    before c = line /\ (after c = [] \/ no_length len (after c) = true) /\ exists b, hd_error (rev line) = Some b /\ (projection c = b \/ eqp b (projection c) = true).
  Definition between (line : list P) (c : @candidate P) : Prop :=
    before c = sub_to line (projection c) /\ after c = sub_from line (projection c) /\
    forall part, part = before c \/ part = after c -> exists x, len part = Some x /\ ~ x == 0 /\ forall y, len line = Some y -> ~ x == y.

  Lemma no_length_false : forall l, no_length len l = false -> exists x, len l = Some x /\ ~ x == 0.
  Proof.
    intros l H. unfold no_length in H. destruct (len l) as [x|]; [|discriminate]. exists x. split; auto. intros E. apply Qeq_bool_iff in E. congruence.
  Qed.
  Lemma same_length_false : forall l m x y, same_length len l m = false -> len l = Some x -> len m = Some y -> ~ x == y.
  Proof. intros l m x y H E F K. unfold same_length in H. rewrite E, F in H. apply Qeq_bool_iff in K. congruence. Qed.

  Lemma place_ok : forall point line proj d, line <> [] -> d == dist point proj ->
    exists from_line to_line proj' d', place dist eqp sub_to sub_from len point line proj d = Ok (from_line, to_line, proj', d') /\
      d' == dist point proj' /\ forall e, let c := mkC false e proj' d' from_line to_line in at_begin line c \/ at_end line c \/ between line c.
  Proof.
    intros point line proj d H Hd. unfold place. destruct line as [|f r] eqn:El; [congruence|]. rewrite <- El in *. cbn [hd_error].
    assert (hd_error line = Some f) as Ef by (rewrite El; reflexivity). rewrite Ef. cbn [derefO].
    destruct (rev line) as [|b rr] eqn:Er; [rewrite El in Er; cbn in Er; destruct (rev r); discriminate|]. cbn [hd_error derefO].
    assert (hd_error (rev line) = Some b) as Eb by (rewrite Er; reflexivity).
    destruct (eqp f proj) eqn:E1; [do 4 eexists; split; [reflexivity|]; split; [exact Hd|]; intros e; left; repeat split; cbn; eauto|].
    destruct (eqp b proj) eqn:E2; [do 4 eexists; split; [reflexivity|]; split; [exact Hd|]; intros e; right; left; repeat split; cbn; eauto|].
    destruct (Qeq_bool (dist f proj) 0); [do 4 eexists; split; [reflexivity|]; split; [reflexivity|]; intros e; left; repeat split; cbn; eauto|].
    destruct (Qeq_bool (dist b proj) 0); [do 4 eexists; split; [reflexivity|]; split; [reflexivity|]; intros e; right; left; repeat split; cbn; eauto|].
    destruct (no_length len (sub_to line proj)) eqn:N1; [do 4 eexists; split; [reflexivity|]; split; [reflexivity|]; intros e; left; repeat split; cbn; eauto|].
    destruct (same_length len (sub_to line proj) line) eqn:S1; [do 4 eexists; split; [reflexivity|]; split; [reflexivity|]; intros e; right; left; repeat split; cbn; eauto|].
    destruct (no_length len (sub_from line proj)) eqn:N2; [do 4 eexists; split; [reflexivity|]; split; [reflexivity|]; intros e; right; left; repeat split; cbn; eauto|].
    destruct (same_length len (sub_from line proj) line) eqn:S2; [do 4 eexists; split; [reflexivity|]; split; [reflexivity|]; intros e; left; repeat split; cbn; eauto|].
    do 4 eexists. split; [reflexivity|]. split; [exact Hd|]. intros e. right. right. split; [reflexivity|]. split; [reflexivity|].
    intros part [->| ->]; cbn.
    - destruct (no_length_false _ N1) as [x [Ex Hx]]. exists x. split; auto. split; auto. intros y Ey. exact (same_length_false _ _ _ _ S1 Ex Ey).
    - destruct (no_length_false _ N2) as [x [Ex Hx]]. exists x. split; auto. split; auto. intros y Ey. exact (same_length_false _ _ _ _ S2 Ex Ey).
  Qed.

  (** the first point of the line with the smallest distance, if that is below [d] *)
  Lemma nearest_point_ok : forall line p best d,
    (nearest_point dist line p best d = (best, d) /\ forall x, In x line -> (d <= dist x p)%Q) \/
    (exists x, nearest_point dist line p best d = (Some x, dist x p) /\ In x line /\ (dist x p < d)%Q /\ forall y, In y line -> (dist x p <= dist y p)%Q).
  Proof.
    induction line as [|a line IH]; intros p best d; cbn; [left; split; [auto|tauto]|].
    destruct (lessQ (dist a p) d) eqn:E.
    - apply lessQ_true in E. right. destruct (IH p (Some a) (dist a p)) as [[H K]|[x [H [I [L K]]]]].
      + exists a. split; auto. split; auto. split; auto. intros y [<-|Hy]; [apply Qle_refl|auto].
      + exists x. split; auto. split; auto. split; [eapply Qlt_trans; eauto|]. intros y [<-|Hy]; [apply Qlt_le_weak; auto|auto].
    - apply lessQ_false in E. destruct (IH p best d) as [[H K]|[x [H [I [L K]]]]].
      + left. split; auto. intros y [<-|Hy]; auto.
      + right. exists x. split; auto. split; auto. split; auto. intros y [<-|Hy]; auto. eapply Qle_trans; [apply Qlt_le_weak; exact L|exact E].
  Qed.

  Lemma project_ok : forall point line proj d, project dist closest point line = (proj, d) -> d == dist point proj.
  Proof.
    intros point line proj d H. unfold project in H. injection H as <- <-. destruct (Qeq_bool (dist point (closest point line)) 0) eqn:E; [|reflexivity].
    apply Qeq_bool_iff in E. rewrite E. symmetry. apply dist_self.
  Qed.

  (** The projection is the closest point (the measurement itself at distance 0), or a point nearby that replaces it: with a short line
      the nearest point of the line, with a long line an end of a segment of the network. Its distance is right. *)
  Theorem C57_snap : forall s duration point line s' proj d p0 d0,
    snapped dist eqp closest nearest_segment s duration point line = (s', (proj, d)) -> project dist closest point line = (p0, d0) ->
    d == dist point proj /\ size_switch s' = size_switch s /\
    (proj = p0 \/ (eqp proj p0 = false /\ (dist proj p0 < snap_distance)%Q /\
       (length line <= size_switch s -> In proj line) /\ (size_switch s < length line -> exists a b, nearest_segment p0 = Some (a, b) /\ (proj = a \/ proj = b)))) /\
    (length line <= size_switch s -> forall x, In x line -> (dist x p0 < snap_distance)%Q ->
       exists y, In y line /\ (forall x, In x line -> (dist y p0 <= dist x p0)%Q) /\ (proj = y \/ proj = p0 /\ eqp y p0 = true)).
  Proof.
    intros s duration point line s' proj d p0 d0 H HP. unfold snapped in H. rewrite HP in H. pose proof (project_ok _ _ _ _ HP) as Hd.
    assert (snap_distance <= 1)%Q as S1 by (unfold snap_distance; lra).
    destruct (length line <=? size_switch s) eqn:El; injection H as <- H; (split; [|split; [reflexivity|]]).
    - unfold snap in H. destruct (nearest_point dist line p0 None 1) as [[x|] dx]; [destruct (negb (eqp x p0) && lessQ dx snap_distance)|]; injection H as <- <-; auto; reflexivity.
    - apply Nat.leb_le in El. destruct (nearest_point_ok line p0 None 1) as [[E K]|[x [E [I [L K]]]]]; rewrite E in H; cbn [snap] in H.
      + injection H as <- <-. split; auto. intros _ x Hx Hs. exfalso. apply K in Hx. lra.
      + destruct (eqp x p0) eqn:Ex; cbn [negb andb] in H.
        * injection H as <- <-. split; auto. intros _ y Hy Hs. exists x. auto.
        * destruct (lessQ (dist x p0) snap_distance) eqn:Ls; injection H as <- <-.
          -- apply lessQ_true in Ls. split; [right; repeat split; auto; lia|]. intros _ y Hy Hs. exists x. auto.
          -- apply lessQ_false in Ls. split; auto. intros _ y Hy Hs. apply K in Hy. exfalso. lra.
    - unfold snap in H. destruct (nearest_end dist nearest_segment p0) as [[x|] dx]; [destruct (negb (eqp x p0) && lessQ dx snap_distance)|]; injection H as <- <-; auto; reflexivity.
    - apply Nat.leb_gt in El. split; [|lia]. unfold nearest_end in H. destruct (nearest_segment p0) as [[a b]|] eqn:En; cbn [snap] in H; [|injection H as <- <-; auto].
      assert (forall x, x = a \/ x = b -> snap dist eqp point (Some x, dist x p0) p0 d0 = (proj, d) ->
        proj = p0 \/ (eqp proj p0 = false /\ (dist proj p0 < snap_distance)%Q /\ (length line <= size_switch s -> In proj line) /\
        (size_switch s < length line -> exists a0 b0, Some (a, b) = Some (a0, b0) /\ (proj = a0 \/ proj = b0)))) as G.
      { intros x Hx HH. cbn [snap] in HH. destruct (eqp x p0) eqn:Ex; cbn [negb andb] in HH; [injection HH as <- <-; auto|].
        destruct (lessQ (dist x p0) snap_distance) eqn:Ls; injection HH as <- <-; auto. apply lessQ_true in Ls.
        right. split; auto. split; auto. split; [lia|]. intros _. exists a, b. split; [reflexivity|]. destruct Hx; subst; auto. }
      destruct (lessQ (dist b p0) (dist a p0)); [apply (G b); auto|apply (G a); auto].
  Qed.

  (** An edge with a length yields exactly one candidate more, not adopted, at the distance of its projection. *)
  Theorem C57_candidate : forall point s duration e line set, len line <> None -> adapt s <> UB ->
    exists s' c, create point s duration e line set = Ok (s', insert c set) /\ adopted c = false /\ edge c = e /\
      distance c == dist point (projection c) /\ (at_begin line c \/ at_end line c \/ between line c).
  Proof.
    intros point s duration e line set Hl Ha. unfold create, CandCreate.create. destruct (len line) as [x|] eqn:El; [|congruence].
    assert (line <> []) as Hn by (intros ->; congruence).
    assert (exists s1, adapt s = Ok s1) as [s1 ->].
    { unfold adapt in *. destruct (edge_duration s), (index_duration s); eauto.
      match type of Ha with bindO ?X _ _ <> _ => destruct X eqn:EX end; cbn [bindO] in *; eauto; try congruence.
      all: destruct (lessQ q q0); [destruct (Qeq_bool q 0)|destruct (Qeq_bool q0 0); [destruct (Qeq_bool q 0)|]]; unfold to_size in EX;
        try destruct (lessQ _ size_limit) in EX; discriminate. }
    cbn [bindO]. destruct (snapped dist eqp closest nearest_segment s1 duration point line) as [s2 [proj d]] eqn:Es.
    destruct (project dist closest point line) as [p0 d0] eqn:Ep.
    destruct (C57_snap _ _ _ _ _ _ _ _ _ Es Ep) as [Hd _].
    destruct (place_ok point line proj d Hn Hd) as [fl [tl [pr [dd [Epl [Hdd Hc]]]]]]. rewrite Epl. cbn [bindO].
    exists s2, (mkC false e pr dd fl tl). repeat split; auto.
  Qed.
  (** An edge without a length yields none. *)
  Theorem C57_no_length : forall point s duration e line set, len line = None -> create point s duration e line set = Ok (s, set).
  Proof. intros point s duration e line set H. unfold create, CandCreate.create. rewrite H. reflexivity. Qed.

  Lemma insert_perm : forall (c : @candidate P) s, Permutation (insert c s) (c :: s).
  Proof.
    induction s as [|x s IH]; cbn; auto. destruct (lessQ (distance c) (distance x)); auto. rewrite IH. apply perm_swap.
  Qed.
  Definition nearer (a b : @candidate P) : Prop := (distance a <= distance b)%Q.
  Lemma insert_sorted : forall (c : @candidate P) s, StronglySorted nearer s -> StronglySorted nearer (insert c s).
  Proof.
    induction s as [|x s IH]; cbn; intros H; [repeat constructor|]. inversion H as [|? ? Hs Hx]; subst. destruct (lessQ (distance c) (distance x)) eqn:E.
    - apply lessQ_true in E. constructor; auto. constructor; [apply Qlt_le_weak; auto|]. eapply Forall_impl; [|exact Hx]. unfold nearer. cbn. intros y Hy. lra.
    - apply lessQ_false in E. constructor; auto. apply Forall_forall. intros y Hy. apply (Permutation_in _ (insert_perm c s)) in Hy.
      destruct Hy as [<-|Hy]; auto. rewrite Forall_forall in Hx. auto.
  Qed.

  (** For a measurement: the set stays ordered by distance; besides the candidates it had there is one candidate for each edge with a length
      that has none yet. *)
  Theorem C57_all : forall point lines es times s set s' set', process point lines es times s set = Ok (s', set') -> StronglySorted nearer set ->
    StronglySorted nearer set' /\ exists new, Permutation set' (set ++ new) /\
      Permutation (map edge new) (filter (fun e => match len (lines e) with Some _ => true | None => false end) (filter (fun e => negb (existsb (fun c => edge c =? e) set)) es)) /\
      forall c, In c new -> adopted c = false /\ distance c == dist point (projection c) /\
        (at_begin (lines (edge c)) c \/ at_end (lines (edge c)) c \/ between (lines (edge c)) c).
  Proof.
    intros point lines es times s set s' set' H Hs. unfold process, CandCreate.process in H.
    generalize dependent set. intros set. generalize (filter (fun e => negb (existsb (fun c => edge c =? e) set)) es). clear es. intros es. revert times s set.
    induction es as [|e es IH]; intros times s set H Hs; cbn [CandCreate.create_loop] in H.
    - injection H as <- <-. split; auto. exists []. rewrite app_nil_r. repeat split; auto; try tauto; destruct H.
    - fold create in H. destruct (len (lines e)) as [x|] eqn:El.
      + assert (adapt s <> UB) as Ha.
        { intros Ha. unfold create, CandCreate.create in H. rewrite El, Ha in H. discriminate. }
        destruct (C57_candidate point s (hd 0%Q times) e (lines e) set ltac:(congruence) Ha) as [s1 [c [Ec [Hc1 [Hc2 [Hc3 Hc4]]]]]].
        rewrite Ec in H. cbn [bindO] in H. destruct (IH _ _ _ H (insert_sorted c set Hs)) as [S [new [Pn [Pe Hn]]]].
        split; auto. exists (c :: new). split; [|split].
        * rewrite Pn, insert_perm. cbn. apply Permutation_cons_app. reflexivity.
        * cbn. rewrite El, Hc2. constructor. exact Pe.
        * intros c' [<-|Hc']; auto. rewrite Hc2. auto.
      + rewrite (C57_no_length _ _ _ _ _ _ El) in H. cbn [bindO] in H. destruct (IH _ _ _ H Hs) as [S [new [Pn [Pe Hn]]]].
        split; auto. exists new. split; auto. split; auto. cbn. rewrite El. exact Pe.
  Qed.

  (** The switch never falls below 2. *)
  Theorem C57_switch : forall point lines es times s set s' set', 2 <= size_switch s -> process point lines es times s set = Ok (s', set') -> 2 <= size_switch s'.
  Proof.
    intros point lines es times s set s' set' H. unfold process, CandCreate.process. generalize (filter (fun e => negb (existsb (fun c => edge c =? e) set)) es).
    clear es. intros es. revert times s set H. induction es as [|e es IH]; intros times s set H E; cbn [CandCreate.create_loop] in E.
    - injection E as <- <-. auto.
    - fold create in E. destruct (create point s (hd 0%Q times) e (lines e) set) as [[s1 set1]|[s1 set1]| |] eqn:Ec; cbn [bindO] in E; try discriminate.
      assert (2 <= size_switch s1); [|eauto].
      unfold create, CandCreate.create in Ec. destruct (len (lines e)); [|injection Ec as <- <-; auto].
      destruct (adapt s) as [s0|s0| |] eqn:Ea; cbn [bindO] in Ec; try discriminate.
      destruct (snapped dist eqp closest nearest_segment s0 (hd 0%Q times) point (lines e)) as [s2 [proj d]] eqn:Es.
      destruct (project dist closest point (lines e)) as [p0 d0] eqn:Ep. pose proof (C57_snap _ _ _ _ _ _ _ _ _ Es Ep) as [_ [Hz _]].
      destruct (place dist eqp sub_to sub_from len point (lines e) proj d) as [[[[fl tl] pr] dd]|x| |]; cbn [bindO] in Ec; try discriminate.
      injection Ec as <- <-. rewrite Hz. unfold adapt in Ea. destruct (edge_duration s), (index_duration s); try (injection Ea as <-; auto).
      match type of Ea with bindO ?X _ _ = _ => destruct X end; cbn [bindO] in Ea; try discriminate. injection Ea as <-. cbn [size_switch]. destruct a as [|[|a]]; lia.
  Qed.

  (** If for every edge the nearest point of its line and the nearer end of the nearest segment lead to the same projection, the
      candidates do not depend on the times measured. *)
  Definition agree (point : P) (line : list P) : Prop :=
    let (p0, d0) := project dist closest point line in
    snap dist eqp point (nearest_point dist line p0 None 1) p0 d0 = snap dist eqp point (nearest_end dist nearest_segment p0) p0 d0.
  Theorem C57_times : forall point lines es set times s s' set' times2 s2 s2' set2',
    (forall e, In e es -> agree point (lines e)) ->
    process point lines es times s set = Ok (s', set') -> process point lines es times2 s2 set = Ok (s2', set2') -> set' = set2'.
  Proof.
    intros point lines es set times s s' set' times2 s2 s2' set2' A. unfold process, CandCreate.process.
    assert (forall e, In e (filter (fun e => negb (existsb (fun c => edge c =? e) set)) es) -> agree point (lines e)) as A' by (intros e He; apply filter_In in He; apply A; tauto).
    revert A'. generalize (filter (fun e => negb (existsb (fun c => edge c =? e) set)) es). clear es A. intros es. revert times s set times2 s2.
    induction es as [|e es IH]; intros times s set times2 s2 A E1 E2; cbn [CandCreate.create_loop] in E1, E2.
    - congruence.
    - assert (agree point (lines e)) as Ae by (apply A; cbn; auto).
      assert (forall s t r, create point s t e (lines e) set = Ok r -> exists set1, snd r = set1 /\
         forall s' t' r', create point s' t' e (lines e) set = Ok r' -> snd r' = set1) as G.
      { intros s0 t0 r0 E0. exists (snd r0). split; auto. intros s3 t3 r3 E3. unfold create, CandCreate.create in E0, E3.
        destruct (len (lines e)); [|injection E0 as <-; injection E3 as <-; reflexivity].
        destruct (adapt s0) as [a0|a0| |]; cbn [bindO] in E0; try discriminate.
        destruct (adapt s3) as [a3|a3| |]; cbn [bindO] in E3; try discriminate.
        assert (snd (snapped dist eqp closest nearest_segment a0 t0 point (lines e)) = snd (snapped dist eqp closest nearest_segment a3 t3 point (lines e))) as Es.
        { unfold snapped. unfold agree in Ae. destruct (project dist closest point (lines e)) as [p0 d0].
          destruct (length (lines e) <=? size_switch a0), (length (lines e) <=? size_switch a3); cbn [snd]; auto. }
        destruct (snapped dist eqp closest nearest_segment a0 t0 point (lines e)) as [x0 [p0 d0]], (snapped dist eqp closest nearest_segment a3 t3 point (lines e)) as [x3 [p3 d3]].
        cbn [snd] in Es. injection Es as <- <-.
        destruct (place dist eqp sub_to sub_from len point (lines e) p0 d0) as [[[[fl tl] pr] dd]|x| |]; cbn [bindO] in E0, E3; try discriminate.
        injection E0 as <-. injection E3 as <-. reflexivity. }
      fold create in E1, E2.
      destruct (create point s (hd 0%Q times) e (lines e) set) as [[a1 b1]|[a1 b1]| |] eqn:C1; cbn [bindO] in E1; try discriminate.
      destruct (create point s2 (hd 0%Q times2) e (lines e) set) as [[a2 b2]|[a2 b2]| |] eqn:C2; cbn [bindO] in E2; try discriminate.
      destruct (G _ _ _ C1) as [x [Hx Gx]]. apply Gx in C2. cbn in Hx, C2. subst b1 b2.
      eapply IH; [|exact E1|exact E2]. intros e' He'. apply A. cbn; auto.
  Qed.
End C57.

(** *** a world on a line: points are coordinates, lines ascend *)
Definition away (a b : Q) : Q := Qabs (a - b).
Definition on_line (p : Q) (l : list Q) : Q :=
  match l with [] => p | f :: _ => let b := last l f in if lessQ p f then f else if lessQ b p then b else p end.
Definition up_to (l : list Q) (p : Q) : list Q := filter (fun x => lessQ x p) l ++ [p].
Definition beyond (l : list Q) (p : Q) : list Q := p :: filter (fun x => lessQ p x) l.
Definition extent (l : list Q) : option Q := match l with [] | [_] => None | f :: _ => Some (last l f - f)%Q end.
Definition equalQ (a b : Q) : bool := Qeq_bool a b.

Example C57_contract : (forall p, away p p == 0) /\ extent [] = None.
Proof. split; [|reflexivity]. intros p. unfold away. setoid_replace (p - p)%Q with 0%Q by ring. reflexivity. Qed.

(** edge 0 has 17 points, edge 1 two, edge 2 three *)
Definition roads (e : nat) : list Q :=
  nth e [map (fun n => inject_Z (Z.of_nat n)) (seq 100 17); [0; 1]; [0; 5; 10]]%Q [].
(** the segment nearest to 3 is that of another edge that ends in 3.00005 *)
Definition crossing (p : Q) : option (Q * Q) := Some (1, 300005 # 100000)%Q.
Definition projections (x : outcome (switch * list (@candidate Q))) : option (list Q) := match x with Ok (_, l) => Some (map projection l) | _ => None end.

Example C57_demo :
  process away equalQ on_line crossing up_to beyond extent 3%Q roads [1; 2] [1; 1]%Q fresh_switch [] =
    Ok (mkSwitch 16 (Some (16 # 3)%Q) None, [mkC false 2 3%Q 0%Q [0; 3]%Q [3; 5; 10]%Q; mkC false 1 1%Q 2%Q [0; 1]%Q []]).
Proof. vm_compute. reflexivity. Qed.
(** both cases agree when the nearest segment is one of the line itself *)
Example C57_times_demo : agree away equalQ on_line (fun _ => Some (0, 5)%Q) 3%Q (roads 2) /\ agree away equalQ on_line (fun _ => Some (0, 5)%Q) (4 + (99999 # 100000))%Q (roads 2).
Proof. split; vm_compute; reflexivity. Qed.

(** "the next both cases are equivalent" (241): they are not, an end of another edge's segment is taken; which case is used depends on
    the times measured, so the same input can lead to different candidates. *)
Theorem C57_times_refuted : exists times times2, (forall t, In t (times ++ times2) -> (0 < t)%Q) /\
  projections (process away equalQ on_line crossing up_to beyond extent 3%Q roads [0; 1; 2] times fresh_switch []) <>
  projections (process away equalQ on_line crossing up_to beyond extent 3%Q roads [0; 1; 2] times2 fresh_switch []) /\
  projections (process away equalQ on_line crossing up_to beyond extent 3%Q roads [0; 1; 2] times fresh_switch []) <> None /\
  projections (process away equalQ on_line crossing up_to beyond extent 3%Q roads [0; 1; 2] times2 fresh_switch []) <> None.
Proof.
  exists [1; 1 # 100; 1]%Q, [1; 100; 1]%Q. split; [intros t Ht; repeat (destruct Ht as [<-|Ht]; [reflexivity|]); destruct Ht|].
  vm_compute. repeat split; discriminate.
Qed.

(** A clock that does not advance during the search in a short line leads to a division by zero and an undefined conversion. *)
Theorem C57_clock_refuted : exists times, (forall t, In t times -> (0 <= t)%Q) /\
  process away equalQ on_line crossing up_to beyond extent 3%Q roads [0; 1; 2] times fresh_switch [] = UB.
Proof.
  exists [1; 0; 1]%Q. split; [intros t Ht; repeat (destruct Ht as [<-|Ht]; [discriminate|]); destruct Ht|]. vm_compute. reflexivity.
Qed.

Print Assumptions C57_snap.
Print Assumptions C57_candidate.
Print Assumptions C57_no_length.
Print Assumptions C57_all.
Print Assumptions C57_switch.
Print Assumptions C57_times.
Print Assumptions C57_times_refuted.
Print Assumptions C57_clock_refuted.
