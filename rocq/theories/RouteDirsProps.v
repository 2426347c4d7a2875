(** C59: azimuth and turns of a route. *)
From Coq Require Import ZArith.
From Verif Require Import Base ListAux Simplify SimplifyProofs RichLine RichLineProofs RichLineProps RichAttrProps MultiRich MultiRichProps Route RouteDirs.
Local Open Scope nat_scope.

Section C59.
  Context {P L A : Type}.
  Variable eqp : P -> P -> bool.
  Variable dist : P -> P -> L.
  Variable azi : P -> P -> A.
  Variable addL : L -> L -> L.
  Variable zeroL : L.
  Variable addA : A -> A -> A.
  Variable zeroA : A.
  Variable diffA : A -> A -> A.
  Notation spec_az := (spec_az eqp azi).
  Notation spec_dirs := (spec_dirs eqp azi addA zeroA diffA).
  Notation spec_joint := (spec_joint eqp azi diffA).

  Lemma find_filled : forall ls : list (list P), match find filled_line ls with
    | Some l => exists p l' u v, l = p :: l' /\ ls = u ++ l :: v /\ concat u = []
    | None => concat ls = [] end.
  Proof.
    induction ls as [|[|p l] ls IH]; cbn [find filled_line is_empty negb]; [reflexivity| |].
    - destruct (find filled_line ls) as [l|]; [|exact IH]. destruct IH as (p & l' & u & v & -> & -> & E). exists p, l', ([] :: u), v. auto.
    - exists p, l, [], ls. auto.
  Qed.
  Lemma find_filled_rev : forall ls : list (list P), match find filled_line (rev ls) with
    | Some l => exists l' p u v, l = l' ++ [p] /\ ls = u ++ l :: v /\ concat v = []
    | None => concat ls = [] end.
  Proof.
    intros ls. pose proof (find_filled (rev ls)) as H. destruct (find filled_line (rev ls)) as [l|].
    - destruct H as (p & l' & u & v & El & E & Eu). destruct (@exists_last _ l) as (w & q & Ew); [subst l; discriminate|]. exists w, q, (rev v), (rev u). split; [exact Ew|].
      split; [rewrite <- (rev_involutive ls), E, rev_app_distr; cbn; rewrite <- app_assoc; reflexivity|].
      clear -Eu. induction u as [|x u IH]; [reflexivity|]. cbn in *. apply app_eq_nil in Eu. destruct Eu as [-> Eu]. rewrite concat_app, IH by exact Eu. reflexivity.
    - rewrite <- (rev_involutive ls). clear -H. induction (rev ls) as [|x u IH]; [reflexivity|]. cbn in *. apply app_eq_nil in H. destruct H as [-> H]. rewrite concat_app, IH by exact H. reflexivity.
  Qed.
  (** the ends are those of all points in a row *)
  Lemma route_ends_spec : forall ls : list (list P), route_ends ls = match concat ls with [] => None | p :: _ => Some (p, last (concat ls) p) end.
  Proof.
    intros ls. unfold route_ends. pose proof (find_filled ls) as H1. pose proof (find_filled_rev ls) as H2.
    destruct (find filled_line ls) as [f|]; [|rewrite H1; reflexivity]. destruct H1 as (p & f' & u & v & -> & E1 & Eu).
    destruct (find filled_line (rev ls)) as [l|].
    - destruct H2 as (l' & q & w & x & -> & E2 & Ex). unfold front, back. rewrite rev_unit. cbn [hd_error].
      assert (concat ls = p :: f' ++ concat v) as C1 by (rewrite E1, concat_app, Eu; reflexivity).
      assert (concat ls = (concat w ++ l') ++ [q]) as C2 by (rewrite E2, concat_app; cbn [concat]; rewrite Ex, app_nil_r, app_assoc; reflexivity).
      rewrite C1. rewrite <- C1, C2, last_last. reflexivity.
    - rewrite E1, concat_app, Eu in H2. discriminate.
  Qed.

  (** The azimuth of a route is that from the first to the last point of all its lines in a row. *)
  Theorem C59_azimuth : (forall p, eqp p p = true) -> forall r : @route P,
    route_has_azimuth eqp r = some (spec_az (concat (lines r))) /\ route_azimuth eqp azi zeroA r = answer zeroA (spec_az (concat (lines r))).
  Proof.
    intros R r. unfold route_has_azimuth, route_azimuth. destruct (lines r) as [|l [|m ls]]; [split; reflexivity| |].
    - cbn [concat]. rewrite app_nil_r. destruct (plain eqp dist azi addL zeroL addA zeroA diffA l) as (_ & -> & _ & _ & ->). destruct (spec_az l); split; reflexivity.
    - rewrite route_ends_spec. destruct (concat (l :: m :: ls)) as [|p [|q c]]; [split; reflexivity| |].
      + cbn. rewrite R. split; reflexivity.
      + unfold RichLineProofs.spec_az. destruct (eqp p (last (p :: q :: c) p)); split; reflexivity.
  Qed.

  (** *** turns *)
  Lemma segment_last : forall (l : list P) p0 p r, rev l = p :: p0 :: r -> segment l (length l - 2) = Some (p0, p).
  Proof.
    intros l p0 p r E. assert (l = rev r ++ [p0; p]) as El by (rewrite <- (rev_involutive l), E; cbn; rewrite <- app_assoc; reflexivity).
    rewrite El, app_length. cbn [length]. replace (length (rev r) + 2 - 2) with (length (rev r)) by lia. unfold segment.
    rewrite nth_error_app2, nth_error_app2 by lia. rewrite Nat.sub_diag. replace (length (rev r) + 1 - length (rev r)) with 1 by lia. reflexivity.
  Qed.
  Lemma rev_long : forall l : list P, 2 <= length l -> exists p p0 r, rev l = p :: p0 :: r.
  Proof.
    intros l H. destruct (rev l) as [|p [|p0 r]] eqn:E; [| |eauto]; apply (f_equal (@length P)) in E; rewrite rev_length in E; cbn in E; lia.
  Qed.
  Lemma turn_spec : forall a b, length b <> 1 -> has_turn eqp a b = Ok (some (spec_joint a b)) /\ turn eqp azi zeroA diffA a b = Ok (spec_joint a b).
  Proof.
    intros a b Hb.
    unfold turn. unfold has_turn. destruct (is_empty a) eqn:Ea; [destruct a; [|discriminate]; cbn; split; reflexivity|].
    destruct (is_empty b) eqn:Eb; [destruct b; [|discriminate]; unfold MultiRichProps.spec_joint; cbn [negb andb bindO]; destruct (rev a); split; reflexivity|].
    cbn [negb andb]. destruct b as [|q [|q1 b]]; [discriminate|cbn in Hb; lia|]. unfold MultiRichProps.spec_joint, RichLine.attaches.
    destruct (rev a) as [|p a'] eqn:Er; [split; reflexivity|].
    destruct (eqp p q) eqn:Epq; [|split; reflexivity]. cbn [andb].
    destruct (2 <=? length a) eqn:El.
    - apply Nat.leb_le in El. destruct (rev_long a El) as (p' & p0 & r & E). assert (p' = p /\ a' = p0 :: r) as [-> ->] by (split; congruence).
      destruct (rev_segments_last a p0 p r Er) as (t & ->). change (segments (q :: q1 :: b)) with ((q, q1) :: segments (q1 :: b)).
      unfold has_azimuth_at, azimuth_at. rewrite (segment_last a p0 p r Er). cbn [segment nth_error Nat.add]. unfold segment. cbn [nth_error Nat.add]. unfold live. cbn [fst snd].
      destruct (eqp p0 p); cbn [negb bindO andb some]; [split; reflexivity|]. destruct (eqp q q1); cbn [negb bindO andb some]; split; reflexivity.
    - apply Nat.leb_gt in El. assert (a = [p]) as ->.
      { destruct a as [|x [|y a]]; [discriminate|cbn in Er; congruence|cbn in El; lia]. }
      split; reflexivity.
  Qed.

  (** the turns in the order in which the route adds them *)
  Fixpoint route_changes (g : A -> A) (ls : list (list P)) : list A :=
    match ls with
    | l :: ((n :: rest) as r) => map g (listed (spec_joint l n)) ++ listed (spec_dirs g l) ++ match rest with [] => listed (spec_dirs g n) | _ => [] end ++ route_changes g r
    | _ => []
    end.
  Definition acc_of (l : list A) (acc : bool * A) : bool * A := match l with [] => acc | _ => (true, fold_left addA l (snd acc)) end.
  Lemma acc_of_app : forall l m acc, acc_of (l ++ m) acc = acc_of m (acc_of l acc).
  Proof. intros [|x l] [|y m] acc; cbn [app acc_of]; [reflexivity|reflexivity|rewrite app_nil_r; reflexivity|]. cbn [fold_left snd]. rewrite fold_left_app. reflexivity. Qed.
  Lemma add_directions_spec : forall g l acc, add_directions eqp azi addA zeroA diffA g l acc = Ok (acc_of (listed (spec_dirs g l)) acc).
  Proof.
    intros g l acc. unfold add_directions. rewrite (has_directions_spec eqp dist azi addL zeroL addA zeroA diffA l g).
    destruct (plain eqp dist azi addL zeroL addA zeroA diffA l) as (_ & _ & -> & _). destruct (spec_dirs g l); reflexivity.
  Qed.
  Lemma route_loop_spec : forall g ls acc, Forall (fun l : list P => length l <> 1) (tl ls) ->
    route_directions_loop eqp azi addA zeroA diffA g ls acc = Ok (acc_of (route_changes g ls) acc).
  Proof.
    intros g. induction ls as [|a ls IH]; intros acc F; [reflexivity|]. destruct ls as [|b r]; [reflexivity|].
    cbn [tl] in F. inversion F as [|? ? Fb Fr]; subst. cbn [route_directions_loop].
    rewrite (proj2 (turn_spec a b Fb)). cbn [bindO].
    assert (match spec_joint a b with Some d => (true, addA (snd acc) (g d)) | None => acc end = acc_of (map g (listed (spec_joint a b))) acc) as -> by (destruct (spec_joint a b); reflexivity).
    rewrite add_directions_spec. cbn [bindO]. rewrite <- acc_of_app.
    assert (route_changes g (a :: b :: r) = map g (listed (spec_joint a b)) ++ listed (spec_dirs g a) ++ match r with [] => listed (spec_dirs g b) | _ => [] end ++ route_changes g (b :: r)) as Ec by reflexivity.
    rewrite Ec. destruct r as [|c r].
    - rewrite add_directions_spec. cbn [bindO route_directions_loop route_changes]. rewrite <- acc_of_app, app_nil_r, <- app_assoc. reflexivity.
    - cbn [bindO]. etransitivity; [apply IH; exact Fr|]. rewrite <- acc_of_app, <- app_assoc. reflexivity.
  Qed.
  Lemma route_has_loop_spec : forall g ls, Forall (fun l : list P => length l <> 1) (tl ls) ->
    route_has_directions_loop eqp azi diffA ls = Ok (negb (match route_changes g ls with [] => true | _ => false end)).
  Proof.
    intros g. induction ls as [|a ls IH]; intros F; [reflexivity|]. destruct ls as [|b r]; [reflexivity|].
    cbn [tl] in F. inversion F as [|? ? Fb Fr]; subst.
    change (route_has_directions_loop eqp azi diffA (a :: b :: r)) with
      (bindO (has_turn eqp a b) (fun x => x) (fun t => if t then Ok true else if plain_has_directions eqp azi diffA a then Ok true
        else if match r with [] => plain_has_directions eqp azi diffA b | _ => false end then Ok true else route_has_directions_loop eqp azi diffA (b :: r))).
    rewrite (proj1 (turn_spec a b Fb)). cbn [bindO].
    assert (route_changes g (a :: b :: r) = map g (listed (spec_joint a b)) ++ listed (spec_dirs g a) ++ match r with [] => listed (spec_dirs g b) | _ => [] end ++ route_changes g (b :: r)) as Ec by reflexivity.
    rewrite Ec, (has_directions_spec eqp dist azi addL zeroL addA zeroA diffA a g), (has_directions_spec eqp dist azi addL zeroL addA zeroA diffA b g).
    destruct (spec_joint a b); [reflexivity|]. cbn [some listed map app]. destruct (spec_dirs g a); [reflexivity|]. cbn [some listed app].
    destruct r as [|c r].
    - destruct (spec_dirs g b); reflexivity.
    - apply IH. exact Fr.
  Qed.

  (** The turns of a route are those of its lines and those between a line and the next one that continues it; without any of them an
      exception is raised, and this is what [has_directions] tells beforehand. No line but the first may be a single point. *)
  Definition spec_route_dirs (g : A -> A) (ls : list (list P)) : option A := one_or ls (spec_dirs g) (total addA zeroA (route_changes g ls)).
  Theorem C59_directions : forall g (r : @route P), Forall (fun l : list P => length l <> 1) (tl (lines r)) ->
    route_directions eqp azi addA zeroA diffA g r = answer zeroA (spec_route_dirs g (lines r)) /\
    route_has_directions eqp azi diffA r = Ok (some (spec_route_dirs g (lines r))).
  Proof.
    intros g r F. unfold route_directions, route_has_directions, spec_route_dirs. destruct (lines r) as [|a [|b ls]].
    - split; reflexivity.
    - cbn [one_or]. rewrite (has_directions_spec eqp dist azi addL zeroL addA zeroA diffA a g).
      destruct (plain eqp dist azi addL zeroL addA zeroA diffA a) as (_ & _ & -> & _). destruct (spec_dirs g a); split; reflexivity.
    - rewrite route_loop_spec by exact F. rewrite (route_has_loop_spec g) by exact F. cbn [one_or bindO]. destruct (route_changes g (a :: b :: ls)); split; reflexivity.
  Qed.

  (** Every turn counts once: the route adds the same turns as a line made of the parts (C52), in another order. *)
  Lemma changes_perm : forall g a b ls, Permutation (route_changes g (a :: b :: ls)) (spec_changes eqp azi addA zeroA diffA g (a :: b :: ls)).
  Proof.
    intros g a b ls. revert a b. induction ls as [|c ls IH]; intros a b.
    - cbn [route_changes spec_changes]. rewrite !app_nil_r. rewrite !app_assoc. apply Permutation_app_tail. apply Permutation_app_comm.
    - change (route_changes g (a :: b :: c :: ls)) with (map g (listed (spec_joint a b)) ++ listed (spec_dirs g a) ++ route_changes g (b :: c :: ls)).
      change (spec_changes eqp azi addA zeroA diffA g (a :: b :: c :: ls)) with (listed (spec_dirs g a) ++ map g (listed (spec_joint a b)) ++ spec_changes eqp azi addA zeroA diffA g (b :: c :: ls)).
      rewrite (IH b c), !app_assoc. apply Permutation_app_tail. apply Permutation_app_comm.
  Qed.

  Section Exact.
    Hypothesis congruent : forall a b c, eqp a b = true -> eqp a c = eqp b c /\ dist a c = dist b c /\ azi a c = azi b c.
    Hypothesis addL_assoc : forall x y z, addL (addL x y) z = addL x (addL y z).
    Hypothesis addL_0_l : forall x, addL zeroL x = x.
    Hypothesis addL_0_r : forall x, addL x zeroL = x.
    Hypothesis addA_assoc : forall x y z, addA (addA x y) z = addA x (addA y z).
    Hypothesis addA_comm : forall x y, addA x y = addA y x.
    Hypothesis addA_0_l : forall x, addA zeroA x = x.

    Lemma fold_perm : forall l m : list A, Permutation l m -> forall acc, fold_left addA l acc = fold_left addA m acc.
    Proof.
      intros l m H. induction H as [|x l m _ IH|x y l|l m k _ IH1 _ IH2]; intros acc; cbn [fold_left]; auto; [|rewrite IH1; auto].
      f_equal. rewrite !addA_assoc. f_equal. apply addA_comm.
    Qed.
    (** A connected route whose lines have two points or more has the turns of the line that they make when joined. *)
    Theorem C59_joined : forall g (r : @route P), chained eqp (lines r) -> lines r <> [] -> Forall (fun l : list P => 2 <= length l) (lines r) ->
      route_directions eqp azi addA zeroA diffA g r = plain_directions eqp azi addA zeroA diffA g (joined (lines r)).
    Proof.
      intros g r C N F.
      assert (forall x, addA x zeroA = x) as addA_0_r by (intros x; rewrite addA_comm; apply addA_0_l).
      pose proof (proj2 (C52_joined eqp dist azi addL zeroL addA zeroA diffA congruent addL_assoc addL_0_l addL_0_r addA_assoc addA_0_l addA_0_r (lines r) C N F) g) as <-.
      rewrite (proj1 (C59_directions g r ltac:(destruct (lines r) as [|x l]; [constructor|inversion F as [|? ? ? Fl]; subst; eapply Forall_impl; [|exact Fl]; cbn; intros z Hz; lia]))).
      assert (Forall (fun l : list P => l <> []) (lines r)) as F' by (eapply Forall_impl; [|exact F]; intros [|x l] H; [cbn in H; lia|discriminate]).
      destruct (C52_values eqp dist azi addL zeroL addA zeroA diffA (lines r) F') as (_ & _ & _ & _ & H2). rewrite (proj1 (H2 g)). f_equal. unfold spec_route_dirs.
      destruct (lines r) as [|a [|b ls]]; [congruence|reflexivity|]. cbn [one_or]. unfold spec_multi_dirs.
      pose proof (changes_perm g a b ls) as Pm. unfold total. destruct (route_changes g (a :: b :: ls)) as [|x l] eqn:E1.
      - apply Permutation_nil in Pm. rewrite Pm. reflexivity.
      - destruct (spec_changes eqp azi addA zeroA diffA g (a :: b :: ls)) as [|y m] eqn:E2; [symmetry in Pm; apply Permutation_nil in Pm; discriminate|]. f_equal. apply fold_perm. exact Pm.
    Qed.
  End Exact.
End C59.

Notation zroute ls := (mkRoute false ls : @route Z).
Example C59_instance : (forall p, Z.eqb p p = true) /\ (forall a b c, Z.eqb a b = true -> Z.eqb a c = Z.eqb b c /\ zdist a c = zdist b c /\ zazi a c = zazi b c).
Proof. split; [apply Z.eqb_refl|exact C52_instance]. Qed.
Example C59_demo : let r := zroute [[0; 5; 3]; [3; 9]; [20; 10; 30]]%Z in
  route_azimuth Z.eqb zazi 0%Z r = Ok 90%Z /\ route_directions Z.eqb zazi Z.add 0%Z zdiff Z.abs r = Ok 540%Z /\ route_has_directions Z.eqb zazi zdiff r = Ok true /\
  Forall (fun l : list Z => length l <> 1) (tl (lines r)).
Proof. vm_compute. repeat split. repeat constructor; discriminate. Qed.
Example C59_joined_demo : let r := zroute [[0; 5; 3]; [3; 9]]%Z in chained Z.eqb (lines r) /\ Forall (fun l : list Z => 2 <= length l) (lines r) /\
  route_directions Z.eqb zazi Z.add 0%Z zdiff Z.abs r = Ok 360%Z /\ plain_directions Z.eqb zazi Z.add 0%Z zdiff Z.abs [0; 5; 3; 9]%Z = Ok 360%Z.
Proof. split; [exact (proj1 C52_demo_joined)|]. split; [exact (proj1 (proj2 C52_demo_joined))|]. vm_compute. auto. Qed.

(** A line that is a single point after another line: already asking whether there are turns raises out_of_range, although the first line has one. *)
Theorem C59_single_point_refuted : exists r : @route Z, invalid r = false /\ is_connected Z.eqb r = true /\
  plain_has_directions Z.eqb zazi zdiff (hd [] (lines r)) = true /\ route_has_directions Z.eqb zazi zdiff r = Throw false /\
  exists x, route_directions Z.eqb zazi Z.add 0%Z zdiff (fun x => x) r = Throw x.
Proof. exists (zroute [[0; 5; 3]; [3]; [3; 9]]%Z). vm_compute. repeat split. eexists. reflexivity. Qed.
(** An empty line hides the turn between its neighbours. *)
Theorem C59_empty_line_refuted : exists r : @route Z, invalid r = false /\ is_connected Z.eqb r = true /\
  route_directions Z.eqb zazi Z.add 0%Z zdiff (fun x => x) r = Throw 0%Z /\
  plain_directions Z.eqb zazi Z.add 0%Z zdiff (fun x => x) [0; 5; 3]%Z = Ok (-180)%Z /\ lines r = [[0; 5]; []; [5; 3]]%Z.
Proof. exists (zroute [[0; 5]; []; [5; 3]]%Z). vm_compute. auto. Qed.

Print Assumptions C59_azimuth.
Print Assumptions C59_directions.
Print Assumptions C59_joined.
Print Assumptions C59_single_point_refuted.
Print Assumptions C59_empty_line_refuted.
