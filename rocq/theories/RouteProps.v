(** C48: routes. *)
From Coq Require Import ZArith.
From Verif Require Import Base ListAux RichLine RichLineProps Route RouteProofs.
Local Open Scope nat_scope.

Section C48.
  Context {P L : Type}.
  Variable eqp : P -> P -> bool.
  (** points are equal if their coordinates are *)
  Hypothesis eqp_eq : forall a b, eqp a b = true <-> a = b.
  Variable zeroL : L.
  Variable addL : L -> L -> L.
  Variable dist : P -> P -> L.
  Hypothesis add_assoc : forall a b c, addL a (addL b c) = addL (addL a b) c.
  Hypothesis add_0_l : forall a, addL zeroL a = a.
  Hypothesis add_0_r : forall a, addL a zeroL = a.
  Variable opposite : P * P -> P * P -> bool.

  (** **** A route is connected exactly if every line that is not empty ends at the point the next line, if not empty, starts at. *)
  Theorem C48_connected r : is_connected eqp r = true <->
    (forall i l p q m, nth_error (lines r) i = Some (l ++ [p]) -> nth_error (lines r) (S i) = Some (q :: m) -> p = q).
  Proof.
    unfold is_connected. induction (lines r) as [|a [|b ls] IH].
    - split; [intros _ i l p q m N|reflexivity]. destruct i; discriminate.
    - split; [intros _ i l p q m _ N|reflexivity]. destruct i; discriminate.
    - change (connected_loop eqp (a :: b :: ls)) with ((is_empty a || is_empty b || attaches eqp a b) && connected_loop eqp (b :: ls)).
      rewrite andb_true_iff, IH. clear IH. split.
      + intros [H1 H2] [|i] l p q m N1 N2; [|apply (H2 i l p q m N1 N2)]. cbn in N1, N2. injection N1 as ->. injection N2 as ->.
        unfold is_empty, attaches in H1. rewrite rev_app_distr in H1. cbn in H1. destruct (l ++ [p]) eqn:E; [destruct l; discriminate|].
        apply eqp_eq. exact H1.
      + intros H. split.
        * destruct b as [|q m]; [destruct a; reflexivity|]. destruct a as [|x a] using rev_ind; [reflexivity|]. clear IHa.
          unfold attaches. rewrite rev_app_distr. cbn. rewrite (proj2 (eqp_eq x q)); [rewrite orb_true_r; reflexivity|].
          apply (H 0 a x q m); reflexivity.
        * intros i l p q m N1 N2. apply (H (S i) l p q m N1 N2).
  Qed.

  (** **** The length of a route is the sum of the distances between different neighbouring points of its lines; a route in which
      no two neighbours differ has none. [way], [total] and [moves] are defined in RouteProofs.v without the model. *)
  Theorem C48_length r :
    ((exists l, In l (lines r) /\ moves l) <-> has_length eqp zeroL addL dist r = true)
    /\ (has_length eqp zeroL addL dist r = true -> route_length eqp zeroL addL dist r = Ok (total eqp zeroL addL dist (lines r)))
    /\ (has_length eqp zeroL addL dist r = false -> route_length eqp zeroL addL dist r = Throw zeroL
        /\ total eqp zeroL addL dist (lines r) = zeroL).
  Proof.
    rewrite (has_length_spec eqp zeroL addL dist add_assoc add_0_l add_0_r r), (route_length_spec eqp zeroL addL dist add_assoc add_0_l add_0_r r). split; [|split].
    - rewrite existsb_exists. split; intros (l & H1 & H2); exists l; (split; [exact H1|]); apply (moving_spec eqp eqp_eq); exact H2.
    - intros ->. reflexivity.
    - intros E. rewrite E. split; [reflexivity|]. apply total_still; auto.
  Qed.

  (** **** Merging puts the lines of the routes one after the other, leaving out routes that are invalid or stand still; nothing of the
      length is lost. *)
  Definition worth (r : @route P) : Prop := invalid r = false /\ exists l, In l (lines r) /\ moves l.
  Lemma worth_mergeable r : mergeable eqp r = true <-> worth r.
  Proof.
    rewrite (mergeable_spec eqp), andb_true_iff, negb_true_iff, existsb_exists. unfold worth. split; intros [H1 (l & H2 & H3)]; (split; [exact H1|]); exists l; (split; [exact H2|]); apply (moving_spec eqp eqp_eq); exact H3.
  Qed.
  (** the routes worth merging, in order *)
  Inductive kept : list (@route P) -> list (@route P) -> Prop :=
  | kept_nil : kept [] []
  | kept_take r rs ks : worth r -> kept rs ks -> kept (r :: rs) (r :: ks)
  | kept_drop r rs ks : ~ worth r -> kept rs ks -> kept (r :: rs) ks.
  Lemma kept_filter rs ks : kept rs ks <-> ks = filter (mergeable eqp) rs.
  Proof.
    split.
    - intros H. induction H as [|r rs ks W H IH|r rs ks W H IH]; cbn; [reflexivity| |]; destruct (mergeable eqp r) eqn:E.
      + rewrite IH. reflexivity.
      + apply worth_mergeable in W. congruence.
      + apply worth_mergeable in E. tauto.
      + exact IH.
    - intros ->. induction rs as [|r rs IH]; cbn; [constructor|]. destruct (mergeable eqp r) eqn:E; constructor; auto; rewrite <- worth_mergeable; congruence.
  Qed.

  Theorem C48_merge routes ks : kept routes ks ->
    exists t, merge eqp routes false false = Ok t
      /\ (invalid t = true <-> forall r, In r routes -> invalid r = true)
      /\ lines t = concat (map lines ks)
      /\ ((forall r, In r routes -> invalid r = true -> lines r = []) ->
          total eqp zeroL addL dist (lines t) = fold_right (fun r x => addL (total eqp zeroL addL dist (lines r)) x) zeroL routes).
  Proof.
    intros K. apply kept_filter in K. subst ks. rewrite (merge_plain eqp). eexists. split; [reflexivity|].
    assert (Fi : forallb invalid routes = true <-> forall r, In r routes -> invalid r = true) by apply forallb_forall.
    assert (E : lines (if forallb invalid routes then flagged true else of_lines (concat (map lines (filter (mergeable eqp) routes)))) = concat (map lines (filter (mergeable eqp) routes))).
    { destruct (forallb invalid routes) eqn:F; [|reflexivity]. rewrite filter_false; [reflexivity|]. intros r Hr. rewrite (mergeable_spec eqp), (proj1 Fi eq_refl r Hr). reflexivity. }
    split; [|split].
    - rewrite <- Fi. destruct (forallb invalid routes); cbn; split; auto; discriminate.
    - exact E.
    - intros Hi. rewrite E. clear E Fi. induction routes as [|r routes IH]; [reflexivity|]. cbn [filter fold_right]. rewrite <- IH by (intros x Hx; apply Hi; right; exact Hx).
      destruct (mergeable eqp r) eqn:M; [cbn [map concat]; apply total_app; auto|].
      rewrite (mergeable_spec eqp) in M. apply andb_false_iff in M. destruct M as [M|M].
      + apply negb_false_iff in M. rewrite (Hi r (or_introl eq_refl) M). cbn. symmetry. apply add_0_l.
      + rewrite (total_still eqp zeroL addL dist add_0_l _ M). symmetry. apply add_0_l.
  Qed.

  (** the points that meet between two routes: the last of the last line and the first of the first *)
  Definition facing (a b : list (list P)) : option (P * P) :=
    match hd_error (rev (last a [])), hd_error (hd [] b) with Some p, Some q => Some (p, q) | _, _ => None end.
  (** the lines of the routes, with a line over every gap *)
  Fixpoint bridged (rs : list (@route P)) : list (list P) :=
    match rs with
    | a :: ((b :: _) as r) => lines a ++ match facing (lines a) (lines b) with Some (p, q) => if eqp p q then [] else [[p; q]] | None => [] end ++ bridged r
    | [a] => lines a
    | [] => []
    end.
  Definition parted (ks : list (@route P)) : Prop := exists k1 a b k2 p q, ks = k1 ++ a :: b :: k2 /\ facing (lines a) (lines b) = Some (p, q) /\ p <> q.

  Lemma gap_facing acc a r : lines a <> [] -> gap eqp (acc ++ lines a) r = match facing (lines a) (lines r) with Some (p, q) => if eqp p q then None else Some (p, q) | None => None end.
  Proof.
    intros N. destruct (@exists_last _ (lines a) N) as (z & y & E). unfold gap, facing, front, back. rewrite E, app_assoc, rev_unit, last_last.
    destruct (lines r) as [|r0 rl]; cbn [hd hd_error]; [destruct (hd_error (rev y)); reflexivity|]. destruct (hd_error (rev y)), (hd_error r0); reflexivity.
  Qed.
  Lemma worth_lines r : mergeable eqp r = true -> lines r <> [].
  Proof. intros H. apply worth_mergeable in H. destruct H as (_ & l & H & _). intros E. rewrite E in H. exact H. Qed.
  Lemma fold_kept connect ex : forall rs acc, foldO (merge_one eqp connect ex) rs acc = foldO (merge_one eqp connect ex) (filter (mergeable eqp) rs) acc.
  Proof.
    induction rs as [|r rs IH]; intros acc; [reflexivity|]. cbn [foldO filter]. destruct (mergeable eqp r) eqn:M; [cbn [foldO]; destruct (merge_one eqp connect ex acc r); cbn [bindO]; [apply IH|reflexivity|reflexivity|reflexivity]|].
    assert (E : merge_one eqp connect ex acc r = Ok acc) by (unfold merge_one; rewrite M; reflexivity). rewrite E. cbn [bindO]. apply IH.
  Qed.
  Lemma fold_connect ex : forall rs a acc, lines a <> [] -> (forall r, In r rs -> mergeable eqp r = true) ->
    foldO (merge_one eqp true ex) rs (acc ++ lines a) = Ok (acc ++ bridged (a :: rs)).
  Proof.
    induction rs as [|r rs IH]; intros a acc N M; [reflexivity|]. cbn [foldO].
    assert (Eo : forall c e, merge_one eqp c e (acc ++ lines a) r = match gap eqp (acc ++ lines a) r with Some (p, q) => if c then Ok ((acc ++ lines a) ++ [[p; q]] ++ lines r) else if e then Throw (acc ++ lines a) else Ok ((acc ++ lines a) ++ lines r) | None => Ok ((acc ++ lines a) ++ lines r) end) by (intros c e; unfold merge_one; rewrite (M r (or_introl eq_refl)); reflexivity).
    rewrite Eo, (gap_facing _ _ _ N).
    pose proof (worth_lines r (M r (or_introl eq_refl))) as Nr. change (bridged (a :: r :: rs)) with (lines a ++ match facing (lines a) (lines r) with Some (p, q) => if eqp p q then [] else [[p; q]] | None => [] end ++ bridged (r :: rs)).
    assert (M' : forall x, In x rs -> mergeable eqp x = true) by (intros x Hx; apply M; right; exact Hx).
    destruct (facing (lines a) (lines r)) as [[p q]|]; [destruct (eqp p q)|]; cbn [bindO app]; rewrite ?app_comm_cons, app_assoc.
    - rewrite (IH r _ Nr M'). reflexivity.
    - change (foldO (merge_one eqp true ex) rs ((acc ++ lines a) ++ [[p; q]] ++ lines r) = Ok ((acc ++ lines a) ++ [[p; q]] ++ bridged (r :: rs))). rewrite !(app_assoc (acc ++ lines a)). rewrite (IH r _ Nr M'). reflexivity.
    - rewrite (IH r _ Nr M'). reflexivity.
  Qed.
  Lemma parted_cons a b ks : parted (a :: b :: ks) <-> (exists p q, facing (lines a) (lines b) = Some (p, q) /\ p <> q) \/ parted (b :: ks).
  Proof.
    split.
    - intros (k1 & x & y & k2 & p & q & E & F & N). destruct k1 as [|k k1]; [injection E as -> -> ->; left; exists p, q; auto|]. injection E as -> E. right. exists k1, x, y, k2, p, q. auto.
    - intros [(p & q & F & N)|(k1 & x & y & k2 & p & q & E & F & N)]; [exists [], a, b, ks, p, q; auto|]. exists (a :: k1), x, y, k2, p, q. rewrite E. auto.
  Qed.
  Lemma fold_except : forall rs a acc, lines a <> [] -> (forall r, In r rs -> mergeable eqp r = true) ->
    (parted (a :: rs) /\ exists l, foldO (merge_one eqp false true) rs (acc ++ lines a) = Throw l)
    \/ (~ parted (a :: rs) /\ foldO (merge_one eqp false true) rs (acc ++ lines a) = Ok (acc ++ lines a ++ concat (map lines rs))).
  Proof.
    induction rs as [|r rs IH]; intros a acc N M.
    - right. split; [|cbn; rewrite app_nil_r; reflexivity]. intros (k1 & x & y & k2 & p & q & E & _). destruct k1 as [|? [|? ?]]; discriminate.
    - cbn [foldO].
    assert (Eo : forall c e, merge_one eqp c e (acc ++ lines a) r = match gap eqp (acc ++ lines a) r with Some (p, q) => if c then Ok ((acc ++ lines a) ++ [[p; q]] ++ lines r) else if e then Throw (acc ++ lines a) else Ok ((acc ++ lines a) ++ lines r) | None => Ok ((acc ++ lines a) ++ lines r) end) by (intros c e; unfold merge_one; rewrite (M r (or_introl eq_refl)); reflexivity).
    rewrite Eo, (gap_facing _ _ _ N), parted_cons.
      pose proof (worth_lines r (M r (or_introl eq_refl))) as Nr. assert (M' : forall x, In x rs -> mergeable eqp x = true) by (intros x Hx; apply M; right; exact Hx).
      cbn [map concat]. destruct (facing (lines a) (lines r)) as [[p q]|]; [destruct (eqp p q) eqn:E|]; cbn [bindO].
      + apply eqp_eq in E. subst q. destruct (IH r (acc ++ lines a) Nr M') as [[H1 H2]|[H1 H2]]; [left; auto|right]. rewrite H2, <- app_assoc. split; [|reflexivity].
        intros [(p' & q' & F & Np)|H]; [congruence|tauto].
      + left. split; [left; exists p, q; split; [reflexivity|intros X; apply eqp_eq in X; congruence]|eauto].
      + destruct (IH r (acc ++ lines a) Nr M') as [[H1 H2]|[H1 H2]]; [left; auto|right]. rewrite H2, <- app_assoc. split; [|reflexivity].
        intros [(p' & q' & F & Np)|H]; [congruence|tauto].
  Qed.
  Lemma first_kept connect ex r rs : mergeable eqp r = true -> foldO (merge_one eqp connect ex) (r :: rs) [] = foldO (merge_one eqp connect ex) rs ([] ++ lines r).
  Proof. intros M. cbn [foldO]. assert (E : merge_one eqp connect ex [] r = Ok ([] ++ lines r)) by (unfold merge_one; rewrite M; reflexivity). rewrite E. reflexivity. Qed.
  Lemma not_invalid routes : filter (mergeable eqp) routes <> [] -> forallb invalid routes = false.
  Proof.
    intros N. destruct (forallb invalid routes) eqn:F; [|reflexivity]. exfalso. apply N. apply filter_false. intros r Hr. rewrite forallb_forall in F.
    rewrite (mergeable_spec eqp), (F r Hr). reflexivity.
  Qed.
  Lemma merge_unfold routes connect ex : filter (mergeable eqp) routes <> [] ->
    merge eqp routes connect ex = bindO (foldO (merge_one eqp connect ex) (filter (mergeable eqp) routes) []) of_lines (fun ls => Ok (of_lines ls)).
  Proof.
    intros N. unfold merge. rewrite (not_invalid _ N), fold_kept. destruct routes; [exfalso; apply N; reflexivity|reflexivity].
  Qed.

  (** **** With [connect] every gap between the routes is closed by a straight line. *)
  Theorem C48_merge_connect routes ks ex : kept routes ks -> ks <> [] ->
    merge eqp routes true ex = Ok (of_lines (bridged ks)).
  Proof.
    intros K N. apply kept_filter in K. subst ks. rewrite (merge_unfold _ _ _ N).
    assert (F : forall x, In x (filter (mergeable eqp) routes) -> mergeable eqp x = true) by (intros x Hx; apply filter_In in Hx; tauto).
    destruct (filter (mergeable eqp) routes) as [|r rs]; [congruence|]. rewrite first_kept by (apply F; left; reflexivity).
    rewrite fold_connect; [reflexivity|apply worth_lines, F; left; reflexivity|intros x Hx; apply F; right; exact Hx].
  Qed.
  (** **** With [non_connect_except] an exception is raised exactly if there is a gap. *)
  Theorem C48_merge_except routes ks : kept routes ks ->
    (parted ks -> exists t, merge eqp routes false true = Throw t) /\ (~ parted ks -> merge eqp routes false true = merge eqp routes false false).
  Proof.
    intros K. apply kept_filter in K. subst ks.
    assert (F : forall x, In x (filter (mergeable eqp) routes) -> mergeable eqp x = true) by (intros x Hx; apply filter_In in Hx; tauto).
    destruct (filter (mergeable eqp) routes) as [|r rs] eqn:E.
    - split; [intros (k1 & ? & ? & ? & ? & ? & X & _); destruct k1; discriminate|]. intros _. unfold merge. rewrite (fold_kept false true routes), (fold_kept false false routes), E. reflexivity.
    - assert (N : filter (mergeable eqp) routes <> []) by (rewrite E; discriminate). rewrite !(merge_unfold _ _ _ N), E, !first_kept by (apply F; left; reflexivity).
      destruct (fold_except rs r []) as [[H1 [l H2]]|[H1 H2]]; [apply worth_lines, F; left; reflexivity|intros x Hx; apply F; right; exact Hx| |].
      + split; [|tauto]. intros _. rewrite H2. cbn [bindO]. eauto.
      + split; [tauto|]. intros _. rewrite H2, merge_free. rewrite filter_true by (intros x Hx; apply F; right; exact Hx). reflexivity.
  Qed.

  (** **** Merging routes that attach to each other: the result runs from the first point to the last and takes the same way.
      [path p ls q]: lines, none of them empty, each beginning where the one before ended, from [p] to [q]; [poly p ls]: the points
      of the lines, without repeating neighbours. *)
  Theorem C48_merge_attached routes p q : routes <> [] -> (forall r, In r routes -> invalid r = false) -> path p (concat (map lines routes)) q ->
    exists t, merge eqp routes false false = Ok t /\ merge eqp routes false true = Ok t /\ invalid t = false /\ path p (lines t) q
      /\ poly eqp p (lines t) = poly eqp p (concat (map lines routes)).
  Proof.
    intros N V H. assert (V' : forallb (fun r => negb (invalid r)) routes = true) by (apply forallb_forall; intros r Hr; rewrite (V r Hr); reflexivity).
    destruct (merge_path eqp eqp_eq routes p q N V' H) as (t & T1 & T2 & T3 & T4). exists t. split; [exact T1|]. split; [|auto].
    destruct (C48_merge_except routes _ (proj2 (kept_filter _ _) eq_refl)) as [_ E]. rewrite E; [exact T1|].
    intros (k1 & a & b & k2 & x & y & Ek & Ef & Nxy).
    pose proof (path_filtered eqp eqp_eq routes p q V' H) as [Pf _]. rewrite Ek, map_app, concat_app in Pf. cbn [map concat] in Pf.
    apply path_app in Pf. destruct Pf as (r1 & _ & Pf). apply path_app in Pf. destruct Pf as (r2 & Pa & Pf). apply path_app in Pf. destruct Pf as (r3 & Pb & _).
    unfold facing in Ef. destruct (rev (last (lines a) [])) as [|x' xs] eqn:Ex; [discriminate|]. destruct (hd [] (lines b)) as [|y' ys] eqn:Ey; [discriminate|]. cbn in Ef. injection Ef as -> ->.
    apply Nxy. assert (r2 = y) by (destruct (lines b) as [|b0 bl]; [discriminate|]; apply path_inv in Pb; destruct Pb as (tb & -> & _); cbn in Ey; congruence). subst r2.
    destruct (path_points _ _ _ Pa) as [[E1 _]|[u U]]; [rewrite E1 in Ex; discriminate|].
    assert (Nl : lines a <> []) by (intros E1; rewrite E1 in Ex; discriminate). destruct (@exists_last _ (lines a) Nl) as (z & l & El). rewrite El, last_last in Ex. rewrite El, concat_app in U. cbn [concat] in U.
    apply (f_equal (@rev P)) in Ex. rewrite rev_involutive in Ex. cbn [rev] in Ex. rewrite Ex, app_nil_r, app_assoc in U. apply app_inj_tail in U. tauto.
  Qed.

  (** **** The line of a route: the points of its lines in order; a line beginning at the last point so far is continued behind that
      point. *)
  Definition follow (acc l : list P) : list P :=
    match l with
    | [] => acc
    | q :: v => match acc with [] => l | _ => if eqp (last acc q) q then acc ++ v else acc ++ l end
    end.
  Lemma merge_snoc G w l : plain_merge eqp [] G = Ok w -> plain_merge eqp [] (G ++ [l]) = merge_single eqp w l.
  Proof.
    unfold plain_merge. generalize (@nil P) as v. induction G as [|g G IH]; intros v H; cbn [foldO app] in *.
    - injection H as ->. destruct (merge_single eqp w l); reflexivity.
    - destruct (merge_single eqp v g) as [x| | |]; try discriminate. cbn [bindO] in *. apply IH, H.
  Qed.
  Lemma merge_single_at w p q v : merge_single eqp (w ++ [p]) (q :: v) = if eqp p q then Ok ((w ++ [p]) ++ v) else Throw (w ++ [p]).
  Proof. unfold merge_single. destruct (w ++ [p]) eqn:E; [destruct w; discriminate|]. rewrite <- E, last_last. reflexivity. Qed.
  Lemma line_loop ls : forall acc w, plain_merge eqp [] acc = Ok w ->
    ((acc = [] /\ w = []) \/ exists a' u p w', acc = a' ++ [u ++ [p]] /\ w = w' ++ [p]) ->
    plain_merge eqp [] (get_rich_lines_loop eqp true ls acc) = Ok (fold_left follow ls w).
  Proof.
    induction ls as [|l ls IH]; intros acc w H C; cbn [get_rich_lines_loop fold_left]; [exact H|]. destruct l as [|q v]; cbn [is_empty follow]; [apply IH; auto|].
    assert (El : exists v1 p1, q :: v = v1 ++ [p1]) by (destruct (@exists_last _ (q :: v)) as (v1 & p1 & E); [discriminate|exists v1, p1; exact E]).
    destruct El as (v1 & p1 & El).
    destruct C as [[-> ->]|(a' & u & p & w' & -> & ->)].
    - cbn [rev]. apply IH; [reflexivity|]. right. exists [], v1, p1, v1. rewrite El. auto.
    - rewrite rev_unit. unfold attaches, back, front. rewrite rev_unit. cbn [andb hd_error]. destruct (w' ++ [p]) eqn:Ew; [destruct w'; discriminate|]. rewrite <- Ew in *. rewrite last_last.
      destruct (eqp p q) eqn:E; cbn [negb].
      + apply IH; [rewrite (merge_snoc _ _ _ H), merge_single_at, E; reflexivity|]. right. exists (a' ++ [u ++ [p]]), v1, p1. apply eqp_eq in E. subst q.
        exists (w' ++ v1). rewrite El. split; [reflexivity|]. rewrite <- !app_assoc. cbn [app]. rewrite El. reflexivity.
      + assert (H2 : plain_merge eqp [] ((a' ++ [u ++ [p]]) ++ [[p; q]]) = Ok ((w' ++ [p]) ++ [q])).
        { rewrite (merge_snoc _ _ _ H), merge_single_at, (proj2 (eqp_eq p p) eq_refl). reflexivity. }
        change ([[p; q]; q :: v]) with ([[p; q]] ++ [q :: v]). rewrite app_assoc. apply IH.
        * rewrite (merge_snoc _ _ _ H2), merge_single_at, (proj2 (eqp_eq q q) eq_refl), <- !app_assoc. reflexivity.
        * right. eexists _, v1, p1, ((w' ++ [p]) ++ v1). rewrite El, app_assoc. split; reflexivity.
  Qed.
  Theorem C48_line r : get_rich_line eqp r = Ok (fold_left follow (lines r) []).
  Proof. unfold get_rich_line. apply line_loop; [reflexivity|left; auto]. Qed.

  Lemma follow_path : forall ls p q w, path p ls q -> w <> [] -> last w p = p -> fold_left follow ls w = w ++ concat (map (@tl P) ls).
  Proof.
    induction ls as [|l ls IH]; intros p q w H N E; [cbn; rewrite app_nil_r; reflexivity|]. apply path_inv in H. destruct H as (t & -> & H). cbn [fold_left map concat tl follow].
    assert (F : match w with [] => p :: t | _ :: _ => if eqp (last w p) p then w ++ t else w ++ p :: t end = w ++ t) by (destruct w; [congruence|]; rewrite E, (proj2 (eqp_eq p p) eq_refl); reflexivity).
    rewrite F. rewrite (IH (last (p :: t) p) q (w ++ t) H).
    - rewrite <- app_assoc. reflexivity.
    - destruct w; [congruence|discriminate].
    - destruct t as [|c t]; [rewrite app_nil_r; exact E|]. rewrite last_mid. change (last (p :: c :: t) p) with (last (c :: t) p). apply last_indep.
  Qed.
  (** **** For a connected route these are the points of the lines with every joint once. *)
  Theorem C48_line_attached r p q : path p (lines r) q -> get_rich_line eqp r = Ok (joined (lines r)) /\ (lines r <> [] -> dd eqp (joined (lines r)) = poly eqp p (lines r)).
  Proof.
    intros H. rewrite C48_line. destruct (lines r) as [|l ls]; [split; [reflexivity|congruence]|]. pose proof H as H0. apply path_inv in H. destruct H as (t & -> & H). split.
    - cbn [fold_left follow joined]. f_equal. apply follow_path with (p := last (p :: t) p) (q := q); [exact H|discriminate|]. apply last_indep.
    - intros _. unfold poly. cbn [joined concat app]. rewrite dd_cons, (proj2 (eqp_eq p p) eq_refl).
      clear H0. revert H. generalize (@nil P) as u. revert p t. induction ls as [|m ls IH]; intros p t u H; [reflexivity|]. apply path_inv in H. destruct H as (t' & -> & H). cbn [map concat tl app].
      destruct (@exists_last _ (p :: t)) as (w & e & E); [discriminate|]. rewrite E, last_last in *. cbn [map concat tl].
      change (p :: t ++ t' ++ concat (map (@tl P) ls)) with ((p :: t) ++ t' ++ concat (map (@tl P) ls)). change (p :: t ++ e :: t' ++ concat ls) with ((p :: t) ++ e :: t' ++ concat ls).
      rewrite E, <- !app_assoc. cbn [app]. rewrite (dd_twice eqp eqp_eq), (dd_split eqp w e (t' ++ concat (map (@tl P) ls))), (dd_split eqp w e (t' ++ concat ls)). f_equal. exact (IH e t' [] H).
  Qed.

  (** **** As a multi-line: cut exactly where lines do not attach; empty lines do not matter. *)
  Theorem C48_multi_line r : exists groups, concat groups = filter nonempty (lines r) /\ Forall (chained eqp) groups /\ cut eqp groups
    /\ (groups = [[]] \/ Forall (fun g => g <> []) groups) /\ get_multi_rich_line eqp r = Ok (map joined groups).
  Proof.
    assert (Sy : forall a b, eqp a b = true -> eqp b a = true) by (intros a b H; apply eqp_eq in H; apply eqp_eq; auto).
    assert (Tr : forall a b c, eqp a b = true -> eqp b c = true -> eqp a c = true) by (intros a b c H1 H2; apply eqp_eq in H1; apply eqp_eq in H2; apply eqp_eq; congruence).
    unfold get_multi_rich_line.
    assert (G : forall ls group, Forall (fun l => nonempty l = true) group -> chained eqp group -> forall acc, exists groups, groups_loop eqp ls group acc = acc ++ groups /\ concat groups = group ++ filter nonempty ls
        /\ Forall (chained eqp) groups /\ cut eqp groups /\ (groups = [[]] \/ Forall (fun g => g <> []) groups) /\ exists ext gs, groups = (group ++ ext) :: gs).
    { induction ls as [|l ls IH]; intros group Fg Cg acc.
      - exists [group]. cbn. rewrite !app_nil_r. split; [reflexivity|]. split; [reflexivity|]. split; [auto|]. split; [exact I|]. split; [destruct group; [left; reflexivity|right; constructor; [discriminate|constructor]]|].
        exists [], []. rewrite app_nil_r. reflexivity.
      - cbn [groups_loop filter]. destruct l as [|q v]; cbn [is_empty nonempty]; [apply IH; assumption|].
        assert (Snoc : forall (g : list (list P)), group = [] \/ (exists z y, group = z ++ [y] /\ attached eqp y (q :: v)) -> Forall (fun l => nonempty l = true) (group ++ [q :: v]) /\ chained eqp (group ++ [q :: v])).
        { intros _ [->|(z & y & -> & At)]; [split; [constructor; auto|exact I]|]. split; [apply Forall_app; split; [exact Fg|constructor; auto]|]. rewrite <- app_assoc. cbn [app]. apply chained_snoc; auto. }
        destruct (rev group) as [|prev gr] eqn:Rg.
        + assert (G0 : group = []) by (rewrite <- (rev_involutive group), Rg; reflexivity). destruct (Snoc [] (or_introl G0)) as [S1 S2].
          destruct (IH _ S1 S2 acc) as (gs & E1 & E2 & E3 & E4 & E5 & ext & gs' & E6). exists gs. rewrite E1, E2, <- app_assoc. split; [reflexivity|]. split; [reflexivity|]. repeat (split; [assumption|]).
          exists ((q :: v) :: ext), gs'. rewrite E6, <- app_assoc. reflexivity.
        + apply (f_equal (@rev _)) in Rg. rewrite rev_involutive in Rg. cbn [rev] in Rg. destruct (attaches eqp prev (q :: v)) eqn:At.
          * assert (At' : attached eqp prev (q :: v)).
            { unfold attaches in At. destruct (rev prev) as [|p pr] eqn:Rp; [discriminate|]. exists (rev pr), p, q, v. split; [|auto]. rewrite <- (rev_involutive prev), Rp. reflexivity. }
            destruct (Snoc []) as [S1 S2]; [right; exists (rev gr), prev; auto|].
            destruct (IH _ S1 S2 acc) as (gs & E1 & E2 & E3 & E4 & E5 & ext & gs' & E6). exists gs. rewrite E1, E2, <- app_assoc. split; [reflexivity|]. split; [reflexivity|]. repeat (split; [assumption|]).
            exists ((q :: v) :: ext), gs'. rewrite E6, <- app_assoc. reflexivity.
          * destruct (IH [q :: v] ltac:(constructor; auto) I (acc ++ [group])) as (gs & E1 & E2 & E3 & E4 & E5 & ext & gs' & E6). exists (group :: gs). rewrite E1, <- app_assoc. split; [reflexivity|].
            cbn [concat]. rewrite E2. split; [reflexivity|]. split; [constructor; auto|]. split; [|split].
            -- rewrite E6 in *. split; [|exact E4]. exists (rev gr), prev, (q :: v), ext. split; [exact Rg|]. split; [reflexivity|]. intros (u & p & q' & v' & X1 & X2 & X3). injection X2 as <- _.
               unfold attaches in At. rewrite X1, rev_unit in At. congruence.
            -- right. destruct E5 as [E5|E5]; [rewrite E5 in E6; discriminate|]. constructor; [rewrite Rg; destruct (rev gr); discriminate|exact E5].
            -- exists [], gs. rewrite app_nil_r. reflexivity. }
    destruct (G (lines r) [] ltac:(constructor) I []) as (groups & E1 & E2 & E3 & E4 & E5 & _). exists groups. cbn [app] in *. split; [exact E2|]. split; [exact E3|]. split; [exact E4|]. split; [exact E5|].
    rewrite E1. apply mapO_ok. intros g Hg. apply plain_merge_nil; auto.
    - apply Forall_forall. intros l Hl. assert (Hc : In l (concat groups)) by (apply in_concat; exists g; auto). rewrite E2 in Hc. apply filter_In in Hc. tauto.
    - rewrite Forall_forall in E3. auto.
  Qed.

  (** **** Joining: only the point where the routes meet goes; the last line of the first runs on to the next point of the second. *)
  Theorem C48_join a b ra u w s y v bl keep :
    invalid a = false -> invalid b = false -> lines a = ra ++ [u ++ [w; s]] -> lines b = (s :: y :: v) :: bl ->
    (keep = false \/ w = s \/ y = s \/ opposite (w, s) (s, y) = false ->
     join eqp opposite a b keep = (of_lines (ra ++ [u ++ [w; y]]), of_lines (match v with [] => bl | _ => (y :: v) :: bl end)))
    /\ (keep = true -> w <> s -> y <> s -> opposite (w, s) (s, y) = true -> join eqp opposite a b keep = (a, b)).
  Proof.
    intros Ia Ib Ea Eb.
    assert (Rv : reverse_attaches eqp opposite (u ++ [w; s]) (s :: y :: v) = negb (eqp w s) && negb (eqp s y) && opposite (w, s) (s, y)).
    { unfold reverse_attaches, last_segment, first_segment. rewrite rev_app_distr. reflexivity. }
    assert (J : join eqp opposite a b keep = if keep && reverse_attaches eqp opposite (u ++ [w; s]) (s :: y :: v) then (a, b) else join eqp opposite a b false).
    { destruct keep; [|reflexivity]. unfold join. rewrite Ia, Ib, Ea, Eb, rev_unit. cbn [orb andb]. 
      destruct (reverse_attaches eqp opposite (u ++ [w; s]) (s :: y :: v)); [|reflexivity]. destruct ((length (u ++ [w; s]) <? 2) || (length (s :: y :: v) <? 2)) eqn:X; [|reflexivity].
      rewrite app_length in X. cbn [length] in X. apply orb_true_iff in X. rewrite !Nat.ltb_lt in X. lia. }
    rewrite J, Rv. clear J Rv. split.
    - intros H. replace (keep && (negb (eqp w s) && negb (eqp s y) && opposite (w, s) (s, y))) with false.
      + rewrite (join_eq eqp opposite a b ra bl s (u ++ [w]) s (y :: v) Ia Ib); [|rewrite Ea, <- app_assoc; reflexivity|exact Eb|destruct u; discriminate|discriminate].
        cbn [firstn]. rewrite <- app_assoc. cbn [app]. destruct v; reflexivity.
      + symmetry. destruct H as [-> |[-> |[-> | ->]]]; [reflexivity| | |]; rewrite ?(proj2 (eqp_eq s s) eq_refl); cbn [negb andb]; rewrite ?andb_false_r; reflexivity.
    - intros -> N1 N2 O. replace (eqp w s) with false by (symmetry; apply (eqp_false eqp eqp_eq); exact N1). replace (eqp s y) with false by (symmetry; apply (eqp_false eqp eqp_eq); congruence).
      rewrite O. reflexivity.
  Qed.

  (** **** Trimming and merging two attached routes: there is a point [s] on both, such that the end of the first from [s] and the
      beginning of the second to [s] are the same way in opposite directions and cannot be extended; the result is the rest: the way
      of the first to [s] and the way of the second from [s] - without [s] itself if there the directions are opposite. *)
  Theorem C48_trim r o p m q fuel : invalid r = false -> invalid o = false -> lines r <> [] -> lines o <> [] -> path p (lines r) m -> path m (lines o) q ->
    length (concat (lines r)) + length (concat (lines o)) <= fuel ->
    exists X s R1 R2 Y t, concat (lines r) = X ++ s :: R1 /\ concat (lines o) = R2 ++ s :: Y
      /\ dd eqp (s :: R1) = rev (dd eqp (R2 ++ [s]))
      /\ (X = [] \/ exists X2 x, X = X2 ++ [x] /\ x <> s /\ (Y = [] \/ exists y Y2, Y = y :: Y2 /\ y <> s /\ x <> y))
      /\ trim_merge eqp opposite fuel r o = Ok t /\ invalid t = false /\ path p (lines t) q
      /\ (poly eqp p (lines t) = dd eqp (X ++ s :: Y)
          \/ exists U w z V, opposite (w, s) (s, z) = true /\ w <> s /\ z <> s
               /\ dd eqp (X ++ s :: Y) = U ++ [w; s; z] ++ V /\ poly eqp p (lines t) = dd eqp (U ++ [w; z] ++ V)).
  Proof. exact (trim_spec eqp eqp_eq opposite r o p m q fuel). Qed.

  (** **** The return line itself: the end of the first route from [s], or the beginning of the second to [s]. *)
  Theorem C48_return_line r o p m q fuel : invalid r = false -> invalid o = false -> lines r <> [] -> lines o <> [] -> path p (lines r) m -> path m (lines o) q ->
    length (concat (lines r)) + length (concat (lines o)) <= fuel ->
    exists X s R1 R2 Y a b, concat (lines r) = X ++ s :: R1 /\ concat (lines o) = R2 ++ s :: Y
      /\ dd eqp (s :: R1) = rev (dd eqp (R2 ++ [s]))
      /\ (X = [] \/ exists X2 x, X = X2 ++ [x] /\ x <> s /\ (Y = [] \/ exists y Y2, Y = y :: Y2 /\ y <> s /\ x <> y))
      /\ extract_return_line eqp fuel r o true = Ok a /\ extract_return_line eqp fuel r o false = Ok b
      /\ (dd eqp a = dd eqp (s :: R1) \/ a = [] /\ dd eqp (s :: R1) = [s]) /\ (dd eqp b = dd eqp (R2 ++ [s]) \/ b = [] /\ dd eqp (R2 ++ [s]) = [s]).
  Proof.
    intros Ir Io Nr No Hr Ho Hf. destruct (find_spec eqp eqp_eq r o p m q fuel Ir Io Nr No Hr Ho Hf) as (X & s & R1 & R2 & Y & i & j & k & l & EX & EY & T3 & T4 & T5 & T6 & Fd).
    destruct (sub_suffix eqp eqp_eq r p m i j X s R1 Hr T5) as (ta & A1 & A2 & A3 & A4). destruct (sub_prefix eqp eqp_eq o m q k l R2 s Y Ho T6) as (tb & B1 & B2 & B3 & B4).
    assert (Sz : 0 < length (lines r)) by (destruct (lines r); [congruence|cbn; lia]).
    assert (Sl : 0 < length (last (lines r) [])).
    { pose proof (path_nonempty _ _ _ Hr) as F. destruct (@exists_last _ (lines r) Nr) as (z & y & E). rewrite E, last_last in *. apply Forall_app in F. destruct F as [_ F]. inversion F as [|? ? Fy _]; subst. destruct y; [discriminate|cbn; lia]. }
    destruct (C48_line_attached ta s m A3) as [La La']. destruct (C48_line_attached tb m s B3) as [Lb Lb'].
    exists X, s, R1, R2, Y, (joined (lines ta)), (joined (lines tb)). split; [exact EX|]. split; [exact EY|]. split; [exact T3|]. split; [exact T4|].
    unfold extract_return_line. rewrite Fd. cbn [bindO some_parts self_start self_end other_start other_end]. rewrite !Nat.sub_add by lia. rewrite A1, B1. cbn [bindO]. rewrite La, Lb.
    split; [reflexivity|]. split; [reflexivity|]. split.
    - destruct (lines ta) as [|x xs] eqn:E; [right|left; rewrite La' by discriminate; exact A4]. split; [reflexivity|]. rewrite <- A4. reflexivity.
    - destruct (lines tb) as [|x xs] eqn:E; [right|left; rewrite Lb' by discriminate; exact B4]. split; [reflexivity|]. rewrite <- B4. inversion B3. reflexivity.
  Qed.

  (** **** Two routes attach exactly if both are valid and, unless one of them or the line at the joint is empty, the first ends where the
      second starts. *)
  Theorem C48_attaches a b : route_attaches eqp a b = true <->
    invalid a = false /\ invalid b = false
    /\ (forall ls l p q m ms, lines a = ls ++ [l ++ [p]] -> lines b = (q :: m) :: ms -> p = q).
  Proof.
    unfold route_attaches. destruct (invalid a); [split; [discriminate|intros [H _]; discriminate]|].
    destruct (invalid b); [split; [discriminate|intros (_ & H & _); discriminate]|]. cbn [orb].
    transitivity (forall ls l p q m ms, lines a = ls ++ [l ++ [p]] -> lines b = (q :: m) :: ms -> p = q); [|intuition].
    destruct (lines b) as [|[|q m] ms].
    - split; [discriminate|]. intros _. destruct (rev (lines a)); reflexivity.
    - split; [discriminate|]. intros _. destruct (rev (lines a)) as [|prev r]; [reflexivity|]. cbn [front hd_error]. destruct (back prev); reflexivity.
    - destruct (lines a) as [|prev ls _] using rev_ind; [split; [intros _ ls l p q' m' ms' E|reflexivity]; destruct ls; discriminate|].
      rewrite rev_app_distr. cbn [rev app front hd_error]. destruct prev as [|p l _] using rev_ind.
      + cbn. split; [|reflexivity]. intros _ ls' l p q' m' ms' E. apply app_inj_tail in E. destruct E as [_ E]. destruct l; discriminate.
      + unfold back. rewrite rev_app_distr. cbn. rewrite eqp_eq. split.
        * intros -> ls' l' p' q' m' ms' E E2. apply app_inj_tail in E. destruct E as [_ E]. apply app_inj_tail in E. destruct E as [_ E].
          injection E2 as -> -> ->. symmetry. exact E.
        * intros H. apply (H ls l p q m ms); reflexivity.
  Qed.

  (** **** Some of the lines of a route: those from the first to before the second position; other positions raise. *)
  Theorem C48_sub_lines (r : @route P) from to :
    (forall A B C, lines r = A ++ B ++ C -> from = length A -> to = length A + length B -> B ++ C <> [] -> sub_route2 r from to = Ok (of_lines B))
    /\ (to < from \/ length (lines r) <= from \/ length (lines r) < to -> sub_route2 r from to = Throw r).
  Proof.
    split.
    - intros A B C E -> -> N. unfold sub_route2. rewrite E, !app_length.
      assert (0 < length B + length C) by (rewrite <- app_length; destruct (B ++ C); [congruence|cbn; lia]).
      destruct (Nat.leb_spec (length A) (length A + length B)); [|lia]. destruct (Nat.ltb_spec (length A) (length A + (length B + length C))); [|lia].
      destruct (Nat.leb_spec (length A + length B) (length A + (length B + length C))); [|lia]. cbn [andb].
      rewrite skipn_app, skipn_all2, Nat.sub_diag by lia. cbn [skipn app]. replace (length A + length B - length A) with (length B) by lia.
      rewrite firstn_app, firstn_all, Nat.sub_diag. cbn. rewrite app_nil_r. reflexivity.
    - intros H. unfold sub_route2. destruct (Nat.leb_spec from to); [|reflexivity]. destruct (Nat.ltb_spec from (length (lines r))); [|reflexivity].
      destruct (Nat.leb_spec to (length (lines r))); [lia|reflexivity].
  Qed.

  Lemma of_lines_moves (ls : list (list P)) : Forall moves ls -> ls <> [] -> mergeable eqp (of_lines ls) = true.
  Proof. intros F N. apply worth_mergeable. split; [reflexivity|]. destruct F as [|l ls Hl F]; [congruence|]. exists l. split; [left; reflexivity|exact Hl]. Qed.
  Lemma merge_moves (groups : list (list (list P))) : Forall (Forall moves) groups -> groups <> [] ->
    merge eqp (map of_lines groups) false false = Ok (of_lines (concat groups)).
  Proof.
    intros F N. rewrite (merge_plain eqp). assert (E : forallb invalid (map of_lines groups) = false) by (destruct groups; [congruence|reflexivity]). rewrite E.
    do 2 f_equal. clear N E. induction F as [|g groups Hg F IH]; [reflexivity|]. cbn [map filter]. destruct g as [|l g].
    - exact IH.
    - rewrite of_lines_moves by (auto; discriminate). cbn [map concat lines of_lines]. rewrite IH. reflexivity.
  Qed.
  (** **** A part of a route, from a point of a line to before a point of another line, or from the start of a line or to its end, if there
      is a way in each of its lines; positions outside of the route raise. *)
  Theorem C48_sub_route r :
    (forall A l M l' C i j, lines r = A ++ l :: M ++ l' :: C -> i < length l -> j <= length l' -> l' <> [] ->
       moves (skipn i l) -> Forall moves M -> moves (firstn j l') ->
       sub_route4 eqp r (length A) i (length A + length M + 2) j = Ok (of_lines (skipn i l :: M ++ [firstn j l'])))
    /\ (forall A l C j, lines r = A ++ l :: C -> j <= length l -> moves (firstn j l) -> sub_route4 eqp r (length A) 0 (length A + 1) j = Ok (of_lines [firstn j l]))
    /\ (forall A l C i, lines r = A ++ l :: C -> i < length l -> moves (skipn i l) ->
       sub_route4 eqp r (length A) i (length A + 1) (length l) = Ok (of_lines [skipn i l]))
    /\ (forall from from_pos to to_pos, to < from \/ length (lines r) <= from \/ length (lines r) < to
          \/ length (nth from (lines r) []) <= from_pos
          \/ (0 < to /\ (nth (to - 1) (lines r) [] = [] \/ length (nth (to - 1) (lines r) []) < to_pos)) ->
       sub_route4 eqp r from from_pos to to_pos = Throw r).
  Proof.
    assert (LE : forall a b, a <= b -> (a <=? b) = true) by (intros; apply Nat.leb_le; assumption).
    assert (LT : forall a b, a < b -> (a <? b) = true) by (intros; apply Nat.ltb_lt; assumption).
    assert (GE : forall a b, b <= a -> (a <? b) = false) by (intros; apply Nat.ltb_ge; assumption).
    assert (NE : forall l : list P, l <> [] -> is_empty l = false) by (intros [|? ?] ?; [congruence|reflexivity]).
    assert (NM : forall (A : list (list P)) l C, nth (length A) (A ++ l :: C) [] = l).
    { intros A l C. rewrite app_nth2, Nat.sub_diag by lia. reflexivity. }
    assert (SUB : forall (l : list P) i j, i <= j -> i < length l -> j <= length l -> sub_line l i j = Ok (firstn (j - i) (skipn i l))).
    { intros l i j H1 H2 H3. unfold sub_line. rewrite (LE _ _ H1), (LT _ _ H2), (LE _ _ H3). reflexivity. }
    assert (MV : forall l : list P, moves l -> l <> []) by (intros l (u & a & b & v & -> & _); destruct u; discriminate).
    split; [|split; [|split]].
    - intros A l M l' C i j E Hi Hj Nl' Ml MM Ml'. unfold sub_route4. cbv zeta.
      assert (Len : length (lines r) = length A + length M + 2 + length C) by (rewrite E, app_length; cbn; rewrite app_length; cbn; lia).
      assert (N1 : nth (length A) (lines r) [] = l) by (rewrite E; apply NM).
      assert (N2 : nth (length A + length M + 2 - 1) (lines r) [] = l').
      { replace (length A + length M + 2 - 1) with (length (A ++ l :: M)) by (rewrite app_length; cbn; lia).
        rewrite E. replace (A ++ l :: M ++ l' :: C) with ((A ++ l :: M) ++ l' :: C) by (rewrite <- app_assoc; reflexivity). apply NM. }
      rewrite N1, N2, (LE (length A)), (LT (length A) (length (lines r))), (LE _ (length (lines r))), (LT i), (LE j) by lia.
      rewrite (NE l) by (intros ->; cbn in Hi; lia). rewrite (NE l' Nl'). cbn [andb negb]. rewrite orb_true_r.
      rewrite (LT 0 (length A + length M + 2)) by lia. cbn [andb].
      set (size := length (lines r)) in *.
      assert (S1 : forall B D, l :: M ++ l' :: C = B ++ D -> D <> [] -> sub_route2 r (length A) (length A + length B) = Ok (of_lines B)).
      { intros B D E' N'. apply (proj1 (C48_sub_lines r _ _) A B D); auto; [rewrite E, E'; reflexivity|destruct B; [exact N'|discriminate]]. }
      assert (S2 : forall B D, M ++ l' :: C = B ++ D -> sub_route2 r (length A + 1) (length A + 1 + length B) = Ok (of_lines B)).
      { intros B D E'. apply (proj1 (C48_sub_lines r _ _) (A ++ [l]) B D).
        - rewrite E, E', <- app_assoc. reflexivity.
        - rewrite app_length. reflexivity.
        - rewrite app_length. reflexivity.
        - rewrite <- E'. destruct M; discriminate. }
      destruct (Nat.ltb_spec 0 i) as [Hi0|Hi0].
      + rewrite SUB by lia. cbn [bindO]. rewrite (firstn_all2 (n := length l - i)) by (rewrite skipn_length; lia).
        destruct (Nat.ltb_spec j (length l')) as [Hj0|Hj0].
        * replace (length A + length M + 2 - 1) with (length A + 1 + length M) by lia. rewrite (S2 M (l' :: C) eq_refl). cbn [bindO].
          assert (j <> 0) by (intros ->; apply MV in Ml'; cbn in Ml'; congruence).
          rewrite SUB by (destruct l'; cbn in *; try congruence; lia). rewrite Nat.sub_0_r. cbn [skipn bindO app].
          pose proof (merge_moves [[skipn i l]; M; [firstn j l']]) as G. cbn [map concat app] in G. rewrite ?app_nil_r in G. apply G; [|discriminate].
          repeat constructor; auto.
        * rewrite (LT (length A + 1)) by lia. replace (length A + length M + 2) with (length A + 1 + length (M ++ [l'])) by (rewrite app_length; cbn; lia).
          rewrite (S2 (M ++ [l']) C) by (rewrite <- app_assoc; reflexivity). cbn [bindO app]. replace (firstn j l') with l' in * by (rewrite firstn_all2 by lia; reflexivity).
          pose proof (merge_moves [[skipn i l]; M ++ [l']]) as G. cbn [map concat app] in G. rewrite ?app_nil_r in G. apply G; [|discriminate].
          repeat constructor; auto. apply Forall_app. auto.
      + assert (i = 0) by lia. subst i. cbn [skipn] in *. cbn [bindO].
        destruct (Nat.ltb_spec j (length l')) as [Hj0|Hj0].
        * replace (length A + length M + 2 - 1) with (length A + length (l :: M)) by (cbn; lia). rewrite (S1 (l :: M) (l' :: C) eq_refl) by discriminate. cbn [bindO].
          assert (j <> 0) by (intros ->; apply MV in Ml'; cbn in Ml'; congruence).
          rewrite SUB by (destruct l'; cbn in *; try congruence; lia). rewrite Nat.sub_0_r. cbn [skipn bindO app].
          pose proof (merge_moves [l :: M; [firstn j l']]) as G. cbn [map concat app] in G. rewrite ?app_nil_r in G. apply G; [|discriminate].
          repeat constructor; auto.
        * rewrite (LT (length A)) by lia. replace (length A + length M + 2) with (length A + length (l :: M ++ [l'])) by (cbn; rewrite app_length; cbn; lia).
          replace (firstn j l') with l' in * by (rewrite firstn_all2 by lia; reflexivity).
          assert (G0 : sub_route2 r (length A) (length A + length (l :: M ++ [l'])) = Ok (of_lines (l :: M ++ [l']))).
          { apply (proj1 (C48_sub_lines r _ _) A (l :: M ++ [l']) C); auto; [|discriminate]. rewrite E. cbn [app]. rewrite <- app_assoc. reflexivity. }
          rewrite G0. cbn [bindO app].
          pose proof (merge_moves [l :: M ++ [l']]) as G. cbn [map concat app] in G. rewrite ?app_nil_r in G. apply G; [|discriminate].
          repeat constructor; auto. apply Forall_app. auto.
    - intros A l C j E Hj Ml. assert (Nl : l <> []) by (intros ->; rewrite firstn_nil in Ml; apply MV in Ml; congruence).
      unfold sub_route4. cbv zeta. rewrite Nat.add_sub.
      assert (Len : length (lines r) = length A + 1 + length C) by (rewrite E, app_length; cbn; lia).
      assert (N1 : nth (length A) (lines r) [] = l) by (rewrite E; apply NM).
      rewrite N1, (LE (length A)), (LT (length A) (length (lines r))), (LE _ (length (lines r))), (LE j) by lia.
      rewrite (LT 0 (length l)) by (destruct l; [congruence|cbn; lia]). rewrite (NE l Nl). cbn [andb negb]. rewrite orb_true_r, (LT 0 (length A + 1)) by lia. cbn [bindO andb app].
      destruct (Nat.ltb_spec j (length l)) as [Hj0|Hj0].
      + assert (G0 : sub_route2 r (length A) (length A) = Ok (of_lines [])).
        { apply (proj1 (C48_sub_lines r _ _) A [] (l :: C)); auto; try (cbn; lia); discriminate. }
        change (Nat.ltb 0 0) with false. cbv iota. rewrite G0. cbn [bindO]. assert (j <> 0) by (intros ->; apply MV in Ml; cbn in Ml; congruence).
        rewrite SUB by lia. rewrite Nat.sub_0_r. cbn [skipn bindO].
        pose proof (merge_moves [[]; [firstn j l]]) as G. cbn [map concat app] in G. apply G; [|discriminate]. repeat constructor; auto.
      + change (Nat.ltb 0 0) with false. cbv iota. rewrite (LT (length A)) by lia.
        replace (firstn j l) with l in * by (rewrite firstn_all2 by lia; reflexivity).
        assert (G0 : sub_route2 r (length A) (length A + 1) = Ok (of_lines [l])).
        { apply (proj1 (C48_sub_lines r _ _) A [l] C); auto; discriminate. }
        rewrite G0. cbn [bindO]. pose proof (merge_moves [[l]]) as G. cbn [map concat app] in G. apply G; [|discriminate]. repeat constructor; auto.
    - intros A l C i E Hi Ml. assert (Nl : l <> []) by (intros ->; rewrite skipn_nil in Ml; apply MV in Ml; congruence).
      unfold sub_route4. cbv zeta. rewrite Nat.add_sub.
      assert (Len : length (lines r) = length A + 1 + length C) by (rewrite E, app_length; cbn; lia).
      assert (N1 : nth (length A) (lines r) [] = l) by (rewrite E; apply NM).
      rewrite N1, (LE (length A)), (LT (length A) (length (lines r))), (LE _ (length (lines r))), (LE (length l)), (LT i) by lia.
      rewrite (NE l Nl). cbn [andb negb]. rewrite orb_true_r, (LT 0 (length A + 1)) by lia. rewrite (GE (length l) (length l)) by lia. cbn [andb].
      destruct (Nat.ltb_spec 0 i) as [Hi0|Hi0].
      + rewrite SUB by lia. cbn [bindO]. rewrite (firstn_all2 (n := length l - i)) by (rewrite skipn_length; lia).
        destruct (Nat.ltb_spec (length A + 1) (length (lines r))) as [Hs|Hs].
        * assert (G0 : sub_route2 r (length A + 1) (length A + 1) = Ok (of_lines [])).
          { apply (proj1 (C48_sub_lines r _ _) (A ++ [l]) [] C); [rewrite E, <- app_assoc; reflexivity|rewrite app_length; reflexivity|rewrite app_length; cbn; lia|].
            destruct C; [cbn in Len; lia|discriminate]. }
          rewrite G0. cbn [bindO app]. pose proof (merge_moves [[skipn i l]; []]) as G. cbn [map concat app] in G. apply G; [|discriminate]. repeat constructor; auto.
        * cbn [bindO app]. pose proof (merge_moves [[skipn i l]]) as G. cbn [map concat app] in G. apply G; [|discriminate]. repeat constructor; auto.
      + assert (i = 0) by lia. subst i. cbn [skipn bindO] in *. rewrite (LT (length A)) by lia.
        assert (G0 : sub_route2 r (length A) (length A + 1) = Ok (of_lines [l])).
        { apply (proj1 (C48_sub_lines r _ _) A [l] C); auto; discriminate. }
        rewrite G0. cbn [bindO app]. pose proof (merge_moves [[l]]) as G. cbn [map concat app] in G. apply G; [|discriminate]. repeat constructor; auto.
    - intros from from_pos to to_pos H. unfold sub_route4. cbv zeta.
      destruct (Nat.leb_spec from to); [|reflexivity]. destruct (Nat.ltb_spec from (length (lines r))); [|reflexivity].
      destruct (Nat.leb_spec to (length (lines r))); [|reflexivity]. cbn [andb].
      destruct (Nat.ltb_spec from_pos (length (nth from (lines r) []))); [|rewrite andb_false_r; reflexivity].
      destruct (Nat.eqb_spec to 0) as [->|N0]; [lia|]. cbn [orb].
      assert (X : negb (is_empty (nth (to - 1) (lines r) [])) && (to_pos <=? length (nth (to - 1) (lines r) [])) = false).
      { destruct H as [H|[H|[H|[H|[_ [H|H]]]]]]; try lia; [rewrite H; reflexivity|].
        destruct (Nat.leb_spec to_pos (length (nth (to - 1) (lines r) []))); [lia|apply andb_false_r]. }
      rewrite X, andb_false_r. reflexivity.
  Qed.

  (** **** A part of a route strictly inside one of its lines cannot be had: [sub_route] raises. *)
  Theorem C48_sub_route_refuted r i j j' : j' <= length (nth i (lines r) []) -> 0 < j -> j' < length (nth i (lines r) []) ->
    exists t, sub_route4 eqp r i j (i + 1) j' = Throw t.
  Proof.
    intros H1 H2 H3. unfold sub_route4. cbv zeta. rewrite Nat.add_sub.
    match goal with |- exists t, (if ?c then _ else _) = _ => destruct c eqn:C end; [|eauto].
    replace (0 <? j) with true by (symmetry; apply Nat.ltb_lt; lia).
    destruct (sub_line (nth i (lines r) []) j (length (nth i (lines r) []))) as [l|l| |] eqn:S; cbn [bindO]; [|eauto| |]; try (unfold sub_line in S; destruct (_ && _) in S; discriminate).
    replace (0 <? i + 1) with true by (symmetry; apply Nat.ltb_lt; lia). replace (j' <? length (nth i (lines r) [])) with true by (symmetry; apply Nat.ltb_lt; lia). cbn [andb].
    unfold sub_route2. replace (i + 1 <=? i) with false by (symmetry; apply Nat.leb_gt; lia). cbn [andb bindO]. eauto.
  Qed.
End C48.

(** *** a concrete instance: points are numbers, the distance is the absolute difference *)
Definition zdist (a b : Z) : Z := Z.abs (a - b).
Definition zopp (s t : Z * Z) : bool := ((snd s - fst s) * (snd t - fst t) <? 0)%Z.
Definition route_a : @route Z := of_lines [[1; 2]; [2; 5; 7]; [7; 7; 9]]%Z.
Definition route_b : @route Z := of_lines [[9; 7]; [7; 5; 4; 0]; [0; -3]]%Z.

Example C48_demo_length : route_length Z.eqb 0%Z Z.add zdist route_a = Ok 8%Z /\ route_length Z.eqb 0%Z Z.add zdist (of_lines [[4; 4]; []; [4]]%Z) = Throw 0%Z.
Proof. split; reflexivity. Qed.
Example C48_demo_connected : is_connected Z.eqb (of_lines [[1; 2]; []; [5; 7]; [7]; [7; 9]]%Z) = true /\ is_connected Z.eqb (of_lines [[1; 2]; [3; 4]; [4; 9]]%Z) = false.
Proof. split; reflexivity. Qed.
Example C48_demo_attaches : route_attaches Z.eqb route_a route_b = true /\ route_attaches Z.eqb route_a route_a = false
  /\ route_attaches Z.eqb (of_lines [[1; 2]; []]%Z) route_a = true /\ route_attaches Z.eqb route_a (flagged true) = false.
Proof. repeat split. Qed.
Example C48_demo_sub_route : sub_route4 Z.eqb route_b 0 0 2 3 = Ok (of_lines [[9; 7]; [7; 5; 4]]%Z)
  /\ sub_route4 Z.eqb route_b 1 1 3 2 = Ok (of_lines [[5; 4; 0]; [0; -3]]%Z) /\ sub_route4 Z.eqb route_b 1 2 2 4 = Ok (of_lines [[4; 0]]%Z)
  /\ sub_route4 Z.eqb route_b 1 4 3 2 = Throw route_b /\ sub_route2 route_b 1 3 = Ok (of_lines [[7; 5; 4; 0]; [0; -3]]%Z) /\ sub_route2 route_b 3 3 = Throw route_b.
Proof. repeat split. Qed.
Example C48_demo_merge : kept [route_a; flagged true; of_lines [[9; 9]]%Z; route_b] [route_a; route_b]
  /\ merge Z.eqb [route_a; flagged true; of_lines [[9; 9]]%Z; route_b] false false = Ok (of_lines ([[1; 2]; [2; 5; 7]; [7; 7; 9]; [9; 7]; [7; 5; 4; 0]; [0; -3]]%Z)).
Proof.
  split; [|reflexivity]. apply (proj2 (kept_filter Z.eqb Z.eqb_eq zopp _ _)). reflexivity.
Qed.
Example C48_demo_gap : merge Z.eqb [of_lines [[1; 2]]; of_lines [[4; 5]]]%Z true false = Ok (of_lines [[1; 2]; [2; 4]; [4; 5]])%Z
  /\ merge Z.eqb [of_lines [[1; 2]]; of_lines [[4; 5]]]%Z false true = Throw (of_lines [[1; 2]])%Z.
Proof. split; reflexivity. Qed.
Example C48_demo_path : path 1%Z (lines route_a) 9%Z /\ path 9%Z (lines route_b) (-3)%Z.
Proof. split; repeat (eapply path_cons; [reflexivity|]); apply path_nil. Qed.
Example C48_demo_line : get_rich_line Z.eqb route_a = Ok [1; 2; 5; 7; 7; 9]%Z /\ get_multi_rich_line Z.eqb (of_lines [[1; 2]; []; [2; 3]; [5; 6]]%Z) = Ok [[1; 2; 3]; [5; 6]]%Z.
Proof. split; reflexivity. Qed.
(** the way there and back between 5 and 9 is left out; at 5 the directions are still opposite *)
Example C48_demo_trim : trim_merge Z.eqb zopp 20 route_a route_b = Ok (of_lines [[1; 2]; [2; 4]; [4; 0]; [0; -3]]%Z)
  /\ trim_merge Z.eqb (fun _ _ => false) 20 route_a route_b = Ok (of_lines [[1; 2]; [2; 5]; [5; 4; 0]; [0; -3]]%Z)
  /\ extract_return_line Z.eqb 20 route_a route_b true = Ok [5; 7; 7; 9]%Z.
Proof. repeat split; vm_compute; reflexivity. Qed.
Example C48_demo_join : join Z.eqb zopp route_a route_b false = (of_lines [[1; 2]; [2; 5; 7]; [7; 7; 7]]%Z, of_lines [[7; 5; 4; 0]; [0; -3]]%Z).
Proof. reflexivity. Qed.

(** **** With an empty line at the joint, [attaches] says yes without comparing anything, but the search of the return line then compares
    with the line before: routes that are apart are not rejected as such, [trim_merge] raises [out_of_range]. *)
Theorem C48_trim_empty_refuted : exists r o : @route Z, invalid r = false /\ invalid o = false /\ is_connected Z.eqb r = true /\ is_connected Z.eqb o = true
  /\ route_attaches Z.eqb r o = true /\ get_rich_line Z.eqb r = Ok [1; 2]%Z /\ get_rich_line Z.eqb o = Ok [3; 4]%Z
  /\ exists t, trim_merge Z.eqb zopp 20 r o = Throw t.
Proof.
  exists (of_lines [[1; 2]; []]%Z), (of_lines [[3; 4]]%Z). repeat (split; [reflexivity|]). eexists. vm_compute. reflexivity.
Qed.

Print Assumptions C48_connected.
Print Assumptions C48_attaches.
Print Assumptions C48_sub_lines.
Print Assumptions C48_sub_route.
Print Assumptions C48_length.
Print Assumptions C48_merge.
Print Assumptions C48_merge_connect.
Print Assumptions C48_merge_except.
Print Assumptions C48_merge_attached.
Print Assumptions C48_line.
Print Assumptions C48_line_attached.
Print Assumptions C48_multi_line.
Print Assumptions C48_join.
Print Assumptions C48_trim.
Print Assumptions C48_return_line.
Print Assumptions C48_sub_route_refuted.
Print Assumptions C48_trim_empty_refuted.
