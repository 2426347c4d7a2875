(** Lemmas about routes, used in [RouteProps.v]. *)
From Verif Require Import Base ListAux RichLine Route.

Section Proofs.
  Context {P L : Type}.
  Variable eqp : P -> P -> bool.
  Hypothesis eqp_eq : forall a b, eqp a b = true <-> a = b.
  Variable zeroL : L.
  Variable addL : L -> L -> L.
  Variable dist : P -> P -> L.
  Hypothesis add_assoc : forall a b c, addL a (addL b c) = addL (addL a b) c.
  Hypothesis add_0_l : forall a, addL zeroL a = a.
  Hypothesis add_0_r : forall a, addL a zeroL = a.
  Variable opposite : P * P -> P * P -> bool.

  Lemma eqp_refl a : eqp a a = true. Proof. apply eqp_eq. reflexivity. Qed.
  Lemma eqp_false a b : eqp a b = false <-> a <> b.
  Proof. rewrite <- (eqp_eq a b). destruct (eqp a b); split; congruence. Qed.
  Lemma eqp_dec (a b : P) : a = b \/ a <> b.
  Proof. destruct (eqp a b) eqn:E; [left; apply eqp_eq, E|right; apply eqp_false, E]. Qed.

  (** the way along a line, and along several *)
  Fixpoint way (l : list P) : L :=
    match l with
    | a :: ((b :: _) as r) => if eqp a b then way r else addL (dist a b) (way r)
    | _ => zeroL
    end.
  Definition total (ls : list (list P)) : L := fold_right (fun l x => addL (way l) x) zeroL ls.
  (** two neighbours differ somewhere *)
  Definition moves (l : list P) : Prop := exists u a b v, l = u ++ a :: b :: v /\ a <> b.

  Lemma total_app a b : total (a ++ b) = addL (total a) (total b).
  Proof. induction a as [|l a IH]; [symmetry; apply add_0_l|]. change (addL (way l) (total (a ++ b)) = addL (addL (way l) (total a)) (total b)). rewrite IH. apply add_assoc. Qed.

  Lemma moving_spec l : moving eqp l = true <-> moves l.
  Proof.
    unfold moving. induction l as [|a [|b r] IH].
    - split; [discriminate|]. intros (u & a & b & v & E & _). destruct u; discriminate.
    - split; [discriminate|]. intros (u & x & y & v & E & _). destruct u as [|? [|? ?]]; discriminate.
    - cbn [segments existsb fst snd]. rewrite orb_true_iff, IH, negb_true_iff, eqp_false. split.
      + intros [H|(u & x & y & v & E & N)]; [exists [], a, b, r; auto|]. exists (a :: u), x, y, v. rewrite E. auto.
      + intros (u & x & y & v & E & N). destruct u as [|z u]; [injection E as -> -> ->; auto|]. injection E as -> E. right. exists u, x, y, v. auto.
  Qed.
  Lemma way_still l : moving eqp l = false -> way l = zeroL.
  Proof.
    induction l as [|a [|b r] IH]; intros H; [reflexivity|reflexivity|]. unfold moving in *. cbn [segments existsb fst snd] in H. apply orb_false_iff in H.
    destruct H as [H1 H2]. apply negb_false_iff in H1. change (way (a :: b :: r)) with (if eqp a b then way (b :: r) else addL (dist a b) (way (b :: r))). rewrite H1. apply IH, H2.
  Qed.
  Lemma plain_length_spec l : plain_length eqp dist addL zeroL l = if moving eqp l then Ok (way l) else Throw zeroL.
  Proof.
    unfold plain_length. assert (G : forall l has acc, plain_length_loop eqp dist addL zeroL (segments l) has acc
      = if has || moving eqp l then Ok (addL acc (way l)) else Throw zeroL).
    { clear l. intros l. induction l as [|a [|b r] IH]; intros has acc.
      - cbn. rewrite add_0_r, orb_false_r. reflexivity.
      - cbn. rewrite add_0_r, orb_false_r. reflexivity.
      - change (segments (a :: b :: r)) with ((a, b) :: segments (b :: r)). cbn [plain_length_loop].
        change (way (a :: b :: r)) with (if eqp a b then way (b :: r) else addL (dist a b) (way (b :: r))).
        change (moving eqp (a :: b :: r)) with (negb (eqp a b) || moving eqp (b :: r)). destruct (eqp a b); cbn [negb orb]; [apply IH|].
        rewrite IH. rewrite orb_true_r. cbn [orb]. rewrite add_assoc. reflexivity. }
    rewrite G. cbn [orb]. rewrite add_0_l. reflexivity.
  Qed.

  Lemma add_line_spec l acc : add_line eqp zeroL addL dist l acc = (fst acc || moving eqp l, addL (snd acc) (way l)).
  Proof.
    unfold add_line. rewrite plain_length_spec. destruct acc as [h x]. cbn [fst snd]. destruct (moving eqp l) eqn:M; [rewrite orb_true_r; reflexivity|].
    rewrite orb_false_r, (way_still l M), add_0_r. reflexivity.
  Qed.
  Lemma length_loop_spec ls : forall acc, 2 <= length ls ->
    length_loop eqp zeroL addL dist ls acc = (fst acc || existsb (moving eqp) ls, addL (snd acc) (total ls)).
  Proof.
    induction ls as [|a [|b [|c r]] IH]; intros acc H; cbn [length] in H; try lia.
    - cbn [length_loop]. rewrite !add_line_spec. cbn [fst snd existsb total fold_right]. rewrite orb_false_r, add_0_r, orb_assoc, add_assoc. reflexivity.
    - change (length_loop eqp zeroL addL dist (b :: c :: r) (add_line eqp zeroL addL dist a acc) = (fst acc || existsb (moving eqp) (a :: b :: c :: r), addL (snd acc) (total (a :: b :: c :: r)))). rewrite IH by (cbn; lia). rewrite add_line_spec. cbn [fst snd existsb total fold_right]. rewrite !orb_assoc, !add_assoc. reflexivity.
  Qed.
  Lemma route_length_spec r : route_length eqp zeroL addL dist r = if existsb (moving eqp) (lines r) then Ok (total (lines r)) else Throw zeroL.
  Proof.
    unfold route_length. destruct (lines r) as [|a [|b ls]].
    - reflexivity.
    - rewrite plain_length_spec. cbn. rewrite orb_false_r, add_0_r. destruct (moving eqp a); reflexivity.
    - rewrite length_loop_spec by (cbn; lia). cbn [fst snd orb]. rewrite add_0_l. reflexivity.
  Qed.
  Lemma has_length_spec r : has_length eqp zeroL addL dist r = existsb (moving eqp) (lines r).
  Proof.
    assert (H1 : forall l, line_has_length eqp zeroL addL dist l = moving eqp l) by (intros l; unfold line_has_length; rewrite plain_length_spec; destruct (moving eqp l); reflexivity).
    unfold has_length. destruct (lines r) as [|a [|b ls]]; [reflexivity|cbn; rewrite H1, orb_false_r; reflexivity|].
    revert a b. induction ls as [|c ls IH]; intros a b.
    - cbn. rewrite !H1. destruct (moving eqp a), (moving eqp b); reflexivity.
    - specialize (IH b c). cbn [has_length_loop existsb] in *. rewrite H1. destruct (moving eqp a); [reflexivity|]. cbn [orb]. exact IH.
  Qed.

  Lemma mergeable_spec r : mergeable eqp r = negb (invalid r) && existsb (moving eqp) (lines r).
  Proof.
    unfold mergeable. destruct (invalid r); [reflexivity|]. cbn [orb negb andb]. destruct (lines r) as [|l ls] eqn:E; [reflexivity|]. rewrite <- E.
    destruct (forallb (fun l => length l <? 2) (lines r)) eqn:F; [|reflexivity]. symmetry.
    destruct (existsb (moving eqp) (lines r)) eqn:X; [|reflexivity]. apply existsb_exists in X. destruct X as (x & Hx & M). rewrite forallb_forall in F. specialize (F x Hx).
    apply Nat.ltb_lt in F. destruct x as [|? [|? ?]]; cbn in *; try discriminate; lia.
  Qed.

  Lemma total_still ls : existsb (moving eqp) ls = false -> total ls = zeroL.
  Proof. induction ls as [|l ls IH]; cbn; [reflexivity|]. intros H. apply orb_false_iff in H. destruct H as [H1 H2]. rewrite (way_still l H1), add_0_l. apply IH, H2. Qed.

  (** *** merging *)
  Lemma merge_free routes : forall acc, foldO (merge_one eqp false false) routes acc = Ok (acc ++ concat (map lines (filter (mergeable eqp) routes))).
  Proof.
    induction routes as [|r routes IH]; intros acc; cbn [foldO filter map concat]; [rewrite app_nil_r; reflexivity|].
    unfold merge_one at 1. destruct (mergeable eqp r); cbn [map concat]; [|cbn [bindO]; apply IH].
    assert (E : match gap eqp acc r with Some (p, q) => Ok (acc ++ lines r) | None => Ok (acc ++ lines r) end = Ok (acc ++ lines r)) by (destruct (gap eqp acc r) as [[p q]|]; reflexivity).
    rewrite E. cbn [bindO]. rewrite IH, app_assoc. reflexivity.
  Qed.
  Lemma merge_plain routes : merge eqp routes false false =
    Ok (if forallb invalid routes then flagged true else of_lines (concat (map lines (filter (mergeable eqp) routes)))).
  Proof.
    unfold merge. destruct routes as [|r routes]; [reflexivity|]. destruct (forallb invalid (r :: routes)); [reflexivity|]. rewrite merge_free. reflexivity.
  Qed.

  (** *** a list of points without repeating neighbours *)
  Fixpoint dd (l : list P) : list P :=
    match l with
    | a :: ((b :: _) as r) => if eqp a b then dd r else a :: dd r
    | _ => l
    end.
  Lemma dd_cons a b r : dd (a :: b :: r) = if eqp a b then dd (b :: r) else a :: dd (b :: r).
  Proof. reflexivity. Qed.
  Lemma dd_nonempty a r : dd (a :: r) <> [].
  Proof. revert a. induction r as [|b r IH]; intros a; [discriminate|]. rewrite dd_cons. destruct (eqp a b); [apply IH|discriminate]. Qed.
  Lemma dd_app_nonempty u p v : dd (u ++ p :: v) <> [].
  Proof. destruct u; apply dd_nonempty. Qed.
  Lemma dd_split u p v : dd (u ++ p :: v) = removelast (dd (u ++ [p])) ++ dd (p :: v).
  Proof.
    induction u as [|a u IH]; [reflexivity|]. cbn [app].
    assert (H : exists h r r', u ++ p :: v = h :: r /\ u ++ [p] = h :: r') by (destruct u as [|h u]; [exists p, v, []|exists h, (u ++ p :: v), (u ++ [p])]; auto).
    destruct H as (h & r & r' & E1 & E2). rewrite E1, E2 in *. rewrite !dd_cons. destruct (eqp a h); [exact IH|]. rewrite IH.
    destruct (dd (h :: r')) as [|x y] eqn:D; [exfalso; exact (dd_nonempty h r' D)|]. reflexivity.
  Qed.
  Lemma dd_last u p : dd (u ++ [p]) = removelast (dd (u ++ [p])) ++ [p].
  Proof. exact (dd_split u p []). Qed.
  Lemma dd_hd p v : exists w, dd (p :: v) = p :: w.
  Proof. revert p. induction v as [|b v IH]; intros p; [exists []; reflexivity|]. rewrite dd_cons. destruct (eqp p b) eqn:E; [apply eqp_eq in E; subst b; apply IH|eexists; reflexivity]. Qed.
  Lemma dd_repeat_l p n v : dd (repeat p n ++ p :: v) = dd (p :: v).
  Proof.
    induction n as [|n IH]; [reflexivity|]. cbn [repeat app]. destruct n as [|n]; cbn [repeat app] in *; rewrite dd_cons, eqp_refl; [reflexivity|exact IH].
  Qed.
  Lemma dd_repeat p n : dd (p :: repeat p n) = [p].
  Proof. rewrite repeat_cons. exact (dd_repeat_l p n []). Qed.
  Lemma dd_twice u p v : dd (u ++ p :: p :: v) = dd (u ++ p :: v).
  Proof. rewrite (dd_split u p (p :: v)), (dd_split u p v), dd_cons, eqp_refl. reflexivity. Qed.
  Lemma dd_neq u x p v : x <> p -> dd (u ++ x :: p :: v) = dd (u ++ [x]) ++ dd (p :: v).
  Proof. intros H. rewrite dd_split, dd_cons, (proj2 (eqp_false _ _) H). rewrite (dd_last u x), removelast_last, <- app_assoc. reflexivity. Qed.

  (** *** connected lines from a point to a point *)
  Inductive path : P -> list (list P) -> P -> Prop :=
  | path_nil p : path p [] p
  | path_cons p t q ls e : last (p :: t) p = q -> path q ls e -> path p ((p :: t) :: ls) e.

  Lemma path_app p a b q : path p (a ++ b) q <-> exists r, path p a r /\ path r b q.
  Proof.
    revert p. induction a as [|l a IH]; intros p; cbn [app].
    - split; [intros H; exists p; split; [constructor|exact H]|]. intros (r & H1 & H2). inversion H1; subst. exact H2.
    - split.
      + intros H. inversion H; subst. destruct (proj1 (IH _) H5) as (r & H1 & H2). exists r. split; [constructor 2 with (q := last (p :: t) p); auto|exact H2].
      + intros (r & H1 & H2). inversion H1; subst. econstructor; [reflexivity|]. apply IH. exists r. auto.
  Qed.
  Lemma path_one p u q : path p [u ++ [q]] q <-> hd_error (u ++ [q]) = Some p.
  Proof.
    destruct u as [|a u]; cbn [app hd_error].
    - split; [intros H; inversion H; reflexivity|]. intros E. injection E as ->. econstructor; [reflexivity|constructor].
    - split; [intros H; inversion H; reflexivity|]. intros E. injection E as ->. econstructor; [|constructor]. change (p :: u ++ [q]) with ((p :: u) ++ [q]). apply last_last.
  Qed.
  Lemma path_points p ls q : path p ls q -> (ls = [] /\ p = q) \/ (exists u, concat ls = u ++ [q]) .
  Proof.
    intros H. induction H as [p|p t q ls e E H IH]; [left; auto|right]. destruct IH as [[-> ->]|[u U]].
    - cbn. rewrite app_nil_r. exists (removelast (p :: t)). rewrite <- E. apply (app_removelast_last p). discriminate.
    - cbn [concat]. rewrite U. exists ((p :: t) ++ u). rewrite app_assoc. reflexivity.
  Qed.
  Lemma path_points' p ls q : path p ls q -> exists u, p :: concat ls = u ++ [q].
  Proof. intros H. destruct (path_points p ls q H) as [[-> ->]|[u U]]; [exists []; reflexivity|exists (p :: u); cbn; rewrite U; reflexivity]. Qed.
  Lemma path_hd p ls q : path p ls q -> ls = [] \/ exists t, concat ls = p :: t.
  Proof. intros H. inversion H; subst; [left; reflexivity|right; eexists; reflexivity]. Qed.
  Lemma path_nonempty p ls q : path p ls q -> Forall (fun l => is_empty l = false) ls.
  Proof. intros H. induction H; constructor; auto. Qed.

  (** the way it takes, repeating neighbours left out *)
  Definition poly (p : P) (ls : list (list P)) : list P := dd (p :: concat ls).
  Lemma poly_app p a r b : path p a r -> poly p (a ++ b) = removelast (poly p a) ++ poly r b.
  Proof.
    intros H. unfold poly. rewrite concat_app, app_comm_cons. destruct (path_points' p a r H) as [u U]. rewrite U, <- app_assoc. cbn [app]. rewrite dd_split. reflexivity.
  Qed.
  Lemma poly_concat p ls q : path p ls q -> ls <> [] -> poly p ls = dd (concat ls).
  Proof. intros H N. destruct (path_hd p ls q H) as [->|[t T]]; [congruence|]. unfold poly. rewrite T, dd_cons, eqp_refl. reflexivity. Qed.

  Lemma still_repeat p t : moving eqp (p :: t) = false -> t = repeat p (length t).
  Proof.
    revert p. induction t as [|b t IH]; intros p H; [reflexivity|]. unfold moving in *. cbn [segments existsb fst snd] in H. apply orb_false_iff in H. destruct H as [H1 H2].
    apply negb_false_iff, eqp_eq in H1. subst b. cbn. f_equal. apply IH, H2.
  Qed.
  Lemma path_still p ls q : path p ls q -> existsb (moving eqp) ls = false -> p = q /\ poly p ls = [p].
  Proof.
    intros H. induction H as [p|p t q ls e E H IH]; intros M; [split; reflexivity|]. cbn [existsb] in M. apply orb_false_iff in M. destruct M as [M1 M2].
    apply still_repeat in M1. assert (Q : q = p) by (rewrite <- E, M1; clear; induction (length t) as [|n IH]; [reflexivity|]; cbn [repeat]; destruct n; [reflexivity|exact IH]). clear E.
    destruct (IH M2) as [Q1 P1]. assert (Q2 : p = e) by congruence. clear IH Q1. rewrite Q, Q2 in *. clear q p Q Q2. split; [reflexivity|]. unfold poly in *. cbn [concat app].
    rewrite dd_cons, eqp_refl. rewrite M1. change (e :: repeat e (length t) ++ concat ls) with (repeat e (S (length t)) ++ concat ls).
    destruct (concat ls) as [|c cs] eqn:C; [rewrite app_nil_r; apply dd_repeat|]. inversion H; subst; [discriminate|]. cbn [concat app] in C. injection C as -> _.
    rewrite dd_repeat_l. rewrite dd_cons, eqp_refl in P1. exact P1.
  Qed.

  Lemma drop_still p a q : path p a q -> path p (if existsb (moving eqp) a then a else []) q /\ poly p (if existsb (moving eqp) a then a else []) = poly p a.
  Proof.
    intros H. destruct (existsb (moving eqp) a) eqn:M; [auto|]. destruct (path_still p a q H M) as [-> E]. split; [constructor|]. rewrite E. reflexivity.
  Qed.
  Lemma path_filtered routes : forall p q, forallb (fun r => negb (invalid r)) routes = true -> path p (concat (map lines routes)) q ->
    path p (concat (map lines (filter (mergeable eqp) routes))) q
    /\ poly p (concat (map lines (filter (mergeable eqp) routes))) = poly p (concat (map lines routes)).
  Proof.
    induction routes as [|r routes IH]; intros p q V H; cbn [filter map concat] in *; [auto|].
    cbn [forallb] in V. apply andb_true_iff in V. destruct V as [V1 V2]. apply path_app in H. destruct H as (m & H1 & H2).
    destruct (IH m q V2 H2) as [I1 I2]. destruct (drop_still p (lines r) m H1) as [D1 D2].
    assert (E : concat (map lines (if mergeable eqp r then r :: filter (mergeable eqp) routes else filter (mergeable eqp) routes))
                = (if existsb (moving eqp) (lines r) then lines r else []) ++ concat (map lines (filter (mergeable eqp) routes))).
    { rewrite mergeable_spec, V1. cbn [andb]. destruct (existsb (moving eqp) (lines r)); reflexivity. }
    rewrite E. split; [apply path_app; exists m; auto|]. rewrite (poly_app p _ m _ D1), (poly_app p _ m _ H1), D2, I2. reflexivity.
  Qed.
  Lemma merge_path routes p q : routes <> [] -> forallb (fun r => negb (invalid r)) routes = true -> path p (concat (map lines routes)) q ->
    exists t, merge eqp routes false false = Ok t /\ invalid t = false /\ path p (lines t) q /\ poly p (lines t) = poly p (concat (map lines routes)).
  Proof.
    intros N V H. rewrite merge_plain. destruct routes as [|r routes]; [congruence|].
    assert (F : forallb invalid (r :: routes) = false) by (cbn [forallb] in *; destruct (invalid r); [discriminate|reflexivity]).
    rewrite F. eexists. split; [reflexivity|]. split; [reflexivity|]. exact (path_filtered _ p q V H).
  Qed.

  (** *** positions *)
  Definition loc (ls : list (list P)) (pos : nat * nat) (X : list P) (p : P) (Y : list P) : Prop :=
    exists A u v B, ls = A ++ (u ++ p :: v) :: B /\ pos = (length A, length u) /\ X = concat A ++ u /\ Y = v ++ concat B.
  Lemma loc_concat ls pos X p Y : loc ls pos X p Y -> concat ls = X ++ p :: Y.
  Proof. intros (A & u & v & B & -> & _ & -> & ->). rewrite concat_app. cbn [concat]. rewrite <- !app_assoc. reflexivity. Qed.
  Lemma loc_at ls pos X p Y : loc ls pos X p Y -> at_pos ls pos = Some p.
  Proof.
    intros (A & u & v & B & -> & -> & _ & _). unfold at_pos. cbn [fst snd]. rewrite nth_error_app2, Nat.sub_diag by lia. cbn. rewrite nth_error_app2, Nat.sub_diag by lia. reflexivity.
  Qed.
  Lemma nth_mid {T} (a : list T) x b d : nth (length a) (a ++ x :: b) d = x.
  Proof. rewrite app_nth2, Nat.sub_diag by lia. reflexivity. Qed.
  Lemma is_empty_app (u : list P) p v : is_empty (u ++ p :: v) = false.
  Proof. destruct u; reflexivity. Qed.
  Lemma skip_back_eq (ls : list (list P)) i : skip_back ls i = if is_empty (nth i ls []) then match i with 0 => None | S j => skip_back ls j end else Some (i, length (nth i ls []) - 1).
  Proof. destruct i; reflexivity. Qed.
  Lemma skip_back_spec (A : list (list P)) : forall B, match concat A with [] => A = [] \/ skip_back (A ++ B) (length A - 1) = None | _ => exists pos X x Y', skip_back (A ++ B) (length A - 1) = Some pos
      /\ concat A = X ++ [x] /\ Y' = concat B /\ loc (A ++ B) pos X x Y' end.
  Proof.
    induction A as [|l A IH] using rev_ind; intros B; [left; reflexivity|]. rewrite concat_app. cbn [concat]. rewrite app_nil_r.
    rewrite app_length, <- app_assoc. cbn [length app]. replace (length A + 1 - 1) with (length A) by lia.
    assert (G : is_empty l = true -> skip_back (A ++ l :: B) (length A) = match length A with 0 => None | S j => skip_back (A ++ l :: B) j end).
    { intros E. rewrite skip_back_eq, nth_mid, E. reflexivity. }
    destruct (is_empty l) eqn:El.
    - destruct l; [|discriminate]. specialize (G eq_refl). rewrite app_nil_r. specialize (IH ([] :: B)). destruct (concat A) as [|c cs] eqn:C.
      + right. rewrite G. destruct IH as [->|IH]; [reflexivity|]. destruct (length A) as [|n] eqn:EL; [reflexivity|]. replace (S n - 1) with n in IH by lia. exact IH.
      + destruct IH as (pos & X & x & Y' & H1 & H2 & H3 & H4). exists pos, X, x, Y'. rewrite G. destruct (length A) as [|n] eqn:EL; [destruct A; [discriminate C|discriminate EL]|].
        replace (S n - 1) with n in H1 by lia. auto.
    - destruct (@exists_last _ l) as (u & x & ->); [destruct l; discriminate|]. rewrite app_assoc.
      destruct ((concat A ++ u) ++ [x]) eqn:E; [destruct (concat A ++ u); discriminate|]. rewrite <- E. clear E p l.
      exists (length A, length u), (concat A ++ u), x, (concat B). split; [|split; [reflexivity|split; [reflexivity|exists A, u, [], B; auto]]].
      rewrite skip_back_eq, nth_mid, is_empty_app, app_length. cbn [length]. rewrite Nat.add_sub. reflexivity.
  Qed.
  Lemma skip_forward_spec (B : list (list P)) : forall k, match concat B with [] => skip_forward B k = None | y :: Y' => exists C v D, skip_forward B k = Some (k + length C, 0)
      /\ B = C ++ (y :: v) :: D /\ concat C = [] /\ Y' = v ++ concat D end.
  Proof.
    induction B as [|l B IH]; intros k; [reflexivity|]. cbn [concat skip_forward]. destruct l as [|y v]; cbn [is_empty app].
    - specialize (IH (S k)). destruct (concat B) as [|y Y']; [exact IH|]. destruct IH as (C & v & D & H1 & H2 & H3 & H4). exists ([] :: C), v, D. rewrite H1, H2. cbn [length app concat]. rewrite Nat.add_succ_r. auto.
    - exists [], v, B. cbn. rewrite Nat.add_0_r. auto.
  Qed.
  Lemma prev_none ls pos p Y : loc ls pos [] p Y -> prev_pos ls pos = None.
  Proof.
    intros (A & u & v & B & -> & -> & E & ->). symmetry in E. apply app_eq_nil in E. destruct E as [E ->]. unfold prev_pos. cbn [length Nat.ltb Nat.leb].
    pose proof (skip_back_spec A (([] ++ p :: v) :: B)) as SB. rewrite E in SB. destruct SB as [->|SB]; [reflexivity|]. destruct (length A) as [|n] eqn:EL; [reflexivity|]. replace (S n - 1) with n in SB by lia. exact SB.
  Qed.
  Lemma prev_some ls pos X x p Y : loc ls pos (X ++ [x]) p Y -> exists pos', prev_pos ls pos = Some pos' /\ loc ls pos' X x (p :: Y).
  Proof.
    intros (A & u & v & B & -> & -> & E & ->). unfold prev_pos. 
    destruct u as [|u1 u'].
    - cbn [length Nat.ltb Nat.leb]. rewrite app_nil_r in E. pose proof (skip_back_spec A (([] ++ p :: v) :: B)) as SB. rewrite <- E in SB.
      destruct (X ++ [x]) eqn:EX; [destruct X; discriminate|]. rewrite <- EX in SB. destruct SB as (pos & X' & x' & Y' & S1 & S2 & S3 & S4). apply app_inj_tail in S2. destruct S2 as [<- <-].
      exists pos. split; [|rewrite S3 in S4; exact S4]. destruct (length A) as [|n] eqn:EL; [destruct A; [destruct X; discriminate|discriminate]|]. replace (S n - 1) with n in S1 by lia. exact S1.
    - destruct (@exists_last _ (u1 :: u')) as (w & z & Ew); [discriminate|]. rewrite Ew in *. rewrite app_assoc in E. apply app_inj_tail in E. destruct E as [-> ->].
      rewrite app_length. cbn [length]. replace (0 <? length w + 1) with true by (symmetry; apply Nat.ltb_lt; lia). rewrite Nat.add_sub. eexists. split; [reflexivity|].
      exists A, w, (p :: v), B. rewrite <- app_assoc. auto.
  Qed.
  Lemma skipn_S_app {T} (a : list T) x b : skipn (S (length a)) (a ++ x :: b) = b.
  Proof. change (a ++ x :: b) with (a ++ [x] ++ b). rewrite app_assoc. replace (S (length a)) with (length (a ++ [x])) by (rewrite app_length; cbn; lia). rewrite skipn_app, skipn_all, Nat.sub_diag. reflexivity. Qed.
  Lemma next_none ls pos X p : loc ls pos X p [] -> next_pos ls pos = None.
  Proof.
    intros (A & u & v & B & -> & -> & -> & E). symmetry in E. apply app_eq_nil in E. destruct E as [-> E]. unfold next_pos. rewrite nth_mid, app_length. cbn [length].
    replace (length u <? length u + 1 - 1) with false by (symmetry; apply Nat.ltb_ge; lia). rewrite skipn_S_app. pose proof (skip_forward_spec B (S (length A))) as SB. rewrite E in SB. exact SB.
  Qed.
  Lemma next_some ls pos X p y Y : loc ls pos X p (y :: Y) -> exists pos', next_pos ls pos = Some pos' /\ loc ls pos' (X ++ [p]) y Y.
  Proof.
    intros (A & u & v & B & -> & -> & -> & E). unfold next_pos. rewrite nth_mid, app_length. cbn [length]. destruct v as [|v1 v].
    - cbn [length]. replace (length u <? length u + 1 - 1) with false by (symmetry; apply Nat.ltb_ge; lia). rewrite skipn_S_app.
      pose proof (skip_forward_spec B (S (length A))) as SB. cbn [app] in E. rewrite <- E in SB. destruct SB as (C & w & D & S1 & S2 & S3 & S4). eexists. split; [exact S1|].
      exists (A ++ (u ++ [p]) :: C), [], w, D. rewrite S2, <- app_assoc. split; [reflexivity|]. rewrite app_length. cbn [length]. split; [f_equal; lia|]. split; [|exact S4].
      rewrite concat_app. cbn [concat]. rewrite S3, !app_nil_r, app_assoc. reflexivity.
    - cbn [length app] in *. injection E as <- ->. replace (length u <? length u + S (S (length v)) - 1) with true by (symmetry; apply Nat.ltb_lt; lia). eexists. split; [reflexivity|].
      exists A, (u ++ [p]), v, B. rewrite <- !app_assoc, app_length. auto.
  Qed.

  (** the loops to the next different point *)
  Lemma run_back ls : forall X fuel pos p Y, length X < fuel -> loc ls pos X p Y ->
    exists X1 n pos', X = X1 ++ repeat p n /\ loc ls pos' X1 p (repeat p n ++ Y)
      /\ ((X1 = [] /\ run eqp (prev_pos ls) ls fuel pos p = Ok (pos', None))
          \/ exists X2 x pos'', X1 = X2 ++ [x] /\ x <> p /\ loc ls pos'' X2 x (p :: repeat p n ++ Y) /\ run eqp (prev_pos ls) ls fuel pos p = Ok (pos', Some pos'')).
  Proof.
    intros X. induction X as [|x X IH] using rev_ind; intros fuel pos p Y Hf Hl; (destruct fuel as [|f]; [lia|]).
    - exists [], 0, pos. cbn [repeat app run]. split; [reflexivity|]. split; [exact Hl|]. left. rewrite (prev_none _ _ _ _ Hl). auto.
    - destruct (prev_some _ _ _ _ _ _ Hl) as (q & Hq & Lq). cbn [run]. rewrite Hq, (loc_at _ _ _ _ _ Lq). cbn [derefO]. destruct (eqp x p) eqn:E.
      + apply eqp_eq in E. subst x. rewrite app_length in Hf. cbn in Hf. destruct (IH f q p (p :: Y) ltac:(lia) Lq) as (X1 & n & pos' & -> & L1 & C).
        assert (R : repeat p n ++ p :: Y = repeat p (S n) ++ Y) by (cbn [repeat]; rewrite repeat_cons, <- app_assoc; reflexivity).
        exists X1, (S n), pos'. rewrite R in *. split; [cbn [repeat]; rewrite <- app_assoc, repeat_cons; reflexivity|]. split; [exact L1|exact C].
      + exists (X ++ [x]), 0, pos. cbn [repeat app]. rewrite app_nil_r. split; [reflexivity|]. split; [exact Hl|]. right. exists X, x, q. apply eqp_false in E. auto.
  Qed.
  Lemma run_forward ls : forall Y fuel pos X p, length Y < fuel -> loc ls pos X p Y ->
    exists Y1 n pos', Y = repeat p n ++ Y1 /\ loc ls pos' (X ++ repeat p n) p Y1
      /\ ((Y1 = [] /\ run eqp (next_pos ls) ls fuel pos p = Ok (pos', None))
          \/ exists Y2 y pos'', Y1 = y :: Y2 /\ y <> p /\ loc ls pos'' (X ++ repeat p n ++ [p]) y Y2 /\ run eqp (next_pos ls) ls fuel pos p = Ok (pos', Some pos'')).
  Proof.
    intros Y. induction Y as [|y Y IH]; intros fuel pos X p Hf Hl; (destruct fuel as [|f]; [lia|]).
    - exists [], 0, pos. cbn [repeat app run]. rewrite app_nil_r. split; [reflexivity|]. split; [exact Hl|]. left. rewrite (next_none _ _ _ _ Hl). auto.
    - destruct (next_some _ _ _ _ _ _ Hl) as (q & Hq & Lq). cbn [run]. rewrite Hq, (loc_at _ _ _ _ _ Lq). cbn [derefO]. destruct (eqp y p) eqn:E.
      + apply eqp_eq in E. subst y. cbn in Hf. destruct (IH f q (X ++ [p]) p ltac:(lia) Lq) as (Y1 & n & pos' & -> & L1 & C).
        exists Y1, (S n), pos'. cbn [repeat]. rewrite <- app_assoc in L1. split; [reflexivity|]. split; [exact L1|].
        destruct C as [C|(Y2 & y & pos'' & C1 & C2 & C3 & C4)]; [left; exact C|right]. exists Y2, y, pos''. rewrite <- app_assoc in C3. auto.
      + exists (y :: Y), 0, pos. cbn [repeat app]. rewrite app_nil_r. split; [reflexivity|]. split; [exact Hl|]. right. exists Y, y, q. apply eqp_false in E. auto.
  Qed.

  (** nothing more can be taken off: [X] before, [Y] behind the point [s] *)
  Definition no_more (X : list P) (s : P) (Y : list P) : Prop :=
    X = [] \/ exists X2 x, X = X2 ++ [x] /\ x <> s /\ (Y = [] \/ exists y Y2, Y = y :: Y2 /\ y <> s /\ x <> y).
  Lemma traverse_spec la lb : forall fuel X Y a b p RA RB se os st en, length X + length Y + 2 <= fuel ->
    loc la a X p RA -> loc lb b RB p Y ->
    exists X' s R1 R2 Y' sp ep, X ++ [p] = X' ++ s :: R1 /\ p :: Y = R2 ++ s :: Y' /\ dd (s :: R1) = rev (dd (R2 ++ [s])) /\ no_more X' s Y'
      /\ loc la sp X' s (R1 ++ RA) /\ loc lb ep (RB ++ R2) s Y'
      /\ traverse eqp la lb fuel a b (mkParts st se os en) = Ok (mkParts (Some sp) se os (Some ep)).
  Proof.
    induction fuel as [|f IH]; intros X Y a b p RA RB se os st en Hf La Lb; [lia|].
    cbn [traverse]. rewrite (loc_at _ _ _ _ _ La), (loc_at _ _ _ _ _ Lb). cbn [derefO]. rewrite eqp_refl.
    destruct (run_back la X f a p RA ltac:(lia) La) as (X1 & n & sp & EX & Ls & C).
    destruct C as [[-> Er]|(X2 & x & a' & EX1 & Nx & La' & Er)]; rewrite Er; cbn [bindO self_end other_start].
    - exists [], p, (repeat p n), [], Y, sp, b. cbn [app] in *. subst X. split; [rewrite <- repeat_cons; reflexivity|]. split; [reflexivity|].
      split; [rewrite dd_repeat; reflexivity|]. split; [left; reflexivity|]. rewrite app_nil_r. auto.
    - destruct (run_forward lb Y f b RB p ltac:(lia) Lb) as (Y1 & m & ep & EY & Le & D).
      assert (EXp : X ++ [p] = X1 ++ p :: repeat p n) by (rewrite EX, <- app_assoc, <- repeat_cons; reflexivity).
      assert (EYp : p :: Y = repeat p m ++ p :: Y1) by (rewrite EY, app_comm_cons, repeat_cons, <- app_assoc; reflexivity).
      assert (Mr : dd (p :: repeat p n) = rev (dd (repeat p m ++ [p]))) by (rewrite dd_repeat, (dd_repeat_l p m []); reflexivity).
      destruct D as [[-> Er']|(Y2 & y & b' & EY1 & Ny & Lb' & Er')]; rewrite Er'; cbn [bindO self_end other_start].
      + exists X1, p, (repeat p n), (repeat p m), [], sp, ep. split; [exact EXp|]. split; [exact EYp|]. split; [exact Mr|]. split; [right; exists X2, x; auto|]. auto.
      + destruct (eqp_dec x y) as [<-|Nxy].
        * assert (Hl : length X2 + length Y2 + 2 <= f).
          { subst X Y X1 Y1. rewrite !app_length in Hf. cbn [length] in Hf. lia. }
          destruct (IH X2 Y2 a' b' x _ _ se os (Some sp) (Some ep) Hl La' Lb') as (X' & s & R1 & R2 & Y' & sp' & ep' & E1 & E2 & E3 & E4 & E5 & E6 & E7).
          exists X', s, (R1 ++ p :: repeat p n), ((repeat p m ++ [p]) ++ R2), Y', sp', ep'. rewrite E7.
          split; [rewrite EXp, EX1, E1, <- app_assoc; reflexivity|]. split; [rewrite EYp, EY1, E2, <- !app_assoc; reflexivity|].
          split; [|split; [exact E4|]].
          -- assert (Q1 : exists w, s :: R1 = w ++ [x]).
             { destruct (@exists_last _ (s :: R1)) as (w & z & Ez); [discriminate|]. exists w. rewrite Ez in *. rewrite app_assoc in E1. apply app_inj_tail in E1. destruct E1 as [_ ->]. reflexivity. }
             assert (Q2 : exists w, R2 ++ [s] = x :: w).
             { destruct R2 as [|c R2]; cbn [app] in *; injection E2 as <- _; eexists; reflexivity. }
             destruct Q1 as [w1 Q1], Q2 as [w2 Q2]. rewrite app_comm_cons, Q1, <- !app_assoc. cbn [app]. rewrite (dd_neq w1 x p (repeat p n) Nx), dd_repeat.
             rewrite Q2, dd_repeat_l, dd_cons, (proj2 (eqp_false p x)) by congruence. cbn [rev]. rewrite <- Q1, <- Q2, E3. reflexivity.
          -- rewrite <- !app_assoc in *. cbn [app] in *. auto.
        * exists X1, p, (repeat p n), (repeat p m), Y1, sp, ep. split; [exact EXp|]. split; [exact EYp|]. split; [exact Mr|].
          split; [right; exists X2, x; split; [exact EX1|]; split; [exact Nx|]; right; exists y, Y2; auto|]. split; [exact Ls|]. split; [exact Le|].
          destruct f as [|f']; [lia|]. cbn [traverse]. rewrite (loc_at _ _ _ _ _ La'), (loc_at _ _ _ _ _ Lb'). cbn [derefO]. rewrite (proj2 (eqp_false x y) Nxy). reflexivity.
  Qed.

  (** *** parts of a route *)
  Lemma firstn_mid {T} (a : list T) x b : firstn (length a + 1) (a ++ x :: b) = a ++ [x].
  Proof. rewrite firstn_app, firstn_all2 by lia. replace (length a + 1 - length a) with 1 by lia. reflexivity. Qed.
  Lemma firstn_pre {T} (a b : list T) : firstn (length a) (a ++ b) = a.
  Proof. rewrite firstn_app, firstn_all, Nat.sub_diag, app_nil_r. reflexivity. Qed.
  Lemma skipn_pre {T} (a b : list T) : skipn (length a) (a ++ b) = b.
  Proof. rewrite skipn_app, skipn_all, Nat.sub_diag. reflexivity. Qed.
  Lemma path_inv p l ls e : path p (l :: ls) e -> exists t, l = p :: t /\ path (last (p :: t) p) ls e.
  Proof. intros H. inversion H; subst. eauto. Qed.
  Lemma path_end u z e : path u [z] e -> z = u :: tl z /\ e = last z u.
  Proof. intros H. apply path_inv in H. destruct H as (t & -> & H). inversion H. auto. Qed.
  Lemma last_indep (x : P) v : forall d e, last (x :: v) d = last (x :: v) e.
  Proof. revert x. induction v as [|y v IH]; intros x d e; [reflexivity|exact (IH y d e)]. Qed.
  Lemma last_mid (u : list P) x v d : last (u ++ x :: v) d = last (x :: v) x.
  Proof. induction u as [|c [|c' u] IH]; [apply last_indep|exact IH|exact IH]. Qed.
  Lemma path_cut_l p A u x v B q : path p (A ++ (u ++ x :: v) :: B) q -> path p (A ++ [u ++ [x]]) x.
  Proof.
    intros H. apply path_app in H. destruct H as (r & H1 & H2). apply path_app. exists r. split; [exact H1|]. apply path_one. apply path_inv in H2. destruct H2 as (t & E & _).
    destruct u; cbn in *; congruence.
  Qed.
  Lemma path_cut_r p A u x v B q : path p (A ++ (u ++ x :: v) :: B) q -> path x ((x :: v) :: B) q.
  Proof.
    intros H. apply path_app in H. destruct H as (r & H1 & H2). apply path_inv in H2. destruct H2 as (t & E & H3). econstructor; [reflexivity|]. rewrite <- E, last_mid in H3. exact H3.
  Qed.
  Lemma sub_prefix r p q i j X s Y : path p (lines r) q -> loc (lines r) (i, j) X s Y ->
    exists t, sub_route4 eqp r 0 0 (i + 1) (j + 1) = Ok t /\ invalid t = false /\ path p (lines t) s /\ poly p (lines t) = dd (X ++ [s]).
  Proof.
    intros H (A & u & v & B & El & Ep & -> & ->). injection Ep as -> ->. pose proof H as H0. rewrite El in H. pose proof (path_cut_l _ _ _ _ _ _ _ H) as Hc.
    assert (G : dd ((concat A ++ u) ++ [s]) = poly p (A ++ [u ++ [s]])).
    { rewrite (poly_concat p _ s Hc) by (destruct A; discriminate). rewrite concat_app. cbn [concat]. rewrite app_nil_r, app_assoc. reflexivity. }
    rewrite G. clear G.
    assert (Ne : nth 0 (lines r) [] <> []).
    { destruct (lines r) as [|l0 ls]; [destruct A; discriminate|]. inversion H0; subst. discriminate. }
    unfold sub_route4. rewrite Nat.add_sub. replace (nth (length A) (lines r) []) with (u ++ s :: v) by (rewrite El, nth_mid; reflexivity).
    assert (Sz : length (lines r) = length A + S (length B)) by (rewrite El, app_length; reflexivity).
    assert (Cd : (0 <=? length A + 1) && (0 <? length (lines r)) && (length A + 1 <=? length (lines r)) && negb (is_empty (nth 0 (lines r) [])) && (0 <? length (nth 0 (lines r) []))
       && ((length A + 1 =? 0) || negb (is_empty (u ++ s :: v)) && (length u + 1 <=? length (u ++ s :: v))) = true).
    { rewrite !andb_true_iff, orb_true_iff, andb_true_iff, is_empty_app, app_length. cbn [length negb]. rewrite !Nat.leb_le, !Nat.ltb_lt. 
      destruct (nth 0 (lines r) []); [congruence|]. cbn [is_empty negb length]. repeat split; lia. }
    cbv zeta. rewrite Cd. clear Cd. replace (0 <? 0) with false by reflexivity. cbn [bindO app].
    replace (0 <? length A + 1) with true by (symmetry; apply Nat.ltb_lt; lia). replace (0 <? length (lines r)) with true by (symmetry; apply Nat.ltb_lt; lia). cbn [andb].
    rewrite app_length. cbn [length]. destruct v as [|v1 v].
    - cbn [length]. rewrite Nat.ltb_irrefl.
      unfold sub_route2. rewrite Nat.sub_0_r. cbn [skipn]. rewrite El, firstn_mid.
      replace ((0 <=? length A + 1) && (0 <? length (A ++ (u ++ [s]) :: B)) && (length A + 1 <=? length (A ++ (u ++ [s]) :: B))) with true
        by (symmetry; rewrite app_length; cbn [length]; rewrite !andb_true_iff, !Nat.leb_le, !Nat.ltb_lt; lia).
      cbn [bindO]. destruct (merge_path [of_lines (A ++ [u ++ [s]])] p s) as (t & T1 & T2 & T3 & T4); [discriminate|reflexivity|cbn; rewrite app_nil_r; exact Hc|].
      exists t. rewrite T4. cbn [map lines of_lines concat]. rewrite app_nil_r. auto.
    - cbn [length]. replace (length u + 1 <? length u + S (S (length v))) with true by (symmetry; apply Nat.ltb_lt; lia).
      unfold sub_route2, sub_line. rewrite !Nat.sub_0_r. cbn [skipn]. rewrite El, firstn_pre, firstn_mid.
      replace ((0 <=? length A) && (0 <? length (A ++ (u ++ s :: v1 :: v) :: B)) && (length A <=? length (A ++ (u ++ s :: v1 :: v) :: B))) with true
        by (symmetry; rewrite app_length; cbn [length]; rewrite !andb_true_iff, !Nat.leb_le, !Nat.ltb_lt; lia).
      replace ((0 <=? length u + 1) && (0 <? length (u ++ s :: v1 :: v)) && (length u + 1 <=? length (u ++ s :: v1 :: v))) with true
        by (symmetry; rewrite app_length; cbn [length]; rewrite !andb_true_iff, !Nat.leb_le, !Nat.ltb_lt; lia).
      cbn [bindO]. destruct (merge_path [of_lines A; of_lines [u ++ [s]]] p s) as (t & T1 & T2 & T3 & T4); [discriminate|reflexivity|exact Hc|].
      exists t. rewrite T4. auto.
  Qed.
  Lemma sub_suffix r p q k l X s Y : path p (lines r) q -> loc (lines r) (k, l) X s Y ->
    exists t, sub_route4 eqp r k l (length (lines r)) (length (last (lines r) [])) = Ok t /\ invalid t = false /\ path s (lines t) q /\ poly s (lines t) = dd (s :: Y).
  Proof.
    intros H (A & u & v & B & El & Ep & -> & ->). injection Ep as -> ->. pose proof H as H0. rewrite El in H. pose proof (path_cut_r _ _ _ _ _ _ _ H) as Hc.
    assert (G : dd (s :: v ++ concat B) = poly s ((s :: v) :: B)) by (rewrite (poly_concat s _ q Hc) by discriminate; reflexivity).
    rewrite G. clear G.
    assert (Sz : length (lines r) = length A + S (length B)) by (rewrite El, app_length; reflexivity).
    assert (Ll : nth (length (lines r) - 1) (lines r) [] = last (lines r) []).
    { destruct (@exists_last _ (lines r)) as (z & y & E); [rewrite El; destruct A; discriminate|]. rewrite E, last_last, app_length. cbn [length]. rewrite Nat.add_sub, nth_mid. reflexivity. }
    assert (Ne : is_empty (last (lines r) []) = false).
    { pose proof (path_nonempty _ _ _ H0) as F. destruct (@exists_last _ (lines r)) as (z & y & E); [rewrite El; destruct A; discriminate|]. rewrite E, last_last in *. apply Forall_app in F. destruct F as [_ F]. inversion F; auto. }
    unfold sub_route4. cbv zeta. rewrite Ll, Ne. replace (nth (length A) (lines r) []) with (u ++ s :: v) by (rewrite El, nth_mid; reflexivity).
    rewrite is_empty_app, (app_length u). cbn [length negb andb]. rewrite !Nat.leb_refl, orb_true_r, Nat.ltb_irrefl, !andb_false_r.
    replace ((length A <=? length (lines r)) && (length A <? length (lines r)) && true && true && (length u <? length u + S (length v)) && true) with true
      by (symmetry; rewrite !andb_true_iff, !Nat.leb_le, !Nat.ltb_lt; lia).
    destruct u as [|u1 u'].
    - cbn [length]. replace (0 <? 0) with false by reflexivity. cbn [bindO]. replace (length A <? length (lines r)) with true by (symmetry; apply Nat.ltb_lt; lia).
      unfold sub_route2. rewrite firstn_all2 by (rewrite skipn_length; lia). rewrite El, skipn_pre.
      replace ((length A <=? length (A ++ ([] ++ s :: v) :: B)) && (length A <? length (A ++ ([] ++ s :: v) :: B)) && (length (A ++ ([] ++ s :: v) :: B) <=? length (A ++ ([] ++ s :: v) :: B))) with true
        by (symmetry; rewrite app_length; cbn [length]; rewrite !andb_true_iff, !Nat.leb_le, !Nat.ltb_lt; lia).
      cbn [bindO app]. destruct (merge_path [of_lines ((s :: v) :: B)] s q) as (t & T1 & T2 & T3 & T4); [discriminate|reflexivity|cbn; rewrite app_nil_r; exact Hc|].
      exists t. rewrite T4. cbn [map lines of_lines concat]. rewrite app_nil_r. auto.
    - set (u := u1 :: u') in *. replace (0 <? length u) with true by reflexivity. unfold sub_line.
      replace ((length u <=? length u + S (length v)) && (length u <? length (u ++ s :: v)) && (length u + S (length v) <=? length (u ++ s :: v))) with true
        by (symmetry; rewrite app_length; cbn [length]; rewrite !andb_true_iff, !Nat.leb_le, !Nat.ltb_lt; lia).
      rewrite skipn_pre, firstn_all2 by (cbn [length]; lia). cbn [bindO].
      destruct (length A + 1 <? length (lines r)) eqn:Lt.
      + unfold sub_route2. rewrite firstn_all2 by (rewrite skipn_length; lia).
        replace ((length A + 1 <=? length (lines r)) && (length A + 1 <? length (lines r)) && (length (lines r) <=? length (lines r))) with true
          by (symmetry; apply Nat.ltb_lt in Lt; rewrite !andb_true_iff, !Nat.leb_le, !Nat.ltb_lt; lia).
        replace (skipn (length A + 1) (lines r)) with B by (rewrite El, Nat.add_1_r, skipn_S_app; reflexivity).
        cbn [bindO app]. destruct (merge_path [of_lines [s :: v]; of_lines B] s q) as (t & T1 & T2 & T3 & T4); [discriminate|reflexivity|cbn; rewrite app_nil_r; exact Hc|].
        exists t. rewrite T4. cbn [map lines of_lines concat]. rewrite app_nil_r. auto.
      + apply Nat.ltb_ge in Lt. destruct B as [|b B]; [|cbn [length] in Sz; lia]. cbn [bindO app].
        destruct (merge_path [of_lines [s :: v]] s q) as (t & T1 & T2 & T3 & T4); [discriminate|reflexivity|exact Hc|].
        exists t. rewrite T4. auto.
  Qed.

  (** *** joining *)
  Lemma join_eq a b ra bl ub la p lb :
    invalid a = false -> invalid b = false -> lines a = ra ++ [la ++ [p]] -> lines b = (ub :: lb) :: bl -> la <> [] -> lb <> [] ->
    join eqp opposite a b false = (of_lines (ra ++ [la ++ firstn 1 lb]), of_lines ((if length lb <? 2 then [] else [lb]) ++ bl)).
  Proof.
    intros Ia Ib Ea Eb Na Nb. unfold join. rewrite Ia, Ib, Ea, Eb, rev_unit, rev_involutive. cbn [orb tl andb].
    replace (length (la ++ [p]) <? 2) with false by (symmetry; apply Nat.ltb_ge; rewrite app_length; destruct la; [congruence|cbn; lia]).
    replace (length (ub :: lb) <? 2) with false by (symmetry; apply Nat.ltb_ge; destruct lb; [congruence|cbn; lia]). cbn [orb].
    rewrite removelast_last. destruct la as [|a0 la]; [congruence|]. destruct lb as [|b0 lb]; [congruence|].
    replace (length ((a0 :: la) ++ firstn 1 (b0 :: lb)) <? 2) with false by (symmetry; apply Nat.ltb_ge; rewrite app_length; cbn; lia).
    unfold of_lines. cbn [app is_empty]. destruct (length (b0 :: lb) <? 2); reflexivity.
  Qed.
  Lemma dd_dd_app u v : dd (dd u ++ v) = dd (u ++ v).
  Proof.
    induction u as [|a u IH]; [reflexivity|]. destruct u as [|b u]; [reflexivity|]. rewrite dd_cons. change ((a :: b :: u) ++ v) with (a :: b :: (u ++ v)). rewrite dd_cons. destruct (eqp a b) eqn:E; [exact IH|].
    destruct (dd_hd b u) as [w W]. rewrite W in *. cbn [app] in *. rewrite dd_cons, E, IH. reflexivity.
  Qed.
  Lemma dd_idem v : dd (dd v) = dd v.
  Proof. pose proof (dd_dd_app v []) as H. rewrite !app_nil_r in H. exact H. Qed.
  Lemma dd_app_dd u v : dd (u ++ dd v) = dd (u ++ v).
  Proof.
    destruct v as [|p v]; [reflexivity|]. pose proof (dd_idem (p :: v)) as I. destruct (dd_hd p v) as [w W]. rewrite W in *. rewrite (dd_split u p w), (dd_split u p v), I, W. reflexivity.
  Qed.
  Lemma join_path a b p s q : invalid a = false -> invalid b = false -> path p (lines a) s -> path s (lines b) q ->
    forall x y, hd_error (rev (lines a)) = Some x -> hd_error (lines b) = Some y -> reverse_attaches eqp opposite x y = true ->
    exists a1 b1 m, join eqp opposite a b false = (a1, b1) /\ invalid a1 = false /\ invalid b1 = false /\ path p (lines a1) m /\ path m (lines b1) q
      /\ exists U w z V, opposite (w, s) (s, z) = true /\ w <> s /\ z <> s /\ poly p (lines a ++ lines b) = U ++ [w; s; z] ++ V
           /\ poly p (lines a1 ++ lines b1) = dd (U ++ [w; z] ++ V).
  Proof.
    intros Ia Ib Ha Hb x y Ex Ey R. destruct (lines a) as [|] eqn:La using rev_ind; [discriminate|]. clear IHl. rewrite rev_unit in Ex. injection Ex as ->.
    destruct (lines b) as [|b0 bl] eqn:Lb; [discriminate|]. injection Ey as ->. unfold reverse_attaches, last_segment, first_segment in R.
    destruct (rev x) as [|q' [|w la]] eqn:Rx; [discriminate|discriminate|]. destruct y as [|p' [|z lb]]; [discriminate|discriminate|]. cbn [fst snd] in R.
    apply (f_equal (@rev P)) in Rx. rewrite rev_involutive in Rx. cbn [rev] in Rx. subst x.
    pose proof Ha as Ha'. apply path_app in Ha'. destruct Ha' as (r & Ha1 & Ha2).
    assert (q' = s) by (apply path_end in Ha2; destruct Ha2 as [_ Ha2]; rewrite last_last in Ha2; auto). subst q'.
    assert (p' = s) by (inversion Hb; reflexivity). subst p'.
    apply andb_true_iff in R. destruct R as [R Op]. apply andb_true_iff in R. destruct R as [R1 R2]. apply negb_true_iff, eqp_false in R1. apply negb_true_iff, eqp_false in R2.
    set (u := rev la ++ [w]) in *.
    assert (Jn : join eqp opposite a b false = (of_lines (l ++ [u ++ [z]]), of_lines ((if length (z :: lb) <? 2 then [] else [z :: lb]) ++ bl))).
    { rewrite (join_eq a b l bl s u s (z :: lb) Ia Ib La Lb); [reflexivity|unfold u; destruct (rev la); discriminate|discriminate]. }
    eexists _, _, z. split; [exact Jn|]. split; [reflexivity|]. split; [reflexivity|]. cbn [lines of_lines].
    assert (Hl : path p (l ++ [u ++ [z]]) z).
    { apply path_app. exists r. split; [exact Ha1|]. apply path_one. apply path_inv in Ha2. destruct Ha2 as (t & E & _). unfold u in *. destruct (rev la); cbn in *; congruence. }
    assert (Hr : path z ((if length (z :: lb) <? 2 then [] else [z :: lb]) ++ bl) q).
    { apply path_inv in Hb. destruct Hb as (t & E & H3). injection E as <-. destruct lb as [|z' lb]; [exact H3|]. cbn [length Nat.ltb Nat.leb app]. econstructor; [|exact H3].
      exact (last_indep z' lb z s). }
    split; [exact Hl|]. split; [exact Hr|].
    exists (removelast (dd (p :: concat l ++ rev la ++ [w]))), w, z, (tl (dd (z :: lb ++ concat bl))). split; [exact Op|]. split; [exact R1|]. split; [congruence|].
    assert (Sw : dd (p :: concat l ++ rev la ++ [w]) = removelast (dd (p :: concat l ++ rev la ++ [w])) ++ [w]).
    { pose proof (dd_last (p :: concat l ++ rev la) w) as D. cbn [app] in D. rewrite <- app_assoc in D. exact D. }
    assert (Sz : dd (z :: lb ++ concat bl) = z :: tl (dd (z :: lb ++ concat bl))) by (destruct (dd_hd z (lb ++ concat bl)) as [t ->]; reflexivity).
    split.
    - unfold poly. rewrite !concat_app. cbn [concat]. rewrite app_nil_r. unfold u. rewrite <- !app_assoc. cbn [app].
      pose proof (dd_twice (p :: concat l ++ rev la ++ [w]) s (z :: lb ++ concat bl)) as T. cbn [app] in T. rewrite <- !app_assoc in T. cbn [app] in T. rewrite T. clear T.
      pose proof (dd_neq (p :: concat l ++ rev la) w s (z :: lb ++ concat bl) R1) as T. cbn [app] in T. rewrite <- !app_assoc in T. cbn [app] in T. rewrite T. clear T.
      rewrite dd_cons, (proj2 (eqp_false s z)) by congruence. rewrite Sw at 1. rewrite <- app_assoc. cbn [app]. rewrite <- Sz. reflexivity.
    - unfold poly. rewrite !concat_app. cbn [concat]. rewrite app_nil_r.
      assert (T : dd (p :: (concat l ++ u ++ [z]) ++ concat (if length (z :: lb) <? 2 then [] else [z :: lb]) ++ concat bl) = dd ((p :: concat l ++ u) ++ z :: lb ++ concat bl)).
      { destruct lb as [|z' lb]; cbn [length Nat.ltb Nat.leb concat app]; [rewrite <- !app_assoc; reflexivity|]. rewrite app_nil_r.
        pose proof (dd_twice (p :: concat l ++ u) z (z' :: lb ++ concat bl)) as T. cbn [app] in T. rewrite <- T, <- !app_assoc. reflexivity. }
      rewrite T. clear T. rewrite <- (dd_app_dd _ (z :: lb ++ concat bl)), <- dd_dd_app, Sz. unfold u. rewrite Sw at 1. rewrite <- !app_assoc. reflexivity.
  Qed.


  Lemma find_spec r o p m q fuel : invalid r = false -> invalid o = false -> lines r <> [] -> lines o <> [] -> path p (lines r) m -> path m (lines o) q ->
    length (concat (lines r)) + length (concat (lines o)) <= fuel ->
    exists X s R1 R2 Y i j k l, concat (lines r) = X ++ s :: R1 /\ concat (lines o) = R2 ++ s :: Y /\ dd (s :: R1) = rev (dd (R2 ++ [s])) /\ no_more X s Y
      /\ loc (lines r) (i, j) X s R1 /\ loc (lines o) (k, l) R2 s Y
      /\ find_return_line eqp fuel r o = Ok (mkParts (Some (i, j)) (Some (length (lines r) - 1, length (last (lines r) []) - 1)) (Some (0, 0)) (Some (k, l))).
  Proof.
    intros Ir Io Nr No Hr Ho Hf.
    destruct (path_points _ _ _ Hr) as [[E _]|[X0 EX]]; [congruence|]. destruct (path_hd _ _ _ Ho) as [E|[Y0 EY]]; [congruence|].
    pose proof (skip_back_spec (lines r) []) as SB. rewrite app_nil_r, EX in SB. destruct (X0 ++ [m]) eqn:E0; [destruct X0; discriminate|]. rewrite <- E0 in *. clear E0 p0 l.
    destruct SB as (ip & X0' & m' & Y' & S1 & S2 & -> & S3). apply app_inj_tail in S2. destruct S2 as [<- <-].
    assert (Eip : ip = (length (lines r) - 1, length (last (lines r) []) - 1)).
    { destruct S3 as (A & u & v & B & El & -> & _ & Ev). cbn [concat] in Ev. symmetry in Ev. apply app_eq_nil in Ev. destruct Ev as [-> EB].
      pose proof (path_nonempty _ _ _ Hr) as F. rewrite El in *. apply Forall_app in F. destruct F as [_ F]. inversion F as [|? ? _ FB]; subst.
      destruct B as [|b0 B]; [|cbn [concat] in EB; apply app_eq_nil in EB; destruct EB as [-> _]; inversion FB; discriminate].
      rewrite last_last, !app_length. cbn [length]. rewrite !Nat.add_sub. reflexivity. }
    rewrite Eip in *. clear Eip ip.
    pose proof (skip_forward_spec (lines o) 0) as SF. rewrite EY in SF. destruct SF as (C & v & D & F1 & F2 & F3 & F4).
    assert (EC : C = []).
    { pose proof (path_nonempty _ _ _ Ho) as F. rewrite F2 in F. destruct C as [|c C]; [reflexivity|]. cbn [concat] in F3. apply app_eq_nil in F3. destruct F3 as [-> _]. inversion F; discriminate. }
    rewrite EC in *. cbn [length app Nat.add] in *.
    assert (Lo : loc (lines o) (0, 0) [] m Y0) by (exists [], [], v, D; cbn; auto).
    assert (At : route_attaches eqp r o = true).
    { unfold route_attaches. rewrite Ir, Io. cbn [orb]. destruct (@exists_last _ (lines r) Nr) as (z & y & E). rewrite E, rev_unit. rewrite F2.
      unfold front. cbn [hd_error]. pose proof Hr as Hr'. rewrite E in Hr'. apply path_app in Hr'. destruct Hr' as (r0 & _ & Hl). apply path_end in Hl. destruct Hl as [Hl1 Hl2].
      unfold back. destruct (@exists_last _ y) as (w & k & Ek); [rewrite Hl1; discriminate|]. rewrite Ek in *. rewrite rev_unit. cbn. apply eqp_eq. rewrite last_last in Hl2. congruence. }
    rewrite EX, EY, app_length in Hf. cbn [length] in Hf.
    destruct (traverse_spec (lines r) (lines o) fuel X0 Y0 _ (0, 0) m [] [] (Some (length (lines r) - 1, length (last (lines r) []) - 1)) (Some (0, 0)) None None ltac:(lia) S3 Lo)
      as (X & s & R1 & R2 & Y & [i j] & [k l] & T1 & T2 & T3 & T4 & T5 & T6 & T7).
    rewrite app_nil_r in T5. cbn [app] in T6. exists X, s, R1, R2, Y, i, j, k, l. rewrite EX, EY. repeat (split; [assumption|]).
    unfold find_return_line. destruct (lines r) as [|r0 rl] eqn:Lr; [congruence|]. destruct (lines o) as [|o0 ol] eqn:Lo'; [congruence|]. rewrite At. cbn [negb]. rewrite S1, F1. exact T7.
  Qed.

  (** *** trimming and merging *)
  Lemma trim_spec r o p m q fuel : invalid r = false -> invalid o = false -> lines r <> [] -> lines o <> [] -> path p (lines r) m -> path m (lines o) q ->
    length (concat (lines r)) + length (concat (lines o)) <= fuel ->
    exists X s R1 R2 Y t, concat (lines r) = X ++ s :: R1 /\ concat (lines o) = R2 ++ s :: Y /\ dd (s :: R1) = rev (dd (R2 ++ [s])) /\ no_more X s Y
      /\ trim_merge eqp opposite fuel r o = Ok t /\ invalid t = false /\ path p (lines t) q
      /\ (poly p (lines t) = dd (X ++ s :: Y)
          \/ exists U w z V, opposite (w, s) (s, z) = true /\ w <> s /\ z <> s /\ dd (X ++ s :: Y) = U ++ [w; s; z] ++ V /\ poly p (lines t) = dd (U ++ [w; z] ++ V)).
  Proof.
    intros Ir Io Nr No Hr Ho Hf. destruct (find_spec r o p m q fuel Ir Io Nr No Hr Ho Hf) as (X & s & R1 & R2 & Y & i & j & k & l & EX & EY & T3 & T4 & T5 & T6 & Fd).
    destruct (sub_prefix r p m i j X s R1 Hr T5) as (ta & A1 & A2 & A3 & A4). destruct (sub_suffix o m q k l R2 s Y Ho T6) as (tb & B1 & B2 & B3 & B4).
    exists X, s, R1, R2, Y.
    assert (Hp : poly p (lines ta ++ lines tb) = dd (X ++ s :: Y)) by (rewrite (poly_app p _ s _ A3), A4, B4, <- dd_split; reflexivity).
    assert (Fin : forall a1 b1 n, invalid a1 = false -> invalid b1 = false -> path p (lines a1) n -> path n (lines b1) q ->
       exists t, merge eqp [a1; b1] false false = Ok t /\ invalid t = false /\ path p (lines t) q /\ poly p (lines t) = poly p (lines a1 ++ lines b1)).
    { intros a1 b1 n I1 I2 P1 P2. destruct (merge_path [a1; b1] p q) as (t & M1 & M2 & M3 & M4); [discriminate|cbn; rewrite I1, I2; reflexivity|cbn; rewrite app_nil_r; apply path_app; exists n; auto|].
      exists t. cbn [map concat] in M4. rewrite app_nil_r in M4. auto. }
    unfold trim_merge. rewrite Fd. cbn [bindO some_parts self_start other_end]. rewrite A1. cbn [bindO]. rewrite B1. cbn [bindO].
    destruct (rev (lines ta)) as [|xa xs] eqn:Ra.
    { destruct (Fin ta tb s A2 B2 A3 B3) as (t & M1 & M2 & M3 & M4). exists t. repeat (split; [assumption|]). left. congruence. }
    destruct (lines tb) as [|yb ys] eqn:Lb.
    { rewrite <- Lb in *. destruct (Fin ta tb s A2 B2 A3 B3) as (t & M1 & M2 & M3 & M4). exists t. repeat (split; [assumption|]). left. congruence. }
    destruct (reverse_attaches eqp opposite xa yb) eqn:Rv.
    - rewrite <- Lb in *. destruct (join_path ta tb p s q A2 B2 A3 B3 xa yb) as (a1 & b1 & n & J1 & J2 & J3 & J4 & J5 & U & w & z & V & J6 & J7 & J8 & J9 & J10);
        [rewrite Ra; reflexivity|rewrite Lb; reflexivity|exact Rv|]. rewrite J1. destruct (Fin a1 b1 n J2 J3 J4 J5) as (t & M1 & M2 & M3 & M4). exists t. repeat (split; [assumption|]).
      right. exists U, w, z, V. rewrite <- Hp, J9, M4, J10. auto.
    - rewrite <- Lb in *. destruct (Fin ta tb s A2 B2 A3 B3) as (t & M1 & M2 & M3 & M4). exists t. repeat (split; [assumption|]). left. congruence.
  Qed.
End Proofs.
