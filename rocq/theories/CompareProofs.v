(** Proofs about Compare.v. *)
From Coq Require Import QArith Lqa Permutation.
From Verif Require Import Base ListAux Compare.
Local Open Scope nat_scope.

Section CompareProofs.
  Context {P D : Type}.
  Variable eqp : P -> P -> bool.
  Hypothesis eqp_eq : forall x y, eqp x y = true <-> x = y.
  Notation seg := (P * P)%type.

  Lemma eqs_eq (s t : seg) : eqs eqp s t = true <-> s = t.
  Proof.
    unfold eqs. rewrite andb_true_iff, !eqp_eq. destruct s, t; cbn. split; [intros [-> ->]; auto | intros [= -> ->]; auto].
  Qed.
  Lemma eqs_neq (s t : seg) : eqs eqp s t = false <-> s <> t.
  Proof. rewrite <- eqs_eq. destruct (eqs eqp s t); split; congruence. Qed.

  (** ** Slices *)
  Lemma slice_split {X} (l : list X) i j : i <= j -> j <= length l -> firstn j l = firstn i l ++ slice l i j.
  Proof.
    intros H1 H2. unfold slice. rewrite <- (firstn_skipn i (firstn j l)) at 1. rewrite firstn_firstn, Nat.min_l by lia.
    rewrite skipn_firstn_comm. reflexivity.
  Qed.

  (** ** The main loop *)
  Lemma next_start_spec p segs k e : next_start eqp p segs k = Some e -> k <= e < k + length segs.
  Proof.
    revert k; induction segs as [|s segs IH]; intros k; cbn; [discriminate|]. destruct (eqp (fst s) p).
    - intros [= <-]. lia.
    - intros E. apply IH in E. lia.
  Qed.
  Definition turns (segs : list seg) : Prop := exists i p q, nth_error segs i = Some (p, q) /\ nth_error segs (i + 1) = Some (q, p).
  Lemma detect_reverse_spec segs i : i < length segs -> exists r, detect_reverse eqp segs i = Ok r
    /\ (forall e, r = Some e -> i < e < length segs /\ turns segs).
  Proof.
    intros Hi. unfold detect_reverse. destruct (nth_error segs i) as [s|] eqn:E; [|apply nth_error_None in E; lia]. cbn.
    destruct i as [|b]; [eexists; split; [reflexivity|discriminate]|].
    destruct (nth_error segs b) as [t|] eqn:E'; [|apply nth_error_None in E'; lia]. cbn [derefO].
    destruct (eqp (snd t) (fst s) && eqp (fst t) (snd s)) eqn:R; [|eexists; split; [reflexivity|discriminate]].
    eexists. split; [reflexivity|]. intros e Ee. apply next_start_spec in Ee. rewrite skipn_length in Ee. split; [lia|].
    apply andb_true_iff in R. rewrite !eqp_eq in R. exists b, (fst t), (snd t). destruct s, t; cbn in *. destruct R as [-> ->].
    split; [exact E'|]. rewrite Nat.add_1_r. exact E.
  Qed.

  Lemma merge_row_spec p a i i' : merge_row eqp p a i = Some i' -> i <= i' < i + length a /\ option_map fst (nth_error a (i' - i)) = Some p.
  Proof.
    revert i; induction a as [|s a IH]; intros i; cbn; [discriminate|]. destruct (eqp (fst s) p) eqn:E.
    - intros [= <-]. rewrite Nat.sub_diag. cbn. apply eqp_eq in E. subst. split; [lia|reflexivity].
    - intros M. apply IH in M. destruct M as [L N]. split; [lia|]. replace (i' - i) with (S (i' - S i)) by lia. exact N.
  Qed.
  Lemma merge_rows_spec a i b j i' j' : merge_rows eqp a i b j = Some (i', j') ->
    i <= i' < i + length a /\ j <= j' < j + length b
    /\ exists p, option_map fst (nth_error a (i' - i)) = Some p /\ option_map fst (nth_error b (j' - j)) = Some p.
  Proof.
    revert j; induction b as [|t b IH]; intros j; cbn; [discriminate|]. destruct (merge_row eqp (fst t) a i) as [k|] eqn:E.
    - intros [= <- <-]. apply merge_row_spec in E. rewrite Nat.sub_diag. cbn. destruct E as [L N].
      split; [lia|]. split; [lia|]. exists (fst t). auto.
    - intros M. apply IH in M. destruct M as (L1 & L2 & p & N1 & N2). split; [lia|]. split; [lia|]. exists p.
      replace (j' - j) with (S (j' - S j)) by lia. auto.
  Qed.
  Lemma find_merge_spec a b i j s t : nth_error a i = Some s -> nth_error b j = Some t -> s <> t ->
    exists i' j', find_merge eqp a b i j = Ok (i', j') /\ i <= i' <= length a /\ j <= j' <= length b /\ i + j < i' + j'.
  Proof.
    intros Es Et N. unfold find_merge. rewrite Es, Et. cbn [derefO].
    assert (Li : i < length a) by (apply nth_error_Some; congruence).
    assert (Lj : j < length b) by (apply nth_error_Some; congruence).
    set (j1 := if eqp (fst s) (fst t) && negb (eqp (snd s) (snd t)) then j + 1 else j).
    assert (Hj1 : j <= j1 <= j + 1) by (unfold j1; destruct (_ && _); lia).
    destruct (merge_rows eqp (skipn i a) i (skipn j1 b) j1) as [[i' j']|] eqn:E.
    - exists i', j'. split; [reflexivity|]. apply merge_rows_spec in E. rewrite !skipn_length in E. destruct E as (L1 & L2 & p & N1 & N2).
      split; [lia|]. split; [lia|].
      destruct (Nat.eq_dec (i + j) (i' + j')) as [Q|Q]; [|lia]. exfalso.
      assert (i' = i) by lia. assert (j' = j) by lia. assert (J : j1 = j) by lia. rewrite J in N2. subst i' j'. rewrite Nat.sub_diag in *.
      rewrite nth_error_skipn in N1, N2. rewrite !Nat.add_0_r in N1, N2. rewrite Es in N1. rewrite Et in N2. cbn in N1, N2. unfold j1 in J.
      destruct (eqp (fst s) (fst t)) eqn:F.
      + cbn in J. destruct (eqp (snd s) (snd t)) eqn:G; [|cbn in J; lia]. apply N, eqs_eq. unfold eqs. now rewrite F, G.
      + assert (fst s = fst t) by congruence. apply eqp_eq in H. congruence.
    - exists (length a), (length b). split; [reflexivity|]. lia.
  Qed.

  Definition sorted_inv (a b : list seg) (i j : nat) (x : sorted) : Prop :=
    i <= length a /\ j <= length b
    /\ Permutation (firstn i a) (s_correct x ++ s_misses x ++ s_rev_a x)
    /\ Permutation (firstn j b) (s_correct x ++ s_adds x ++ s_rev_b x)
    /\ (s_rev_a x <> [] -> turns a) /\ (s_rev_b x <> [] -> turns b).

  Lemma firstn_S {X} (l : list X) i s : nth_error l i = Some s -> firstn (i + 1) l = firstn i l ++ [s].
  Proof.
    intros E. assert (i < length l) by (apply nth_error_Some; congruence). rewrite (slice_split l i (i + 1)) by lia. f_equal.
    unfold slice. replace (i + 1 - i) with 1 by lia. apply nth_error_split in E. destruct E as (l1 & l2 & -> & <-).
    rewrite skipn_app, skipn_all, Nat.sub_diag. reflexivity.
  Qed.

  Lemma perm_correct (X : Type) (f c m r : list X) s : Permutation f (c ++ m ++ r) -> Permutation (f ++ [s]) ((c ++ [s]) ++ m ++ r).
  Proof.
    intros H. rewrite <- app_assoc. cbn. eapply Permutation_trans; [apply Permutation_app_comm|]. cbn.
    apply Permutation_cons_app. exact H.
  Qed.
  Lemma perm_mid (X : Type) (f c m r l : list X) : Permutation f (c ++ m ++ r) -> Permutation (f ++ l) (c ++ (m ++ l) ++ r).
  Proof.
    intros H. rewrite H. rewrite <- !app_assoc. do 2 apply Permutation_app_head. apply Permutation_app_comm.
  Qed.
  Lemma perm_last (X : Type) (f c m r l : list X) : Permutation f (c ++ m ++ r) -> Permutation (f ++ l) (c ++ m ++ r ++ l).
  Proof. intros H. rewrite H. rewrite <- !app_assoc. reflexivity. Qed.

  Lemma sort_loop_spec a b fuel i j x : length a + length b < fuel + (i + j) -> sorted_inv a b i j x ->
    exists i' j' x', sort_loop eqp fuel a b i j x = Ok (i', j', x') /\ sorted_inv a b i' j' x' /\ (i' = length a \/ j' = length b).
  Proof.
    revert i j x. induction fuel as [|fuel IH]; intros i j x Hf I.
    { destruct I as (? & ? & _). lia. }
    cbn [sort_loop].
    destruct ((i <? length a) && (j <? length b)) eqn:L.
    2:{ exists i, j, x. split; [reflexivity|]. split; [exact I|]. destruct I as (? & ? & _).
        apply andb_false_iff in L. rewrite !Nat.ltb_ge in L. lia. }
    apply andb_true_iff in L. rewrite !Nat.ltb_lt in L. destruct L as [La Lb].
    destruct (nth_error a i) as [s|] eqn:Es; [|apply nth_error_None in Es; lia].
    destruct (nth_error b j) as [t|] eqn:Et; [|apply nth_error_None in Et; lia]. cbn [derefO].
    pose proof I as (Ia & Ib & Pa & Pb & Ta & Tb).
    destruct (eqs eqp s t) eqn:E.
    { apply eqs_eq in E. subst t. apply IH; [lia|]. unfold sorted_inv. cbn [s_correct s_adds s_misses s_rev_a s_rev_b].
      split; [lia|]. split; [lia|]. rewrite (firstn_S a i s Es), (firstn_S b j s Et).
      split; [apply perm_correct, Pa|]. split; [apply perm_correct, Pb|]. auto. }
    apply eqs_neq in E.
    destruct (detect_reverse_spec a i La) as (ra & Era & Hra). destruct (detect_reverse_spec b j Lb) as (rb & Erb & Hrb).
    rewrite Era, Erb. cbn [bindO].
    set (i1 := match ra with Some e => e | None => i end).
    set (j1 := match rb with Some e => e | None => j end).
    set (x1 := mkSorted _ _ _ _ _).
    assert (Li : i <= i1 < length a /\ (ra <> None -> i < i1)).
    { unfold i1. destruct ra as [e|]; [specialize (Hra e eq_refl); lia|]. split; [lia|congruence]. }
    assert (Lj : j <= j1 < length b /\ (rb <> None -> j < j1)).
    { unfold j1. destruct rb as [e|]; [specialize (Hrb e eq_refl); lia|]. split; [lia|congruence]. }
    assert (I1 : sorted_inv a b i1 j1 x1).
    { unfold sorted_inv. split; [lia|]. split; [lia|]. unfold x1, i1, j1. cbn [s_correct s_adds s_misses s_rev_a s_rev_b].
      repeat split.
      - destruct ra as [e|]; [|exact Pa]. destruct (Hra e eq_refl) as [He _]. rewrite (slice_split a i e) by lia. apply perm_last, Pa.
      - destruct rb as [e|]; [|exact Pb]. destruct (Hrb e eq_refl) as [He _]. rewrite (slice_split b j e) by lia. apply perm_last, Pb.
      - destruct ra as [e|]; [|exact Ta]. intros _. apply (Hra e eq_refl).
      - destruct rb as [e|]; [|exact Tb]. intros _. apply (Hrb e eq_refl). }
    clearbody x1.
    assert (G : (length a <=? i1) || (length b <=? j1) = false).
    { apply orb_false_iff. rewrite !Nat.leb_gt. lia. }
    rewrite G. destruct ra as [ea|]; [|destruct rb as [eb|]].
    - apply IH; [|exact I1]. destruct Li as [_ Li], Lj as [Lj _]. specialize (Li ltac:(discriminate)). lia.
    - apply IH; [|exact I1]. destruct Lj as [_ Lj], Li as [Li _]. specialize (Lj ltac:(discriminate)). lia.
    - subst i1 j1. cbn in *. destruct (find_merge_spec a b i j s t Es Et E) as (i' & j' & M & M1 & M2 & M3).
      rewrite M. cbn [bindO fst snd]. apply IH; [lia|]. destruct I1 as (_ & _ & Pa1 & Pb1 & Ta1 & Tb1).
      unfold sorted_inv. cbn [s_correct s_adds s_misses s_rev_a s_rev_b].
      split; [lia|]. split; [lia|]. rewrite (slice_split a i i') by lia. rewrite (slice_split b j j') by lia.
      split; [apply perm_mid, Pa1|]. split; [apply perm_mid, Pb1|]. auto.
  Qed.

  Lemma sort_segments_spec a b : exists x, sort_segments eqp a b = Ok x
    /\ Permutation a (s_correct x ++ s_misses x ++ s_rev_a x)
    /\ Permutation b (s_correct x ++ s_adds x ++ s_rev_b x)
    /\ (s_rev_a x <> [] -> turns a) /\ (s_rev_b x <> [] -> turns b).
  Proof.
    unfold sort_segments.
    destruct (sort_loop_spec a b (length a + length b + 1) 0 0 no_sorted) as (i & j & x & E & (Li & Lj & Pa & Pb & Ta & Tb) & _); [lia| |].
    { unfold sorted_inv, no_sorted. cbn. repeat split; try lia; try constructor; congruence. }
    rewrite E. cbn [bindO]. eexists. split; [reflexivity|]. cbn [s_correct s_adds s_misses s_rev_a s_rev_b].
    split; [|split; [|split; [exact Ta|exact Tb]]].
    - rewrite <- (firstn_skipn i a) at 1. apply perm_mid, Pa.
    - rewrite <- (firstn_skipn j b) at 1. apply perm_mid, Pb.
  Qed.

  (** ** Cancelling *)
  Lemma take_equal_spec s inner :
    match take_equal eqp s inner with
    | Some (t, inner') => t = s /\ Permutation inner (s :: inner')
    | None => ~ In s inner
    end.
  Proof.
    induction inner as [|t inner IH]; cbn; [auto|]. destruct (eqs eqp t s) eqn:E.
    - apply eqs_eq in E. subst. split; [auto|reflexivity].
    - apply eqs_neq in E. destruct (take_equal eqp s inner) as [[u r']|].
      + destruct IH as [-> IH]. split; [auto|]. rewrite IH. apply perm_swap.
      + intros [->|H]; auto.
  Qed.
  Lemma cancel_once_spec outer inner :
    match cancel_once eqp outer inner with
    | Some (t, outer', inner') => Permutation outer (t :: outer') /\ Permutation inner (t :: inner')
    | None => forall s, In s outer -> ~ In s inner
    end.
  Proof.
    induction outer as [|s outer IH]; cbn; [auto|]. pose proof (take_equal_spec s inner) as T.
    destruct (take_equal eqp s inner) as [[t inner']|].
    - destruct T as [-> T]. split; [reflexivity|exact T].
    - destruct (cancel_once eqp outer inner) as [[[t outer'] inner']|].
      + destruct IH as [IH1 IH2]. split; [|exact IH2]. rewrite IH1. apply perm_swap.
      + intros u [<-|H]; auto.
  Qed.
  Lemma cancel_spec fuel outer inner noted : length outer < fuel ->
    exists outer' inner' new, cancel eqp fuel outer inner noted = Ok (outer', inner', noted ++ new)
      /\ Permutation outer (outer' ++ new) /\ Permutation inner (inner' ++ new) /\ (forall s, In s outer' -> ~ In s inner').
  Proof.
    revert outer inner noted. induction fuel as [|fuel IH]; intros outer inner noted L; [lia|]. cbn [cancel].
    pose proof (cancel_once_spec outer inner) as C. destruct (cancel_once eqp outer inner) as [[[t o] n]|].
    - destruct C as [C1 C2]. destruct (IH o n (noted ++ [t])) as (o' & n' & new & E & P1 & P2 & Dj).
      { apply Permutation_length in C1. cbn in C1. lia. }
      exists o', n', (t :: new). rewrite E. split; [now rewrite <- app_assoc|].
      split; [|split; [|exact Dj]].
      + rewrite C1. rewrite P1 at 1. apply Permutation_middle.
      + rewrite C2. rewrite P2 at 1. apply Permutation_middle.
    - exists outer, inner, []. rewrite !app_nil_r. auto.
  Qed.
  Lemma cancel_all_spec outer inner noted :
    exists outer' inner' new, cancel_all eqp outer inner noted = Ok (outer', inner', noted ++ new)
      /\ Permutation outer (outer' ++ new) /\ Permutation inner (inner' ++ new) /\ (forall s, In s outer' -> ~ In s inner').
  Proof. apply cancel_spec. lia. Qed.

  (** ** Counting *)
  Variable dec : forall x y : seg, {x = y} + {x <> y}.
  Notation cnt := (count_occ dec).

  Lemma add_new_count rest acc x :
    cnt (fold_left (add_new eqp) rest acc) x = if cnt acc x =? 0 then Nat.min 1 (cnt rest x) else cnt acc x.
  Proof.
    revert acc. induction rest as [|s rest IH]; intros acc; cbn [fold_left].
    - cbn. destruct (cnt acc x =? 0) eqn:E; [apply Nat.eqb_eq in E; lia|reflexivity].
    - rewrite IH. unfold add_new. destruct (existsb (eqs eqp s) acc) eqn:E.
      + apply existsb_exists in E. destruct E as (y & Hy & Ey). apply eqs_eq in Ey. subst y.
        cbn [count_occ]. destruct (dec s x) as [->|N]; [|reflexivity].
        apply (count_occ_In dec) in Hy. destruct (cnt acc x =? 0) eqn:Z; [apply Nat.eqb_eq in Z; lia|reflexivity].
      + assert (NI : ~ In s acc).
        { intros H. assert (existsb (eqs eqp s) acc = true) by (apply existsb_exists; exists s; split; [exact H|now apply eqs_eq]). congruence. }
        rewrite count_occ_app. cbn [count_occ]. destruct (dec s x) as [->|N].
        * apply (count_occ_not_In dec) in NI. rewrite NI. cbn. lia.
        * rewrite Nat.add_0_r. reflexivity.
  Qed.
  Lemma perm_count l l' x : Permutation l l' -> cnt l x = cnt l' x.
  Proof. intros H. apply (Permutation_count_occ dec), H. Qed.

  Lemma classify_spec a b : exists c d m, classify eqp a b = Ok (c, d, m)
    /\ (forall x, cnt c x + cnt m x <= cnt a x)
    /\ (forall x, cnt c x + cnt d x <= cnt b x)
    /\ (forall x, In x a -> In x c \/ In x m)
    /\ (forall x, In x b -> In x c \/ In x d)
    /\ (forall x, In x m -> ~ In x d)
    /\ (~ turns a -> forall x, cnt c x + cnt m x = cnt a x)
    /\ (~ turns b -> forall x, cnt c x + cnt d x = cnt b x).
  Proof.
    unfold classify. destruct (sort_segments_spec a b) as (x & E & Pa & Pb & Ta & Tb). rewrite E. cbn [bindO].
    destruct (cancel_all_spec (s_rev_b x) (s_rev_a x) (s_correct x)) as (rb1 & ra1 & n1 & E1 & P1 & P1' & D1). rewrite E1. cbn [bindO].
    destruct (cancel_all_spec (s_adds x) ra1 (s_correct x ++ n1)) as (adds2 & ra2 & n2 & E2 & P2 & P2' & D2). rewrite E2. cbn [bindO].
    destruct (cancel_all_spec (s_misses x) rb1 ((s_correct x ++ n1) ++ n2)) as (misses3 & rb3 & n3 & E3 & P3 & P3' & D3). rewrite E3. cbn [bindO].
    destruct (cancel_all_spec (fold_left (add_new eqp) ra2 misses3) (fold_left (add_new eqp) rb3 adds2) (((s_correct x ++ n1) ++ n2) ++ n3))
      as (m5 & d5 & n5 & E5 & P5 & P5' & D5). rewrite E5. cbn [bindO].
    exists ((((s_correct x ++ n1) ++ n2) ++ n3) ++ n5), d5, m5. split; [reflexivity|].
    assert (K : forall s, cnt a s = cnt (s_correct x) s + cnt n1 s + cnt n2 s + cnt n3 s + cnt misses3 s + cnt ra2 s
                       /\ cnt b s = cnt (s_correct x) s + cnt n1 s + cnt n2 s + cnt n3 s + cnt adds2 s + cnt rb3 s
                       /\ (if cnt misses3 s =? 0 then Nat.min 1 (cnt ra2 s) else cnt misses3 s) = cnt m5 s + cnt n5 s
                       /\ (if cnt adds2 s =? 0 then Nat.min 1 (cnt rb3 s) else cnt adds2 s) = cnt d5 s + cnt n5 s).
    { intros s. pose proof (perm_count _ _ s Pa) as Qa. pose proof (perm_count _ _ s Pb) as Qb.
      pose proof (perm_count _ _ s P1) as Q1. pose proof (perm_count _ _ s P1') as Q1'. pose proof (perm_count _ _ s P2) as Q2.
      pose proof (perm_count _ _ s P2') as Q2'. pose proof (perm_count _ _ s P3) as Q3. pose proof (perm_count _ _ s P3') as Q3'.
      pose proof (perm_count _ _ s P5) as Q5. pose proof (perm_count _ _ s P5') as Q5'.
      rewrite add_new_count in Q5, Q5'. rewrite !count_occ_app in *. repeat split; lia. }
    assert (KL : forall s, cnt ((((s_correct x ++ n1) ++ n2) ++ n3) ++ n5) s = cnt (s_correct x) s + cnt n1 s + cnt n2 s + cnt n3 s + cnt n5 s).
    { intros s. rewrite !count_occ_app. lia. }
    split; [|split; [|split; [|split; [|split; [|split]]]]].
    - intros s. destruct (K s) as (Ka & _ & Km & _). rewrite KL. destruct (cnt misses3 s =? 0) eqn:Z; [apply Nat.eqb_eq in Z|]; lia.
    - intros s. destruct (K s) as (_ & Kb & _ & Kd). rewrite KL. destruct (cnt adds2 s =? 0) eqn:Z; [apply Nat.eqb_eq in Z|]; lia.
    - intros s H. rewrite !(count_occ_In dec) in *. destruct (K s) as (Ka & _ & Km & _). rewrite KL.
      destruct (cnt misses3 s =? 0) eqn:Z; [apply Nat.eqb_eq in Z|apply Nat.eqb_neq in Z]; lia.
    - intros s H. rewrite !(count_occ_In dec) in *. destruct (K s) as (_ & Kb & _ & Kd). rewrite KL.
      destruct (cnt adds2 s =? 0) eqn:Z; [apply Nat.eqb_eq in Z|apply Nat.eqb_neq in Z]; lia.
    - exact D5.
    - intros NT s. assert (RA : s_rev_a x = []) by (destruct (s_rev_a x); [reflexivity|exfalso; apply NT, Ta; discriminate]).
      assert (ra2 = []). { rewrite RA in P1'. apply Permutation_nil in P1'. apply app_eq_nil in P1'. destruct P1' as [-> _].
        apply Permutation_nil in P2'. apply app_eq_nil in P2'. apply P2'. }
      subst ra2. destruct (K s) as (Ka & _ & Km & _). rewrite KL. cbn in Ka, Km.
      destruct (cnt misses3 s =? 0) eqn:Z; [apply Nat.eqb_eq in Z|]; lia.
    - intros NT s. assert (RB : s_rev_b x = []) by (destruct (s_rev_b x); [reflexivity|exfalso; apply NT, Tb; discriminate]).
      assert (rb3 = []). { rewrite RB in P1. apply Permutation_nil in P1. apply app_eq_nil in P1. destruct P1 as [-> _].
        apply Permutation_nil in P3'. apply app_eq_nil in P3'. apply P3'. }
      subst rb3. destruct (K s) as (_ & Kb & _ & Kd). rewrite KL. cbn in Kb, Kd.
      destruct (cnt adds2 s =? 0) eqn:Z; [apply Nat.eqb_eq in Z|]; lia.
  Qed.
End CompareProofs.

(** ** Preparation *)
Section PrepareProofs.
  Context {P D : Type}.
  Variable eqp : P -> P -> bool.
  Hypothesis eqp_eq : forall x y, eqp x y = true <-> x = y.
  Notation seg := (P * P)%type.
  Variable len : P -> P -> Q.
  Variable ltb : D -> D -> bool.
  Variable dist : P -> P -> D.
  Variable near : list P -> P -> list P.
  Variable tol : D.
  Variable as_set : list P -> list P.
  Variable touched splits : P -> seg -> bool.
  Hypothesis near_in : forall l p q, In q (near l p) -> In q l.
  Hypothesis as_set_in : forall l p, In p (as_set l) <-> In p l.

  Notation long := (long eqp len).
  Notation nearest := (nearest eqp ltb dist tol).
  Notation adapt_point := (adapt_point eqp ltb dist near tol).
  Notation adapt_loop := (adapt_loop eqp ltb dist near tol).
  Notation adapt_points := (adapt_points eqp len ltb dist near tol as_set).
  Notation split_at := (split_at eqp touched splits).
  Notation split_segments := (split_segments eqp as_set touched splits).
  Notation points_of := (points_of as_set).

  Definition ends (l : list seg) (p : P) : Prop := exists s, In s l /\ (p = fst s \/ p = snd s).
  Lemma points_of_in l p : In p (points_of l) <-> ends l p.
  Proof.
    unfold points_of, ends. rewrite as_set_in. induction l as [|s l IH]; cbn; [split; [tauto|intros (? & [] & _)]|].
    rewrite IH. split.
    - intros [H|[H|(t & H & H')]]; [exists s|exists s|exists t]; auto.
    - intros (t & [<-|H] & [H'|H']); subst; auto; right; right; exists t; auto.
  Qed.
  Lemma ends_cons s l p : ends (s :: l) p <-> p = fst s \/ p = snd s \/ ends l p.
  Proof.
    unfold ends. cbn. split.
    - intros (t & [<-|H] & [H'|H']); auto; right; right; exists t; auto.
    - intros [H|[H|(t & H & H')]]; [exists s|exists s|exists t]; auto.
  Qed.
  Lemma ends_nil p : ~ ends [] p.
  Proof. intros (? & [] & _). Qed.

  (** the nearest point *)
  Lemma nearest_some p found n : nearest p found = Some n -> In n found /\ n <> p /\ ltb (dist p n) tol = true.
  Proof.
    unfold Compare.nearest. set (f := fun (best : option (D * P)) (q : P) => _).
    assert (G : forall l best, (forall d q, best = Some (d, q) -> In q found /\ q <> p /\ ltb (dist p q) tol = true) ->
               (forall q, In q l -> In q found) ->
               forall d q, fold_left f l best = Some (d, q) -> In q found /\ q <> p /\ ltb (dist p q) tol = true).
    { induction l as [|x l IH]; cbn; intros best Hb Hl; [exact Hb|]. apply IH; [|intros; apply Hl; auto].
      intros d q. unfold f at 1. destruct (eqp p x) eqn:E; cbn [negb]; [apply Hb|].
      destruct (ltb (dist p x) tol) eqn:L; cbn [andb]; [|apply Hb].
      destruct (match best with Some (m, _) => ltb (dist p x) m | None => true end); [|apply Hb].
      intros [= <- <-]. split; [apply Hl; auto|]. split; [|exact L]. intros ->. assert (eqp p p = true) by now apply eqp_eq. congruence. }
    intros H. destruct (fold_left f found None) as [[d q]|] eqn:E; [|discriminate]. cbn in H. injection H as <-.
    apply (G found None ltac:(discriminate) (fun _ h => h) d q E).
  Qed.

  (** the point that a point is moved to, or the point itself *)
  Lemma adapt_ends pts fuel b segs : length segs <= fuel -> forall p, ends (adapt_loop fuel pts b segs) p -> ends segs p \/ In p pts.
  Proof.
    revert b segs. induction fuel as [|fuel IH]; intros b segs L p; cbn [Compare.adapt_loop]; [auto|].
    destruct segs as [|s next]; [auto|]. cbn [length] in L.
    assert (A : forall b' first' s' nx s1 nx1, adapt_point pts b' first' s' nx = (s1, nx1) ->
      length nx1 = length nx /\ forall q, ends (s1 :: nx1) q -> ends (s' :: nx) q \/ In q pts).
    { intros b' first' s' nx s1 nx1. unfold Compare.adapt_point.
      destruct (nearest _ _) as [n|] eqn:N; [|intros [= <- <-]; auto].
      apply nearest_some in N. destruct N as [N _]. apply near_in in N. intros [= <- <-].
      destruct nx as [|t r].
      - split; [reflexivity|]. intros q. rewrite !ends_cons. destruct first'; cbn; intros [->|[->|H]]; auto.
      - destruct (_ && _); (split; [reflexivity|]); intros q; rewrite !ends_cons; destruct first'; cbn;
          intros [->|[->|[->|[->|H]]]]; auto 6. }
    destruct (if b then adapt_point pts true true s next else (s, next)) as [s1 next1] eqn:E1.
    destruct (adapt_point pts b false s1 next1) as [s2 next2] eqn:E2.
    assert (A1 : length next1 = length next /\ forall q, ends (s1 :: next1) q -> ends (s :: next) q \/ In q pts).
    { destruct b; [apply (A _ _ _ _ _ _ E1)|injection E1 as <- <-; auto]. }
    apply A in E2. destruct E2 as [L2 A2]. destruct A1 as [L1 A1].
    assert (T : forall q, ends (s2 :: next2) q -> ends (s :: next) q \/ In q pts).
    { intros q H. destruct (A2 q H) as [H'|H']; auto. }
    rewrite ends_cons. intros [->|[->|H]]; [apply T, ends_cons; auto|apply T, ends_cons; auto|].
    apply IH in H; [|lia]. destruct H as [H|H]; auto. apply T, ends_cons. auto.
  Qed.
  Lemma filter_ends f l p : ends (filter f l) p -> ends l p.
  Proof. intros (s & H & Hp). apply filter_In in H. exists s. tauto. Qed.
  Lemma adapt_points_ends segs others p : ends (adapt_points segs others) p -> ends segs p \/ ends others p.
  Proof.
    intros H. apply filter_ends, adapt_ends in H; [|lia]. rewrite points_of_in in H. exact H.
  Qed.

  (** nothing to move *)
  Definition apart (S T : P -> Prop) : Prop := forall p q, S p -> T q -> p <> q -> ltb (dist p q) tol = false.
  Lemma adapt_loop_id pts fuel b segs : apart (ends segs) (fun q => In q pts) -> adapt_loop fuel pts b segs = segs.
  Proof.
    intros H. revert b segs H. induction fuel as [|fuel IH]; intros b segs H; cbn [Compare.adapt_loop]; [reflexivity|].
    destruct segs as [|s next]; [reflexivity|].
    assert (A : forall b' first', adapt_point pts b' first' s next = (s, next)).
    { intros b' first'. unfold Compare.adapt_point. destruct (nearest _ _) as [n|] eqn:N; [|reflexivity]. exfalso.
      apply nearest_some in N. destruct N as (N & Np & L). apply near_in in N.
      rewrite H in L; [discriminate| |exact N|congruence]. apply ends_cons. destruct first'; auto. }
    rewrite A. assert (B : (if b then (s, next) else (s, next)) = (s, next)) by (destruct b; reflexivity). rewrite B, A.
    f_equal. apply IH. intros p q Hp Hq. apply H; [|exact Hq]. apply ends_cons. auto.
  Qed.
  Lemma adapt_points_id segs others : apart (ends segs) (ends others) -> adapt_points segs others = filter long segs.
  Proof.
    intros H. unfold Compare.adapt_points. rewrite adapt_loop_id; [reflexivity|]. intros p q Hp Hq. apply H; [exact Hp|]. now apply points_of_in.
  Qed.

  (** splitting *)
  Lemma split_at_ends p s q : ends (split_at p s) q -> q = fst s \/ q = snd s \/ q = p.
  Proof.
    unfold Compare.split_at. destruct (_ && _); rewrite ?ends_cons; cbn; pose proof (ends_nil q); tauto.
  Qed.
  Lemma split_at_keeps p s q : q = fst s \/ q = snd s -> ends (split_at p s) q.
  Proof. unfold Compare.split_at. destruct (_ && _); rewrite ?ends_cons; cbn; tauto. Qed.
  Lemma split_pass_ends p l q : ends (concat (map (split_at p) l)) q -> ends l q \/ q = p.
  Proof.
    induction l as [|s l IH]; cbn; [auto|]. intros (t & H & Ht). apply in_app_or in H. rewrite ends_cons. destruct H as [H|H].
    - assert (E : ends (split_at p s) q) by (exists t; auto). apply split_at_ends in E. tauto.
    - destruct IH; [exists t; auto| |]; auto.
  Qed.
  Lemma split_pass_keeps p l q : ends l q -> ends (concat (map (split_at p) l)) q.
  Proof.
    induction l as [|s l IH]; cbn; [auto|]. rewrite ends_cons. intros H.
    assert (G : ends (split_at p s) q \/ ends (concat (map (split_at p) l)) q).
    { destruct H as [H|[H|H]]; [left; apply split_at_keeps; auto|left; apply split_at_keeps; auto|auto]. }
    destruct G as [(t & Ht & Hq)|(t & Ht & Hq)]; exists t; rewrite in_app_iff; auto.
  Qed.
  Lemma split_segments_ends segs others q : ends (split_segments segs others) q -> ends segs q \/ ends others q.
  Proof.
    unfold Compare.split_segments. intros H.
    assert (G : forall pts l, ends (fold_left (fun l p => concat (map (split_at p) l)) pts l) q -> ends l q \/ In q pts).
    { induction pts as [|p pts IH]; cbn; intros l Hl; [auto|]. apply IH in Hl. destruct Hl as [Hl|Hl]; [|auto].
      apply split_pass_ends in Hl. destruct Hl as [Hl|Hl]; auto. }
    apply G in H. rewrite points_of_in in H. exact H.
  Qed.
  Lemma split_segments_keeps segs others q : ends segs q -> ends (split_segments segs others) q.
  Proof.
    unfold Compare.split_segments. revert segs. induction (points_of others) as [|p pts IH]; cbn; intros segs H; [auto|].
    apply IH, split_pass_keeps, H.
  Qed.

  (** connected lists of segments *)
  Fixpoint leads (p : P) (l : list seg) (q : P) : Prop :=
    match l with [] => p = q | s :: r => fst s = p /\ leads (snd s) r q end.
  Definition connected (l : list seg) : Prop := exists p q, leads p l q.
  Hypothesis len_zero : forall p q, (len p q == 0)%Q -> p = q.
  Lemma not_long s : long s = false -> fst s = snd s.
  Proof.
    unfold Compare.long, length_of. destruct (eqp (fst s) (snd s)) eqn:E; [intros _; now apply eqp_eq|].
    rewrite negb_false_iff. intros H. apply Qeq_bool_iff in H. apply len_zero, H.
  Qed.
  Lemma leads_filter p l q : leads p l q -> leads p (filter long l) q.
  Proof.
    revert p. induction l as [|s l IH]; cbn; intros p; [auto|]. intros [<- H]. destruct (long s) eqn:E; cbn; [auto|].
    apply not_long in E. rewrite E. auto.
  Qed.
  Lemma leads_app p l q l' r : leads p l q -> leads q l' r -> leads p (l ++ l') r.
  Proof. revert p. induction l as [|s l IH]; cbn; intros p; [intros ->; auto|]. intros [<- H] H'. auto. Qed.
  Lemma leads_split x p l q : leads p l q -> leads p (concat (map (split_at x) l)) q.
  Proof.
    revert p. induction l as [|s l IH]; cbn; intros p; [auto|]. intros [<- H]. eapply leads_app; [|apply IH, H].
    unfold Compare.split_at. destruct (_ && _); cbn; auto.
  Qed.
  Lemma leads_split_segments segs others p q : leads p segs q -> leads p (split_segments segs others) q.
  Proof.
    unfold Compare.split_segments. revert segs. induction (points_of others) as [|x pts IH]; cbn; intros segs H; [auto|].
    apply IH, leads_split, H.
  Qed.
  Lemma eqp_refl x : eqp x x = true.
  Proof. now apply eqp_eq. Qed.
  Lemma adapt_loop_leads pts fuel p l q : leads p l q -> exists q', leads p (adapt_loop fuel pts false l) q'.
  Proof.
    revert p l q. induction fuel as [|fuel IH]; intros p l q H; cbn [Compare.adapt_loop]; [eauto|].
    destruct l as [|s next]; [eauto|]. destruct H as [<- H]. unfold Compare.adapt_point.
    destruct (nearest _ _) as [n|].
    - cbn [andb negb]. destruct next as [|t r].
      + cbn. destruct fuel; cbn; eauto.
      + destruct H as [Ht H]. destruct (negb (eqp (fst t) n)) eqn:E.
        * destruct (IH n ((n, snd t) :: r) q) as (q' & Hq'); [cbn; auto|]. exists q'. cbn. auto.
        * apply negb_false_iff in E. apply eqp_eq in E. destruct (IH (fst t) (t :: r) q) as (q' & Hq'); [cbn; auto|]. exists q'. cbn. rewrite <- E. auto.
    - destruct (IH _ _ _ H) as (q' & Hq'). exists q'. cbn. auto.
  Qed.
  Lemma adapt_points_connected segs others : connected segs -> connected (adapt_points segs others).
  Proof.
    intros (p & q & H). unfold Compare.adapt_points. destruct segs as [|s next]; [exists p, q; exact H|].
    cbn [length Compare.adapt_loop]. destruct H as [<- H].
    assert (A : exists f, adapt_point (points_of others) true true s next = ((f, snd s), next)).
    { unfold Compare.adapt_point. destruct (nearest _ _) as [n|]; [|exists (fst s); destruct s; reflexivity]. exists n.
      cbn [fst]. rewrite eqp_refl. cbn. destruct next; reflexivity. }
    destruct A as (f & ->). unfold Compare.adapt_point at 1. cbn [fst snd].
    set (N := nearest _ _). destruct N as [n|].
    2:{ destruct (adapt_loop_leads (points_of others) (length next) _ _ _ H) as (q' & Hq'). exists f, q'.
        apply leads_filter. cbn. auto. }
    destruct next as [|t r].
    { exists f, n. apply leads_filter. cbn. auto. }
    destruct H as [Ht H]. cbn [andb]. destruct (eqp n f) eqn:E.
    - cbn [negb andb]. apply eqp_eq in E. subst f.
      destruct (adapt_loop_leads (points_of others) (length (t :: r)) (fst t) (t :: r) q) as (q' & Hq'); [cbn; auto|].
      exists (fst t), q'. cbn [filter]. assert (L : long (n, n) = false) by (unfold Compare.long, length_of; cbn; now rewrite eqp_refl).
      rewrite L. apply leads_filter. exact Hq'.
    - cbn [negb andb]. destruct (negb (eqp (fst t) n)) eqn:E'.
      + destruct (adapt_loop_leads (points_of others) (length (t :: r)) n ((n, snd t) :: r) q) as (q' & Hq'); [cbn; auto|].
        exists f, q'. apply leads_filter. cbn [leads fst snd]. auto.
      + apply negb_false_iff in E'. apply eqp_eq in E'.
        destruct (adapt_loop_leads (points_of others) (length (t :: r)) (fst t) (t :: r) q) as (q' & Hq'); [cbn; auto|].
        exists f, q'. apply leads_filter. cbn [leads fst snd]. rewrite <- E'. auto.
  Qed.

  (** the whole preparation *)
  Variable simplify : list seg -> outcome (list seg).
  Notation prepare := (prepare eqp len simplify ltb dist near tol as_set touched splits).

  Lemma prepare_parts a b a' b' : prepare a b = Ok (a', b') -> exists a1 b1, simplify a = Ok a1 /\ simplify b = Ok b1.
  Proof.
    unfold Compare.prepare. destruct (simplify a) as [a1| | |]; cbn; try discriminate. destruct (simplify b) as [b1| | |]; cbn; try discriminate. eauto.
  Qed.
  Lemma prepare_long a b a' b' : prepare a b = Ok (a', b') -> Forall (fun s => long s = true) a' /\ Forall (fun s => long s = true) b'.
  Proof.
    unfold Compare.prepare. destruct (simplify a) as [a1| | |]; cbn; try discriminate. destruct (simplify b) as [b1| | |]; cbn; try discriminate.
    intros [= <- <-]. unfold Compare.adapt_points at 1. unfold Compare.adapt_points at 6.
    split; apply Forall_forall; intros s Hs; apply filter_In in Hs; tauto.
  Qed.
  Lemma prepare_connected a b a1 b1 : simplify a = Ok a1 -> simplify b = Ok b1 -> connected a1 -> connected b1 ->
    exists a' b', prepare a b = Ok (a', b') /\ connected a' /\ connected b'
      /\ (forall p, ends a' p \/ ends b' p -> ends a1 p \/ ends b1 p).
  Proof.
    intros Ea Eb Ca Cb. unfold Compare.prepare. rewrite Ea, Eb. cbn [bindO].
    assert (Sc : forall l m, connected l -> connected (split_segments l m)).
    { intros l m (p & q & H). exists p, q. apply leads_split_segments, H. }
    set (a2 := adapt_points a1 a1). set (b2 := adapt_points b1 b1).
    set (a3 := adapt_points a2 b2). set (b3 := adapt_points b2 a3).
    set (a4 := split_segments a3 a3). set (b4 := split_segments b3 b3).
    set (a5 := split_segments a4 b4). set (b5 := split_segments b4 a5).
    set (a6 := adapt_points a5 a5). set (b6 := adapt_points b5 b5).
    set (a7 := adapt_points a6 b6). set (b7 := adapt_points b6 a7).
    exists a7, b7. split; [reflexivity|].
    split; [|split].
    - unfold a7, a6, a5, a4, a3, a2. do 2 apply adapt_points_connected. do 2 apply Sc. do 2 apply adapt_points_connected. exact Ca.
    - unfold b7, b6, b5, b4, b3, b2. do 2 apply adapt_points_connected. do 2 apply Sc. do 2 apply adapt_points_connected. exact Cb.
    - set (U := fun p => ends a1 p \/ ends b1 p).
      assert (AU : forall l m, (forall p, ends l p -> U p) -> (forall p, ends m p -> U p) -> forall p, ends (adapt_points l m) p -> U p).
      { intros l m Hl Hm p H. apply adapt_points_ends in H. destruct H; auto. }
      assert (SU : forall l m, (forall p, ends l p -> U p) -> (forall p, ends m p -> U p) -> forall p, ends (split_segments l m) p -> U p).
      { intros l m Hl Hm p H. apply split_segments_ends in H. destruct H; auto. }
      assert (U1 : forall p, ends a1 p -> U p) by (unfold U; auto). assert (V1 : forall p, ends b1 p -> U p) by (unfold U; auto).
      assert (R : forall p, U p -> ends a1 p \/ ends b1 p) by auto. clearbody U.
      pose proof (AU _ _ U1 U1) as U2. pose proof (AU _ _ V1 V1) as V2. fold a2 in U2. fold b2 in V2.
      pose proof (AU _ _ U2 V2) as U3. fold a3 in U3. pose proof (AU _ _ V2 U3) as V3. fold b3 in V3.
      pose proof (SU _ _ U3 U3) as U4. fold a4 in U4. pose proof (SU _ _ V3 V3) as V4. fold b4 in V4.
      pose proof (SU _ _ U4 V4) as U5. fold a5 in U5. pose proof (SU _ _ V4 U5) as V5. fold b5 in V5.
      pose proof (AU _ _ U5 U5) as U6. fold a6 in U6. pose proof (AU _ _ V5 V5) as V6. fold b6 in V6.
      pose proof (AU _ _ U6 V6) as U7. fold a7 in U7. pose proof (AU _ _ V6 U7) as V7. fold b7 in V7.
      intros p [H|H]; apply R; [apply U7, H|apply V7, H].
  Qed.

  (** a line and itself *)
  Hypothesis as_set_canonical : forall l l', (forall p, In p l <-> In p l') -> as_set l = as_set l'.
  Lemma points_of_ext l l' : (forall p, ends l p <-> ends l' p) -> points_of l = points_of l'.
  Proof.
    intros H. apply as_set_canonical. intros p. specialize (H p). rewrite <- !points_of_in in H. unfold Compare.points_of in H.
    rewrite !as_set_in in H. exact H.
  Qed.
  Lemma filter_filter l : filter long (filter long l) = filter long l.
  Proof. induction l as [|s l IH]; cbn; [reflexivity|]. destruct (long s) eqn:E; cbn; [rewrite E|]; congruence. Qed.
  Lemma prepare_same a a1 : simplify a = Ok a1 -> apart (ends a1) (ends a1) ->
    exists a', prepare a a = Ok (a', a').
  Proof.
    intros Ea Ap. unfold Compare.prepare. rewrite Ea. cbn [bindO].
    assert (Sub : forall l m, (forall p, ends l p -> ends a1 p) -> (forall p, ends m p -> ends a1 p) -> adapt_points l m = filter long l).
    { intros l m Hl Hm. apply adapt_points_id. intros p q Hp Hq. apply Ap; auto. }
    rewrite (Sub a1 a1) by auto. set (a2 := filter long a1).
    assert (S2 : forall p, ends a2 p -> ends a1 p) by (intros p; apply filter_ends).
    rewrite (Sub a2 a2) by auto.
    assert (F2 : filter long a2 = a2) by apply filter_filter.
    rewrite !F2. rewrite (Sub a2 a2) by auto. rewrite !F2.
    set (a4 := split_segments a2 a2).
    assert (S4 : forall p, ends a4 p <-> ends a2 p).
    { intros p. split; [intros H; apply split_segments_ends in H; tauto|apply split_segments_keeps]. }
    set (a5 := split_segments a4 a4).
    assert (S5 : forall p, ends a5 p <-> ends a4 p).
    { intros p. split; [intros H; apply split_segments_ends in H; tauto|apply split_segments_keeps]. }
    assert (E5 : split_segments a4 a5 = a5).
    { unfold a5 at 2. unfold Compare.split_segments. rewrite (points_of_ext a5 a4 S5). reflexivity. }
    rewrite E5. assert (T5 : forall p, ends a5 p -> ends a1 p) by (intros p H; apply S2, S4, S5, H).
    rewrite (Sub a5 a5) by auto. assert (T6 : forall p, ends (filter long a5) p -> ends a1 p) by (intros p H; apply T5, (filter_ends long), H).
    rewrite (Sub (filter long a5) (filter long a5)) by auto. rewrite filter_filter. rewrite (Sub (filter long a5) (filter long a5)) by auto.
    rewrite filter_filter. eauto.
  Qed.
End PrepareProofs.
