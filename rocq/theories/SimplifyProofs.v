(** Proofs about line simplification. *)
From Verif Require Import Base ListAux Simplify.
From Coq Require Import Sorted.

Section Proofs.
  Context {P D A : Type}.
  Variable leb : D -> D -> bool.
  Hypothesis leb_total : forall a b, leb a b = true \/ leb b a = true.
  Hypothesis leb_trans : forall a b c, leb a b = true -> leb b c = true -> leb a c = true.
  Variable zero : D.
  Variable dist : P -> P -> P -> D.
  Variable azimuth : P -> P -> option A.
  Variable turns_back : A -> A -> bool.
  Notation simplify_indices := (simplify_indices leb zero dist).
  Notation farthest := (farthest leb dist).
  Notation gtb := (gtb leb).

  Lemma leb_refl a : leb a a = true.
  Proof. destruct (leb_total a a); auto. Qed.
  Lemma gtb_false a b : gtb a b = false <-> leb a b = true.
  Proof. unfold Simplify.gtb. destruct (leb a b); cbn; split; congruence. Qed.
  Lemma gtb_le a b : gtb a b = true -> leb b a = true.
  Proof. unfold Simplify.gtb. destruct (leb_total a b) as [H|H]; [rewrite H; discriminate|auto]. Qed.

  Lemma farthest_spec a b l : forall max d m e, farthest a b l max d = (m, e) ->
    leb d e = true /\ (forall i p, In (i, p) l -> leb (dist p a b) e = true)
    /\ (m = max /\ e = d \/ gtb e d = true /\ exists p, In (m, p) l /\ e = dist p a b).
  Proof.
    induction l as [|[i p] l IH]; intros max d m e H; cbn in H.
    - injection H as <- <-. split; [apply leb_refl|]. split; [intros ? ? []|]. auto.
    - destruct (gtb (dist p a b) d) eqn:G.
      + destruct (IH _ _ _ _ H) as (L & Al & C). pose proof (gtb_le _ _ G) as G'. split; [eapply leb_trans; eassumption|]. split.
        * intros j q [[= <- <-]|Hq]; [exact L|eauto].
        * right. destruct C as [[-> ->]|(G2 & q & Hq & E)].
          -- split; [exact G|]. exists p. split; [left; reflexivity|reflexivity].
          -- split; [|exists q; split; [right; exact Hq|exact E]].
             unfold Simplify.gtb in *. apply negb_true_iff in G, G2. apply negb_true_iff. apply not_true_iff_false. intros K.
             apply not_true_iff_false in G. apply G. eapply leb_trans; [exact L|exact K].
      + destruct (IH _ _ _ _ H) as (L & Al & C). apply gtb_false in G. split; [exact L|]. split.
        * intros j q [[= <- <-]|Hq]; [eapply leb_trans; eassumption|eauto].
        * destruct C as [C|(G2 & q & Hq & E)]; [left; exact C|right]. split; [exact G2|]. exists q. split; [right; exact Hq|exact E].
  Qed.

  (** *** Specification: what may be removed between the kept positions [from] and [last] *)
  Definition removable (line : list P) (tol : D) (from last : nat) (idx : list nat) : Prop :=
    StronglySorted lt idx /\ (forall i, In i idx -> from < i < last)
    /\ forall i, In i idx -> exists a b, from <= a /\ a < i /\ i < b /\ b <= last /\ ~ In a idx /\ ~ In b idx
         /\ (forall j, a < j -> j < b -> In j idx)
         /\ exists p pa pb, nth_error line i = Some p /\ nth_error line a = Some pa /\ nth_error line b = Some pb
                            /\ leb (dist p pa pb) tol = true.

  Lemma sorted_app (l m : list nat) : StronglySorted lt l -> StronglySorted lt m -> (forall x y, In x l -> In y m -> x < y) ->
    StronglySorted lt (l ++ m).
  Proof.
    intros Hl Hm H. induction Hl as [|x l Hl IH Hx]; [exact Hm|]. cbn. constructor.
    - apply IH. intros a b Ha Hb. apply H; [right; exact Ha|exact Hb].
    - apply Forall_app. split; [exact Hx|]. apply Forall_forall. intros y Hy. apply H; [left; reflexivity|exact Hy].
  Qed.
  Lemma sorted_seq n : forall s, StronglySorted lt (seq s n).
  Proof.
    induction n as [|n IH]; intros s; cbn; constructor; [apply IH|]. apply Forall_forall. intros y Hy. apply in_seq in Hy. lia.
  Qed.

  Lemma removable_nil line tol from last : removable line tol from last [].
  Proof. split; [constructor|]. split; [intros ? []|intros ? []]. Qed.

  Lemma removable_join line tol a m b i1 i2 :
    removable line tol a m i1 -> removable line tol m b i2 -> a <= m <= b ->
    removable line tol a b (i1 ++ i2) /\ ~ In m (i1 ++ i2).
  Proof.
    intros (S1 & R1 & N1) (S2 & R2 & N2) [Ha Hb]. split; [split; [|split]|].
    - apply sorted_app; auto. intros x y Hx Hy. apply R1 in Hx. apply R2 in Hy. lia.
    - intros i Hi. apply in_app_iff in Hi as [Hi|Hi]; [apply R1 in Hi|apply R2 in Hi]; lia.
    - intros i Hi. apply in_app_iff in Hi as [Hi|Hi].
      + destruct (N1 i Hi) as (x & y & H1 & H2 & H3 & H4 & H5 & H6 & H7 & H8). exists x, y.
        repeat (split; [solve [auto; lia]|]). split; [|split; [|split; [|exact H8]]].
        * intros K. apply in_app_iff in K as [K|K]; [contradiction|]. apply R2 in K. lia.
        * intros K. apply in_app_iff in K as [K|K]; [contradiction|]. apply R2 in K. lia.
        * intros j J1 J2. apply in_app_iff. left. auto.
      + destruct (N2 i Hi) as (x & y & H1 & H2 & H3 & H4 & H5 & H6 & H7 & H8). exists x, y.
        repeat (split; [solve [auto; lia]|]). split; [|split; [|split; [|exact H8]]].
        * intros K. apply in_app_iff in K as [K|K]; [|contradiction]. apply R1 in K. lia.
        * intros K. apply in_app_iff in K as [K|K]; [|contradiction]. apply R1 in K. lia.
        * intros j J1 J2. apply in_app_iff. right. auto.
    - intros K. apply in_app_iff in K as [K|K]; [apply R1 in K|apply R2 in K]; lia.
  Qed.

  Lemma in_combine_skip (l : list P) : forall s n i p, In (i, p) (combine (seq s n) (skipn s l)) -> s <= i < s + n /\ nth_error l i = Some p.
  Proof.
    intros s n. revert s. induction n as [|n IH]; intros s i p H; [destruct H|]. cbn [seq combine] in H.
    destruct (skipn s l) as [|x r] eqn:E; [destruct H|].
    assert (Nx : nth_error l s = Some x /\ skipn (S s) l = r).
    { clear - E. revert l E. induction s as [|s IH]; intros [|y l] E; cbn in *; try discriminate; [injection E as -> ->; auto|]. apply IH; exact E. }
    destruct Nx as [Nx Er]. destruct H as [[= <- <-]|H]; [split; [lia|exact Nx]|]. rewrite <- Er in H. apply IH in H as [H1 H2]. split; [lia|exact H2].
  Qed.
  Lemma combine_skip_in (l : list P) : forall n s i p, s <= i < s + n -> nth_error l i = Some p -> In (i, p) (combine (seq s n) (skipn s l)).
  Proof.
    induction n as [|n IH]; intros s i p Hi Hp; [lia|]. cbn [seq combine].
    assert (Hl : i < length l) by (apply nth_error_Some; congruence).
    destruct (skipn s l) as [|x r] eqn:E.
    { assert (length (skipn s l) = 0) by (rewrite E; reflexivity). rewrite skipn_length in H. lia. }
    assert (Nx : nth_error l s = Some x /\ skipn (S s) l = r).
    { clear - E. revert l E. induction s as [|s IH]; intros [|y l] E; cbn in *; try discriminate; [injection E as -> ->; auto|]. apply IH; exact E. }
    destruct Nx as [Nx Er]. destruct (Nat.eq_dec i s) as [->|Ne]; [left; congruence|right]. rewrite <- Er. apply IH; [lia|exact Hp].
  Qed.

  (** *** The indices *)
  Lemma simplify_indices_spec tol : leb zero tol = true -> forall fuel line from to,
    from < to -> to <= length line -> to - from <= S fuel ->
    exists idx, simplify_indices fuel line from to tol = Ok idx /\ removable line tol from (to - 1) idx.
  Proof.
    intros Hz. induction fuel as [|fuel IH]; intros line from to H1 H2 H3.
    - exists []. split; [|apply removable_nil]. cbn [Simplify.simplify_indices].
      destruct (Nat.leb_spec to from); [lia|]. destruct (Nat.ltb_spec (to - from) 2); [|lia]. reflexivity.
    - cbn [Simplify.simplify_indices]. destruct (Nat.leb_spec to from); [lia|]. cbn [orb].
      destruct (Nat.ltb_spec (to - from) 2) as [Hs|Hs]; cbn [orb]; [exists []; split; [reflexivity|apply removable_nil]|].
      destruct (Nat.leb_spec (length line) from); [lia|]. destruct (Nat.ltb_spec (length line) to); [lia|]. cbn [orb].
      destruct (nth_error line from) as [pa|] eqn:Na; [|apply nth_error_None in Na; lia]. cbn [derefO].
      destruct (nth_error line (to - 1)) as [pb|] eqn:Nb; [|apply nth_error_None in Nb; lia]. cbn [derefO].
      set (inner := combine _ _). destruct (farthest pa pb inner 0 zero) as [m e] eqn:F.
      destruct (farthest_spec _ _ _ _ _ _ _ F) as (L & Al & C).
      destruct (gtb e tol) eqn:G.
      + assert (Hm : exists p, In (m, p) inner /\ e = dist p pa pb).
        { destruct C as [[-> ->]|(_ & p & Hp & E)]; [|eauto]. exfalso. apply gtb_false in Hz. congruence. }
        destruct Hm as (p & Hp & _). apply in_combine_skip in Hp as [Hm _].
        destruct (IH line from (m + 1)) as (i1 & E1 & R1); [lia|lia|lia|].
        destruct (IH line m to) as (i2 & E2 & R2); [lia|lia|lia|].
        rewrite E1. cbn [bindO]. rewrite E2. cbn [bindO]. exists (i1 ++ i2). split; [reflexivity|].
        replace (m + 1 - 1) with m in R1 by lia. apply (removable_join line tol from m (to - 1)); auto. lia.
      + exists (seq (from + 1) (to - 1 - (from + 1))). split; [reflexivity|]. split; [apply sorted_seq|]. split.
        * intros i Hi. apply in_seq in Hi. lia.
        * intros i Hi. apply in_seq in Hi. exists from, (to - 1). repeat (split; [lia|]).
          split; [rewrite in_seq; lia|]. split; [rewrite in_seq; lia|]. split; [intros j J1 J2; apply in_seq; lia|].
          destruct (nth_error line i) as [p|] eqn:Ni; [|apply nth_error_None in Ni; lia]. exists p, pa, pb.
          repeat (split; [auto|]). apply gtb_false in G. eapply leb_trans; [|exact G]. apply (Al i).
          apply combine_skip_in; [lia|exact Ni].
  Qed.

  (** *** Erasing *)
  (** the points at positions that are not removed *)
  Fixpoint keep (idx : list nat) (i : nat) (line : list P) : list P :=
    match line with
    | [] => []
    | p :: r => if existsb (Nat.eqb i) idx then keep idx (S i) r else p :: keep idx (S i) r
    end.

  Lemma keep_nil : forall line i, keep [] i line = line.
  Proof. induction line as [|p l IH]; intros i; cbn; [|rewrite IH]; reflexivity. Qed.
  Lemma keep_app idx l m : forall i, keep idx i (l ++ m) = keep idx i l ++ keep idx (i + length l) m.
  Proof.
    induction l as [|p l IH]; intros i; cbn; [rewrite Nat.add_0_r; reflexivity|].
    rewrite IH, Nat.add_succ_r. destruct (existsb _ _); reflexivity.
  Qed.
  Lemma keep_ext idx idx' l : forall i, (forall j, i <= j < i + length l -> (In j idx <-> In j idx')) -> keep idx i l = keep idx' i l.
  Proof.
    induction l as [|p l IH]; intros i H; cbn; [reflexivity|].
    rewrite (IH (S i)) by (intros j Hj; apply H; cbn; lia).
    assert (E : existsb (Nat.eqb i) idx = existsb (Nat.eqb i) idx').
    { apply Bool.eq_iff_eq_true. rewrite !existsb_eqb_In. apply H. cbn; lia. }
    rewrite E. reflexivity.
  Qed.
  Lemma keep_single_in i p : forall idx, In i idx -> keep idx i [p] = [].
  Proof. intros idx H. cbn. rewrite (proj2 (existsb_eqb_In _ _) H). reflexivity. Qed.

  Lemma erase_sorted idx : StronglySorted lt idx -> forall line,
    fold_right (fun i line => if i <? length line then erase_at i line else line) line idx = keep idx 0 line.
  Proof.
    induction 1 as [|x idx Hs IH Hx]; intros line; cbn [fold_right]; [rewrite keep_nil; reflexivity|].
    rewrite IH. rewrite Forall_forall in Hx.
    assert (Split : line = firstn x line ++ skipn x line) by (rewrite firstn_skipn; reflexivity).
    destruct (Nat.lt_ge_cases x (length line)) as [Hl|Hl].
    - destruct (skipn x line) as [|p r] eqn:E.
      { assert (length (skipn x line) = 0) by (rewrite E; reflexivity). rewrite skipn_length in H. lia. }
      assert (Lx : length (firstn x line) = x) by (rewrite firstn_length; lia).
      rewrite Split, !keep_app. cbn [plus]. rewrite Lx.
      rewrite (keep_ext idx [] (firstn x line) 0) by (intros j Hj; rewrite Lx in Hj; split; [intros K; apply Hx in K; lia|intros []]).
      rewrite (keep_ext (x :: idx) [] (firstn x line) 0).
      2: { intros j Hj; rewrite Lx in Hj; split; [intros [K|K]; [lia|apply Hx in K; lia]|intros []]. }
      rewrite keep_nil. cbn [keep existsb].
      assert (Nx : existsb (Nat.eqb x) idx = false).
      { apply not_true_iff_false. rewrite existsb_eqb_In. intros K. apply Hx in K. lia. }
      rewrite Nx, Nat.eqb_refl. cbn [orb].
      destruct (Nat.ltb_spec x (length (firstn x line ++ p :: keep idx (S x) r))) as [_|K].
      + unfold erase_at. rewrite firstn_app, Lx, Nat.sub_diag. cbn [firstn]. rewrite app_nil_r.
        replace (firstn x (firstn x line)) with (firstn x line) by (rewrite firstn_firstn, Nat.min_id; reflexivity).
        f_equal. rewrite skipn_app, Lx. replace (S x - x) with 1 by lia.
        rewrite (skipn_all2 (n := S x) (firstn x line)) by lia. cbn.
        apply keep_ext. intros j Hj. cbn. split; [auto|]. intros [K|K]; [lia|exact K].
      + rewrite app_length, Lx in K. cbn in K. lia.
    - rewrite (keep_ext idx [] line 0) by (intros j Hj; split; [intros K; apply Hx in K; lia|intros []]).
      rewrite (keep_ext (x :: idx) [] line 0).
      2: { intros j Hj; split; [intros [K|K]; [lia|apply Hx in K; lia]|intros []]. }
      rewrite !keep_nil. destruct (Nat.ltb_spec x (length line)); [lia|reflexivity].
  Qed.
  Lemma erase_keep idx line : StronglySorted lt idx -> erase_indices line idx = keep idx 0 line.
  Proof. intros H. unfold erase_indices. rewrite <- fold_left_rev_right, rev_involutive. apply erase_sorted. exact H. Qed.

  (** *** With reversals *)
  Notation rev_at line i := (match nth_error line (i - 1), nth_error line i, nth_error line (i + 1) with
                             | Some p, Some q, Some r => reversal azimuth turns_back p q r | _, _, _ => false end).

  Lemma reversals_spec tol line : leb zero tol = true -> forall n i index indices,
    i + n + 2 = length line -> index <= i ->
    removable line tol 0 index indices -> ~ In index indices ->
    (forall k, 0 < k <= i -> rev_at line k = true -> ~ In k indices /\ k <= index) ->
    exists index' indices', reversals_loop leb zero dist azimuth turns_back line tol n i index indices = Ok (index', indices')
      /\ index' <= i + n /\ removable line tol 0 index' indices' /\ ~ In index' indices'
      /\ (forall k, 0 < k <= i + n -> rev_at line k = true -> ~ In k indices' /\ k <= index').
  Proof.
    intros Hz. induction n as [|n IH]; intros i index indices Hl Hi R Hk Hrev; cbn [reversals_loop].
    - exists index, indices. rewrite Nat.add_0_r. auto.
    - destruct (nth_error line i) as [p|] eqn:N0; [|apply nth_error_None in N0; lia]. cbn [derefO].
      destruct (nth_error line (i + 1)) as [q|] eqn:N1; [|apply nth_error_None in N1; lia]. cbn [derefO].
      destruct (nth_error line (i + 2)) as [r|] eqn:N2; [|apply nth_error_None in N2; lia]. cbn [derefO].
      assert (Rv : rev_at line (S i) = reversal azimuth turns_back p q r).
      { replace (S i - 1) with i by lia. replace (S i + 1) with (i + 2) by lia. rewrite N0, N2.
        replace (S i) with (i + 1) by lia. rewrite N1. reflexivity. }
      replace (i + S n) with (S i + n) by lia.
      destruct (reversal azimuth turns_back p q r) eqn:E.
      + destruct (simplify_indices_spec tol Hz (length line) line index (i + 2)) as (i2 & E2 & R2); [lia|lia|lia|].
        replace (i + 2 - 1) with (i + 1) in R2 by lia.
        destruct (removable_join line tol 0 index (i + 1) indices i2 R R2) as [RJ NJ]; [lia|].
        rewrite E2. cbn [bindO]. apply IH; auto; try lia.
        * intros K. apply in_app_iff in K as [K|K]; [apply (proj1 (proj2 R)) in K|apply (proj1 (proj2 R2)) in K]; lia.
        * intros k Hk1 Hk2. split; [|lia]. intros K. apply in_app_iff in K as [K|K].
          -- destruct (Nat.eq_dec k (S i)) as [->|Ne]; [apply (proj1 (proj2 R)) in K; lia|]. apply (Hrev k); auto; lia.
          -- pose proof (proj1 (proj2 R2) _ K) as K2. destruct (Nat.eq_dec k (S i)) as [->|Ne]; [lia|]. destruct (Hrev k) as [_ ?]; auto; lia.
      + apply IH; auto; try lia. intros k Hk1 Hk2. destruct (Nat.eq_dec k (S i)) as [->|Ne]; [congruence|]. apply Hrev; auto; lia.
  Qed.

  Lemma rich_indices_spec tol line retain : leb zero tol = true ->
    exists idx, simplify_rich_line_indices leb zero dist azimuth turns_back line retain tol = Ok idx
      /\ removable line tol 0 (length line - 1) idx
      /\ (retain = true -> forall k, 0 < k -> rev_at line k = true -> ~ In k idx).
  Proof.
    intros Hz. unfold simplify_rich_line_indices. destruct retain.
    - destruct (Nat.lt_ge_cases (length line) 2) as [Hs|Hs].
      + replace (length line - 2) with 0 by lia. cbn [reversals_loop bindO]. exists [].
        assert (E : simplify_indices (length line) line 0 (length line) tol = Ok []).
        { destruct line as [|p [|q l]]; cbn in *; try lia; reflexivity. }
        rewrite E. cbn. split; [reflexivity|]. split; [apply removable_nil|]. intros _ k _ _ [].
      + destruct (reversals_spec tol line Hz (length line - 2) 0 0 []) as (index & indices & E & Hi & R & Nk & Hrev).
        { lia. } { lia. } { apply removable_nil. } { intros []. } { intros k Hk. lia. }
        rewrite E. cbn [bindO].
        destruct (simplify_indices_spec tol Hz (length line) line index (length line)) as (i2 & E2 & R2); [lia|lia|lia|].
        rewrite E2. cbn [bindO]. exists (indices ++ i2). split; [reflexivity|].
        destruct (removable_join line tol 0 index (length line - 1) indices i2 R R2) as [RJ NJ]; [lia|]. split; [exact RJ|].
        intros _ k Hk Hr K. assert (k + 1 < length line).
        { apply nth_error_Some. destruct (nth_error line (k - 1)), (nth_error line k), (nth_error line (k + 1)); congruence. }
        destruct (Hrev k) as [H1 H2]; [lia|exact Hr|]. apply in_app_iff in K as [K|K]; [contradiction|]. apply (proj1 (proj2 R2)) in K. lia.
    - destruct line as [|p line].
      + exists []. split; [reflexivity|]. split; [apply removable_nil|]. discriminate.
      + destruct (simplify_indices_spec tol Hz (length (p :: line)) (p :: line) 0 (length (p :: line))) as (i2 & E2 & R2); [cbn; lia|lia|lia|].
        rewrite E2. exists i2. split; [reflexivity|]. split; [exact R2|]. discriminate.
  Qed.

  (** *** The two implementations agree *)
  Fixpoint pairs (l : list P) : list (P * P) :=
    match l with
    | a :: ((b :: _) as r) => (a, b) :: pairs r
    | _ => []
    end.
  Definition sub (line : list P) (from to : nat) : list P := firstn (to - from) (skipn from line).

  Lemma pairs_cons a b l : pairs (a :: b :: l) = (a, b) :: pairs (b :: l).
  Proof. reflexivity. Qed.
  Lemma pairs_app l x r : pairs (l ++ x :: r) = pairs (l ++ [x]) ++ pairs (x :: r).
  Proof.
    induction l as [|a [|b l] IH]; [reflexivity|reflexivity|]. cbn [app] in *. rewrite !pairs_cons, IH. reflexivity.
  Qed.
  Lemma pairs_length l : length (pairs l) = length l - 1.
  Proof. induction l as [|a [|b l] IH]; [reflexivity|reflexivity|]. rewrite pairs_cons. cbn [length] in *. rewrite IH. lia. Qed.
  Lemma pairs_firstn j : forall l, firstn j (pairs l) = pairs (firstn (j + 1) l).
  Proof.
    induction j as [|j IH]; intros [|a [|b l]]; try reflexivity.
    - cbn. destruct j; reflexivity.
    - rewrite pairs_cons. cbn [firstn]. rewrite IH. replace (S j + 1) with (S (S j)) by lia. replace (j + 1) with (S j) by lia. reflexivity.
  Qed.
  Lemma pairs_skipn j : forall l, skipn j (pairs l) = pairs (skipn j l).
  Proof.
    induction j as [|j IH]; intros [|a [|b l]]; try reflexivity.
    - destruct j; reflexivity.
    - rewrite pairs_cons. cbn [skipn]. rewrite IH. reflexivity.
  Qed.
  Lemma pairs_fst l : map fst (pairs l) = firstn (length l - 1) l.
  Proof.
    induction l as [|a [|b l] IH]; [reflexivity|reflexivity|]. rewrite pairs_cons. cbn [map fst]. rewrite IH.
    cbn [length]. replace (S (S (length l)) - 1) with (S (length l)) by lia. replace (S (length l) - 1) with (length l) by lia. reflexivity.
  Qed.
  Lemma pairs_last a b l d : snd (last (pairs (a :: b :: l)) d) = last (a :: b :: l) a.
  Proof.
    revert a b d. induction l as [|c l IH]; intros a b d; [reflexivity|]. rewrite pairs_cons.
    change (last ((a, b) :: pairs (b :: c :: l)) d) with (last (pairs (b :: c :: l)) d). rewrite IH.
    change (last (b :: c :: l) b = last (b :: c :: l) a). clear. generalize (b) at 1 3. intros x. revert x c.
    induction l as [|d l IH]; intros x c; [reflexivity|]. change (last (c :: d :: l) b = last (c :: d :: l) a). apply (IH c d).
  Qed.

  Lemma farthest_agree a b from : forall rest k mo mn d,
    let '(mo', d') := farthest_seg leb dist a b k rest mo d in
    let '(mn', d'') := farthest a b (combine (seq (from + k) (length rest)) (map fst rest)) mn d in
    d' = d'' /\ (mo' = mo /\ mn' = mn \/ exists j, mo' = Some j /\ mn' = from + j).
  Proof.
    induction rest as [|s rest IH]; intros k mo mn d; cbn [farthest_seg length seq map combine Simplify.farthest]; [auto|].
    destruct (gtb (dist (fst s) a b) d) eqn:G.
    - specialize (IH (S k) (Some k) (from + k) (dist (fst s) a b)). rewrite Nat.add_succ_r in IH.
      destruct (farthest_seg _ _ _ _ _ _ _ _) as [mo' d']. destruct (farthest a b _ _ _) as [mn' d''].
      destruct IH as [-> [[-> ->]|H]]; split; auto. right. eauto.
    - specialize (IH (S k) mo mn d). rewrite Nat.add_succ_r in IH. exact IH.
  Qed.

  Lemma combine_trunc {X Y} (l : list X) : forall l' : list Y, combine l l' = combine l (firstn (length l) l').
  Proof. induction l as [|x l IH]; intros [|y l']; cbn; try reflexivity. rewrite IH. reflexivity. Qed.

  Lemma sub_length line from to : from <= to -> to <= length line -> length (sub line from to) = to - from.
  Proof. intros. unfold sub. rewrite firstn_length, skipn_length. lia. Qed.
  Lemma skipn_add {X} n m : forall l : list X, skipn n (skipn m l) = skipn (m + n) l.
  Proof. induction m as [|m IH]; intros l; [reflexivity|]. destruct l; [destruct n; reflexivity|]. apply IH. Qed.
  Lemma sub_left line from m to : from <= m -> m < to -> to <= length line -> sub line from (m + 1) = firstn (m - from + 1) (sub line from to).
  Proof. intros. unfold sub. rewrite firstn_firstn. f_equal. lia. Qed.
  Lemma sub_right line from m to : from <= m -> m < to -> to <= length line -> sub line m to = skipn (m - from) (sub line from to).
  Proof. intros. unfold sub. rewrite skipn_firstn_comm, skipn_add. f_equal; [lia|]. f_equal. lia. Qed.
  Lemma nth_sub line from to i : i < to - from -> nth_error (sub line from to) i = nth_error line (from + i).
  Proof. intros. unfold sub. rewrite nth_error_firstn_lt by lia. apply nth_error_skipn. Qed.

  Lemma keep_join tol line from m to i1 i2 :
    from <= m -> m < to -> to <= length line ->
    removable line tol from m i1 -> removable line tol m (to - 1) i2 ->
    pairs (keep (i1 ++ i2) from (sub line from to)) = pairs (keep i1 from (sub line from (m + 1))) ++ pairs (keep i2 m (sub line m to)).
  Proof.
    intros H1 H2 H3 R1 R2. rewrite (sub_left line from m to), (sub_right line from m to) by lia.
    set (s := sub line from to). set (j := m - from).
    assert (Ls : length s = to - from) by (apply sub_length; lia).
    rewrite <- (firstn_skipn j s) at 1. rewrite keep_app.
    destruct (skipn j s) as [|x r] eqn:E.
    { assert (K : length (skipn j s) = 0) by (rewrite E; reflexivity). rewrite skipn_length in K. unfold j in K. lia. }
    assert (Lj : length (firstn j s) = j) by (rewrite firstn_length; unfold j; lia). rewrite Lj.
    replace (from + j) with m by (unfold j; lia).
    assert (Fj : firstn (j + 1) s = firstn j s ++ [x]).
    { rewrite <- (firstn_skipn j s) at 1. rewrite E, firstn_app, Lj. replace (j + 1 - j) with 1 by lia.
      rewrite firstn_firstn. rewrite Nat.min_r by lia. reflexivity. }
    rewrite Fj, (keep_app i1), Lj. replace (from + j) with m by (unfold j; lia).
    assert (M1 : forall i, In i i1 -> from < i < m) by (apply R1). assert (M2 : forall i, In i i2 -> m < i < to - 1) by (apply R2).
    assert (Lr : length r = to - m - 1).
    { assert (K : length (skipn j s) = S (length r)) by (rewrite E; reflexivity). rewrite skipn_length in K. unfold j in K. lia. }
    rewrite (keep_ext (i1 ++ i2) i1 (firstn j s)).
    2: { intros i Hi. rewrite Lj in Hi. rewrite in_app_iff. split; [|auto]. intros [K|K]; [exact K|]. apply M2 in K. unfold j in Hi. lia. }
    rewrite (keep_ext (i1 ++ i2) i2 (x :: r)).
    2: { intros i Hi. rewrite in_app_iff. split; [|auto]. intros [K|K]; [|exact K]. apply M1 in K. lia. }
    cbn [keep].
    assert (Z1 : existsb (Nat.eqb m) i1 = false) by (apply not_true_iff_false; rewrite existsb_eqb_In; intros K; apply M1 in K; lia).
    assert (Z2 : existsb (Nat.eqb m) i2 = false) by (apply not_true_iff_false; rewrite existsb_eqb_In; intros K; apply M2 in K; lia).
    rewrite Z1, Z2. apply pairs_app.
  Qed.

  Lemma segs_agree tol : leb zero tol = true -> forall fuel line from to idx,
    from < to -> to <= length line ->
    simplify_indices fuel line from to tol = Ok idx -> to - from <= S fuel ->
    simplify_segs leb zero dist fuel (pairs (sub line from to)) tol = Ok (pairs (keep idx from (sub line from to))).
  Proof.
    intros Hz. induction fuel as [|fuel IH]; intros line from to idx H1 H2 E Hf.
    - assert (Es : length (sub line from to) = to - from) by (apply sub_length; lia).
      destruct (sub line from to) as [|x [|y l]] eqn:S; cbn in Es; try lia. cbn. destruct (existsb _ idx); reflexivity.
    - assert (Es : length (sub line from to) = to - from) by (apply sub_length; lia).
      destruct (simplify_indices_spec tol Hz (Datatypes.S fuel) line from to H1 H2 Hf) as (idx' & E' & R).
      rewrite E in E'. injection E' as <-.
      destruct (Nat.lt_ge_cases (to - from) 3) as [Hs|Hs].
      + assert (idx = []). { destruct idx as [|i idx]; [reflexivity|]. destruct (proj1 (proj2 R) i (or_introl eq_refl)). lia. }
        subst idx. rewrite keep_nil. destruct (sub line from to) as [|x [|y [|z l]]]; cbn in Es; try lia; reflexivity.
      + cbn [Simplify.simplify_indices] in E. destruct (Nat.leb_spec to from); [lia|]. cbn [orb] in E.
        destruct (Nat.ltb_spec (to - from) 2); [lia|]. destruct (Nat.leb_spec (length line) from); [lia|].
        destruct (Nat.ltb_spec (length line) to); [lia|]. cbn [orb] in E.
        destruct (nth_error line from) as [pa|] eqn:Na; [|apply nth_error_None in Na; lia]. cbn [derefO] in E.
        destruct (nth_error line (to - 1)) as [pb|] eqn:Nb; [|apply nth_error_None in Nb; lia]. cbn [derefO] in E.
        set (s := sub line from to) in *.
        assert (Ns : forall i, i < to - from -> nth_error s i = nth_error line (from + i)) by (intros; apply nth_sub; lia).
        assert (Shape : exists x y z l, s = x :: y :: z :: l) by (destruct s as [|x [|y [|z l]]]; cbn in Es; try lia; eauto).
        destruct Shape as (x & y & z & l & Sh).
        assert (Hx : x = pa). { specialize (Ns 0 ltac:(lia)). rewrite Sh, Nat.add_0_r, Na in Ns. cbn in Ns. congruence. }
        assert (Hb : last s x = pb).
        { rewrite <- (nth_error_nth s (to - from - 1) x (x := pb)).
          - rewrite <- Es. clear. destruct s as [|a s]; [reflexivity|]. cbn [length]. replace (S (length s) - 1) with (length s) by lia.
            revert a. induction s as [|b s IH]; intros a; [reflexivity|]. change (last (b :: s) x = nth (length s) (b :: s) x). apply IH.
          - rewrite Ns by lia. rewrite <- Nb. f_equal. lia. }
        assert (Inner : combine (seq (from + 1) (to - 1 - (from + 1))) (skipn (from + 1) line)
                        = combine (seq (from + 1) (length (pairs (y :: z :: l)))) (map fst (pairs (y :: z :: l)))).
        { assert (Ll : length (pairs (y :: z :: l)) = to - 1 - (from + 1)).
          { rewrite pairs_length. rewrite Sh in Es. cbn [length] in *. lia. }
          rewrite Ll, combine_trunc, seq_length. f_equal. rewrite pairs_fst.
          replace (length (y :: z :: l) - 1) with (to - 1 - (from + 1)) by (rewrite <- Ll, pairs_length; reflexivity).
          assert (Y : y :: z :: l = firstn (to - from - 1) (skipn (from + 1) line)).
          { change (y :: z :: l) with (skipn 1 (x :: y :: z :: l)). rewrite <- Sh. unfold s, sub. rewrite skipn_firstn_comm, skipn_add. reflexivity. }
          rewrite Y, firstn_firstn. f_equal. lia. }
        rewrite Inner in E. rewrite Sh, !pairs_cons. cbn [Simplify.simplify_segs]. change (snd (last _ _)) with (snd (last ((y, z) :: pairs (z :: l)) (x, y))).
        rewrite <- (pairs_cons y z l). rewrite pairs_last. cbn [fst].
        assert (Hb' : last (y :: z :: l) y = pb).
        { rewrite <- Hb, Sh. change (last (x :: y :: z :: l) x) with (last (y :: z :: l) x). clear.
          generalize y at 1 3. intros q. generalize dependent z. revert q. induction l as [|c l IH]; intros q z; [reflexivity|]. apply (IH z c). }
        rewrite Hb', Hx. pose proof (farthest_agree pa pb from (pairs (y :: z :: l)) 1 None 0 zero) as F.
        destruct (farthest_seg leb dist pa pb 1 (pairs (y :: z :: l)) None zero) as [mo d'] eqn:F1.
        destruct (farthest pa pb _ 0 zero) as [m e] eqn:F2. destruct F as [-> F].
        destruct (gtb e tol) eqn:G.
        * destruct (farthest_spec _ _ _ _ _ _ _ F2) as (_ & _ & C).
          destruct C as [[-> ->]|(_ & p & Hp & _)]; [exfalso; apply gtb_false in Hz; congruence|].
          rewrite <- Inner in Hp. apply in_combine_skip in Hp as [Hm _].
          destruct F as [[_ ->]|(j & -> & Em)]; [lia|]. cbn [derefO].
          destruct (simplify_indices_spec tol Hz fuel line from (m + 1)) as (i1 & E1 & R1); [lia|lia|lia|].
          destruct (simplify_indices_spec tol Hz fuel line m to) as (i2 & E2 & R2); [lia|lia|lia|].
          rewrite E1 in E. cbn [bindO] in E. rewrite E2 in E. cbn [bindO] in E. injection E as <-.
          rewrite <- Hx. change ((x, y) :: pairs (y :: z :: l)) with (pairs (x :: y :: z :: l)). rewrite <- Sh.
          rewrite pairs_firstn, pairs_skipn. replace j with (m - from) by lia.
          unfold s. rewrite <- (sub_left line from m to), <- (sub_right line from m to) by lia.
          rewrite (IH line from (m + 1) i1), (IH line m to i2) by (auto; lia). cbn [bindO].
          rewrite (keep_join tol line from m to i1 i2); auto; try lia.
          replace (m + 1 - 1) with m in R1 by lia. exact R1.
        * injection E as <-. 
          assert (K : keep (seq (from + 1) (to - 1 - (from + 1))) from s = [pa; pb]).
          { assert (Ss : s = firstn 1 s ++ firstn (to - from - 2) (skipn 1 s) ++ skipn (to - from - 1) s).
            { rewrite <- (firstn_skipn 1 s) at 1. f_equal. rewrite <- (firstn_skipn (to - from - 2) (skipn 1 s)) at 1. f_equal.
              rewrite skipn_add. f_equal. lia. }
            assert (S1 : firstn 1 s = [pa]) by (rewrite Sh; cbn; congruence).
            assert (S3 : skipn (to - from - 1) s = [pb]).
            { pose proof (Ns (to - from - 1) ltac:(lia)) as Nl. replace (from + (to - from - 1)) with (to - 1) in Nl by lia. rewrite Nb in Nl.
              destruct (skipn (to - from - 1) s) as [|w r] eqn:W.
              - assert (HW : length (skipn (to - from - 1) s) = 0) by (rewrite W; reflexivity). rewrite skipn_length in HW. lia.
              - assert (HW : length (skipn (to - from - 1) s) = S (length r)) by (rewrite W; reflexivity). rewrite skipn_length in HW.
                destruct r; [|cbn in HW; lia]. f_equal. replace (to - from - 1) with (to - from - 1 + 0) in Nl by lia.
                rewrite <- nth_error_skipn, W in Nl. cbn in Nl. congruence. }
            assert (L2 : length (firstn (to - from - 2) (skipn 1 s)) = to - from - 2) by (rewrite firstn_length, skipn_length; lia).
            rewrite Ss, !keep_app, S1, S3, L2. cbn [length].
            assert (K2 : keep (seq (from + 1) (to - 1 - (from + 1))) (from + 1) (firstn (to - from - 2) (skipn 1 s)) = []).
            { generalize L2. generalize (firstn (to - from - 2) (skipn 1 s)). intros t Lt.
              assert (G2 : forall t i, (forall j, i <= j < i + length t -> In j (seq (from + 1) (to - 1 - (from + 1)))) -> keep (seq (from + 1) (to - 1 - (from + 1))) i t = []).
              { clear. induction t as [|p t IH]; intros i H; cbn; [reflexivity|].
                rewrite (proj2 (existsb_eqb_In _ _)) by (apply H; cbn; lia). apply IH. intros j Hj. apply H. cbn; lia. }
              apply G2. intros j Hj. apply in_seq. lia. }
            rewrite K2. cbn [keep app].
            assert (Q1 : existsb (Nat.eqb from) (seq (from + 1) (to - 1 - (from + 1))) = false)
              by (apply not_true_iff_false; rewrite existsb_eqb_In, in_seq; lia).
            assert (Q2 : existsb (Nat.eqb (from + 1 + (to - from - 2))) (seq (from + 1) (to - 1 - (from + 1))) = false)
              by (apply not_true_iff_false; rewrite existsb_eqb_In, in_seq; lia).
            rewrite Q1, Q2. reflexivity. }
          rewrite <- Hx, <- Sh, K, Hx. reflexivity.
  Qed.

  Lemma sub_all line : sub line 0 (length line) = line.
  Proof. unfold sub. rewrite Nat.sub_0_r. cbn [skipn]. apply firstn_all. Qed.
  Lemma sub_snoc line from to p : from <= to -> nth_error line to = Some p -> sub line from (to + 1) = sub line from to ++ [p].
  Proof.
    intros H N. unfold sub. replace (to + 1 - from) with (S (to - from)) by lia.
    assert (N' : nth_error (skipn from line) (to - from) = Some p) by (rewrite nth_error_skipn; rewrite <- N; f_equal; lia).
    revert N'. generalize (skipn from line) (to - from). intros l k. revert l. induction k as [|k IH]; intros [|x l] K; try discriminate; cbn in *.
    - injection K as ->. reflexivity.
    - f_equal. apply IH; exact K.
  Qed.
  Lemma skipn_cons (line : list P) i p : nth_error line i = Some p -> skipn i line = p :: skipn (S i) line.
  Proof. revert line; induction i as [|n IH]; intros [|x l] H; try discriminate; cbn in *; [congruence|apply IH; exact H]. Qed.
  Lemma pairs_snoc l p q : pairs (l ++ [p; q]) = pairs (l ++ [p]) ++ [(p, q)].
  Proof. rewrite (pairs_app l p [q]). reflexivity. Qed.

  Notation segs_loop := (simplify_segs_loop leb zero dist azimuth turns_back).
  Notation rev_loop := (reversals_loop leb zero dist azimuth turns_back).

  Lemma loops_agree tol line : leb zero tol = true -> forall n i index indices pending it,
    i + n + 2 = length line -> index <= i ->
    removable line tol 0 index indices ->
    pending ++ [it] = pairs (sub line index (i + 2)) ->
    forall idx,
    bindO (rev_loop line tol n i index indices) (fun _ => []) (fun '(index, indices) =>
      bindO (simplify_indices (length line) line index (length line) tol) (fun l => l) (fun indices' => Ok (indices ++ indices'))) = Ok idx ->
    segs_loop (length line) tol (pairs (keep indices 0 (sub line 0 (index + 1)))) pending it (pairs (skipn (i + 1) line))
    = Ok (pairs (keep idx 0 line)).
  Proof.
    intros Hz. induction n as [|n IH]; intros i index indices pending it Hl Hi R Hp idx E.
    - cbn [reversals_loop bindO] in E.
      assert (Er : pairs (skipn (i + 1) line) = []).
      { assert (L : length (skipn (i + 1) line) = 1) by (rewrite skipn_length; lia).
        destruct (skipn (i + 1) line) as [|x [|y r]]; cbn in L; try lia; reflexivity. }
      rewrite Er. cbn [simplify_segs_loop]. rewrite Hp. replace (i + 2) with (length line) by lia.
      destruct (simplify_indices_spec tol Hz (length line) line index (length line)) as (i2 & E2 & R2); [lia|lia|lia|].
      rewrite E2 in E. cbn [bindO] in E. injection E as <-.
      rewrite (segs_agree tol Hz (length line) line index (length line) i2); auto; try lia. cbn [bindO].
      rewrite <- (keep_join tol line 0 index (length line) indices i2); auto; try lia. rewrite sub_all. reflexivity.
    - cbn [reversals_loop] in E.
      destruct (nth_error line i) as [p|] eqn:N0; [|apply nth_error_None in N0; lia]. cbn [derefO] in E.
      destruct (nth_error line (i + 1)) as [q|] eqn:N1; [|apply nth_error_None in N1; lia]. cbn [derefO] in E.
      destruct (nth_error line (i + 2)) as [r|] eqn:N2; [|apply nth_error_None in N2; lia]. cbn [derefO] in E.
      assert (Hit : it = (p, q)).
      { replace (i + 2) with (i + 1 + 1) in Hp by lia. rewrite (sub_snoc line index (i + 1) q) in Hp by (auto; lia).
        rewrite (sub_snoc line index i p) in Hp by (auto; lia). rewrite <- app_assoc in Hp. cbn [app] in Hp. rewrite pairs_snoc in Hp.
        apply app_inj_tail in Hp as [_ ->]. reflexivity. }
      assert (Hr : pairs (skipn (i + 1) line) = (q, r) :: pairs (skipn (i + 2) line)).
      { rewrite (skipn_cons line (i + 1) q N1). replace (S (i + 1)) with (i + 2) by lia.
        rewrite (skipn_cons line (i + 2) r N2). replace (S (i + 2)) with (i + 3) by lia. reflexivity. }
      rewrite Hr. cbn [simplify_segs_loop].
      assert (Hrev : seg_reversal azimuth turns_back it (q, r) = reversal azimuth turns_back p q r) by (rewrite Hit; reflexivity).
      rewrite Hrev. destruct (reversal azimuth turns_back p q r) eqn:Rv.
      + rewrite Hp.
        destruct (simplify_indices_spec tol Hz (length line) line index (i + 2)) as (i2 & E2 & R2); [lia|lia|lia|].
        rewrite (segs_agree tol Hz (length line) line index (i + 2) i2); auto; try lia. cbn [bindO]. rewrite E2 in E. cbn [bindO] in E.
        replace (i + 2 - 1) with (i + 1) in R2 by lia.
        rewrite <- (keep_join tol line 0 index (i + 2) indices i2); auto; try lia.
        2: { replace (i + 2 - 1) with (i + 1) by lia. exact R2. }
        replace (i + 2) with (S i + 1) by lia.
        replace (sub line 0 (S i + 1)) with (sub line 0 (i + 1 + 1)) by (f_equal; lia).
        apply (IH (S i) (i + 1) (indices ++ i2) [] (q, r)); auto; try lia.
        * apply (removable_join line tol 0 index (i + 1)); auto. lia.
        * unfold sub. replace (S i + 2 - (i + 1)) with 2 by lia. rewrite (skipn_cons line (i + 1) q N1).
          replace (S (i + 1)) with (i + 2) by lia. rewrite (skipn_cons line (i + 2) r N2). reflexivity.
      + replace (i + 2) with (S i + 1) by lia. apply (IH (S i) index indices (pending ++ [it]) (q, r)); auto; try lia.
        rewrite Hp. replace (S i + 2) with (i + 2 + 1) by lia. rewrite (sub_snoc line index (i + 2) r) by (auto; lia).
        replace (i + 2) with (i + 1 + 1) by lia. rewrite (sub_snoc line index (i + 1) q) by (auto; lia).
        rewrite <- app_assoc. cbn [app]. rewrite pairs_snoc. reflexivity.
  Qed.

  Lemma rich_segments_agree tol line retain idx : leb zero tol = true ->
    simplify_rich_line_indices leb zero dist azimuth turns_back line retain tol = Ok idx ->
    simplify_rich_segments leb zero dist azimuth turns_back (length line) (pairs line) retain tol = Ok (pairs (keep idx 0 line)).
  Proof.
    intros Hz E. unfold simplify_rich_line_indices, simplify_rich_segments in *. destruct retain.
    - destruct line as [|p [|q line]].
      + cbn in E. injection E as <-. reflexivity.
      + cbn in E. injection E as <-. reflexivity.
      + cbn [pairs]. set (l := p :: q :: line) in *.
        pose proof (loops_agree tol l Hz (length l - 2) 0 0 [] [] (p, q)) as L.
        assert (Sk : pairs (q :: line) = pairs (skipn (0 + 1) l)) by reflexivity.
        change (match line with [] => [] | b :: _ => (q, b) :: pairs line end) with (pairs (q :: line)). rewrite Sk.
        assert (D0 : pairs (keep [] 0 (sub l 0 (0 + 1))) = []) by reflexivity. rewrite D0 in L. apply L; auto.
        * unfold l; cbn; lia.
        * apply removable_nil.
    - destruct line as [|p line]; [cbn in E; injection E as <-; reflexivity|].
      rewrite <- (sub_all (p :: line)). rewrite (sub_all (p :: line)) at 1. apply (segs_agree tol Hz); auto; cbn [length]; lia.
  Qed.
End Proofs.
