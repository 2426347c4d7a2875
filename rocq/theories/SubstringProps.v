(** C47: cutting a part out of a line. *)
From Verif Require Import Base ListAux RichLine Substring.

Section C47.
  Context {P L : Type}.
  Variable eqp : P -> P -> bool.
  Variable dist : P -> P -> L.
  Variable addL : L -> L -> L.
  Variable zeroL : L.
  Variable leb : L -> L -> bool.
  Variable interp : list P -> L -> P.
  Variable closest : P -> P * P -> P.
  Notation ltb := (ltb leb).
  Notation eqL := (eqL leb).
  Notation substring := (substring eqp dist addL zeroL leb interp).
  Notation cut_loop := (cut_loop eqp dist addL leb).

  (** lengths are totally ordered, and adding the length of a segment makes a length strictly larger *)
  Hypothesis leb_total : forall a b, leb a b = true \/ leb b a = true.
  Hypothesis leb_trans : forall a b c, leb a b = true -> leb b c = true -> leb a c = true.
  Hypothesis eqp_refl : forall p, eqp p p = true.
  Hypothesis eqp_sym : forall p q, eqp p q = eqp q p.
  Hypothesis add_grows : forall x a b, eqp a b = false -> ltb x (addL x (dist a b)) = true.

  Lemma leb_refl a : leb a a = true. Proof. destruct (leb_total a a); assumption. Qed.
  Lemma ltb_iff a b : ltb a b = true <-> leb b a = false. Proof. unfold Substring.ltb. destruct (leb b a); cbn; intuition congruence. Qed.
  Lemma ltb_leb a b : ltb a b = true -> leb a b = true.
  Proof. rewrite ltb_iff. intros H. destruct (leb_total a b); congruence. Qed.
  Lemma leb_ltb_trans a b c : leb a b = true -> ltb b c = true -> ltb a c = true.
  Proof. rewrite !ltb_iff. intros H K. destruct (leb c a) eqn:E; [|reflexivity]. rewrite (leb_trans c a b E H) in K. discriminate. Qed.
  Lemma ltb_leb_trans a b c : ltb a b = true -> leb b c = true -> ltb a c = true.
  Proof. rewrite !ltb_iff. intros H K. destruct (leb c a) eqn:E; [|reflexivity]. rewrite (leb_trans b c a K E) in H. discriminate. Qed.
  Lemma ltb_false a b : ltb a b = false <-> leb b a = true.
  Proof. unfold Substring.ltb. destruct (leb b a); cbn; intuition congruence. Qed.

  (** the position of every point along the line: the first one is at [x], each further one farther by its distance *)
  Fixpoint positions (x : L) (line : list P) : list L :=
    match line with
    | [] => []
    | a :: r => x :: match r with [] => [] | b :: _ => positions (addL x (dist a b)) r end
    end.
  (** no two neighbouring points are equal *)
  Fixpoint proper (line : list P) : Prop :=
    match line with
    | a :: ((b :: _) as r) => eqp a b = false /\ proper r
    | _ => True
    end.
  (** the points strictly between two positions *)
  Definition inner (line : list P) (from to : L) : list P :=
    map fst (filter (fun y => ltb from (snd y) && ltb (snd y) to) (combine line (positions zeroL line))).
  (** an end point is not repeated if the neighbouring inner point equals it *)
  Definition with_ends (f : P) (mid : list P) (t : P) : list P :=
    match mid with
    | [] => [f; t]
    | m :: _ => (if eqp f m then [] else [f]) ++ mid ++ (if eqp (last mid m) t then [] else [t])
    end.

  Lemma positions_cons x a b r : positions x (a :: b :: r) = x :: positions (addL x (dist a b)) (b :: r).
  Proof. reflexivity. Qed.
  Lemma positions_length line : forall x, length (positions x line) = length line.
  Proof. induction line as [|a [|b r] IH]; intros x; [reflexivity|reflexivity|]. rewrite positions_cons. cbn [length]. rewrite IH. reflexivity. Qed.
  Lemma positions_ge line : forall x y, proper line -> In y (positions x line) -> leb x y = true.
  Proof.
    induction line as [|a [|b r] IH]; intros x y Hp H; [destruct H|destruct H as [<-|[]]; apply leb_refl|].
    rewrite positions_cons in H. destruct H as [<-|H]; [apply leb_refl|]. cbn in Hp. destruct Hp as [H1 H2].
    eapply leb_trans; [|apply (IH _ _ H2 H)]. apply ltb_leb, add_grows, H1.
  Qed.

  (** the number of elements up to the first one without a property *)
  Fixpoint plen (p : L -> bool) (xs : list L) : nat := match xs with [] => 0 | x :: r => if p x then S (plen p r) else 0 end.
  Lemma plen_le p xs : plen p xs <= length xs.
  Proof. induction xs; cbn; [lia|]. destruct (p a); lia. Qed.

  Lemma loop_found r : forall a i x fi size from to, proper (a :: r) -> ltb x to = true -> size = i + length (a :: r) ->
    cut_loop (segments (a :: r)) i x true fi size from to = Ok (fi, i + plen (fun y => ltb y to) (positions x (a :: r))).
  Proof.
    induction r as [|b r IH]; intros a i x fi size from to Hp Hx Hs.
    - cbn. rewrite Hx. cbn in Hs. f_equal. f_equal. lia.
    - cbn [proper] in Hp. destruct Hp as [H1 H2].
      change (segments (a :: b :: r)) with ((a, b) :: segments (b :: r)). cbn [Substring.cut_loop].
      rewrite H1. cbn [negb andb]. rewrite positions_cons. cbn [plen]. rewrite Hx.
      destruct (leb to (addL x (dist a b))) eqn:E.
      + assert (plen (fun y => ltb y to) (positions (addL x (dist a b)) (b :: r)) = 0) as ->; [|reflexivity].
        destruct r; cbn; unfold Substring.ltb; rewrite E; reflexivity.
      + rewrite IH; [|exact H2|unfold Substring.ltb; rewrite E; reflexivity|cbn in *; lia]. f_equal. f_equal. lia.
  Qed.
  Lemma loop_search r : forall a i x size from to, proper (a :: r) -> leb x from = true -> ltb from to = true -> size = i + length (a :: r) ->
    (exists y, In y (positions x (a :: r)) /\ ltb from y = true) ->
    cut_loop (segments (a :: r)) i x false 0 size from to
    = Ok (i + plen (fun y => leb y from) (positions x (a :: r)), i + plen (fun y => ltb y to) (positions x (a :: r))).
  Proof.
    induction r as [|b r IH]; intros a i x size from to Hp Hx Hft Hs (y & Hy & Hf).
    - destruct Hy as [<-|[]]. apply ltb_iff in Hf. congruence.
    - cbn [proper] in Hp. destruct Hp as [H1 H2]. rewrite positions_cons in Hy |- *.
      change (segments (a :: b :: r)) with ((a, b) :: segments (b :: r)). cbn [Substring.cut_loop].
      rewrite H1. cbn [negb andb plen]. rewrite Hx.
      assert (Hxt : ltb x to = true) by (eapply leb_ltb_trans; eauto). rewrite Hxt.
      destruct (ltb from (addL x (dist a b))) eqn:E.
      + assert (plen (fun y => leb y from) (positions (addL x (dist a b)) (b :: r)) = 0) as ->.
        { apply ltb_iff in E. destruct r; cbn; rewrite E; reflexivity. }
        destruct (leb to (addL x (dist a b))) eqn:E2.
        * assert (plen (fun y => ltb y to) (positions (addL x (dist a b)) (b :: r)) = 0) as ->; [|reflexivity].
          destruct r; cbn; unfold Substring.ltb; rewrite E2; reflexivity.
        * rewrite loop_found; [|exact H2|unfold Substring.ltb; rewrite E2; reflexivity|cbn in *; lia]. f_equal. f_equal. lia.
      + apply ltb_false in E.
        assert (E2 : leb to (addL x (dist a b)) = false).
        { apply ltb_iff. eapply leb_ltb_trans; eauto. }
        rewrite E2. rewrite IH; [f_equal; f_equal; lia|exact H2|exact E|exact Hft|cbn in *; lia|].
        destruct Hy as [<-|Hy]; [apply ltb_iff in Hf; congruence|]. exists y. auto.
  Qed.

  Lemma filter_none {T} (p : T -> bool) (l : list T) : (forall y, In y l -> p y = false) -> filter p l = [].
  Proof.
    induction l as [|y l IH]; intros H; [reflexivity|]. cbn. rewrite (H y (or_introl eq_refl)). apply IH. intros z Hz. apply H. right. exact Hz.
  Qed.
  Lemma slice line : forall x from to, proper line -> ltb from to = true ->
    let xs := positions x line in
    map fst (filter (fun y => ltb from (snd y) && ltb (snd y) to) (combine line xs))
    = firstn (plen (fun y => ltb y to) xs - plen (fun y => leb y from) xs) (skipn (plen (fun y => leb y from) xs) line).
  Proof.
    induction line as [|a [|b r] IH]; intros x from to Hp Hft xs.
    - reflexivity.
    - subst xs. cbn. destruct (leb x from) eqn:E1; [rewrite (proj2 (ltb_false from x) E1)|rewrite (proj2 (ltb_iff from x) E1)]; cbn [negb andb].
      + rewrite (leb_ltb_trans _ _ _ E1 Hft). reflexivity.
      + destruct (ltb x to); reflexivity.
    - destruct Hp as [H1 H2]. subst xs. rewrite positions_cons.
      set (xs := positions (addL x (dist a b)) (b :: r)) in *. set (l := b :: r) in *.
      change (combine (a :: l) (x :: xs)) with ((a, x) :: combine l xs). cbn [filter snd plen].
      assert (Hge : forall y, In y xs -> leb x y = true).
      { intros y Hy. apply (positions_ge (a :: l) x y); [split; assumption|]. right. exact Hy. }
      destruct (leb x from) eqn:E1; [rewrite (proj2 (ltb_false from x) E1)|rewrite (proj2 (ltb_iff from x) E1)]; cbn [negb andb].
      + rewrite (leb_ltb_trans _ _ _ E1 Hft). cbn [skipn]. apply IH; assumption.
      + destruct (ltb x to) eqn:E2; cbn [map fst].
        * specialize (IH (addL x (dist a b)) from to H2 Hft). cbv zeta in IH. fold xs in IH. rewrite IH.
          assert (plen (fun y => leb y from) xs = 0) as ->; [|rewrite Nat.sub_0_r; reflexivity].
          destruct xs as [|y ys] eqn:Ex; [reflexivity|]. cbn. specialize (Hge y (or_introl eq_refl)).
          destruct (leb y from) eqn:E; [|reflexivity]. rewrite (leb_trans _ _ _ Hge E) in E1. discriminate.
        * rewrite filter_none; [reflexivity|]. intros [q y] Hy. apply in_combine_r in Hy. cbn.
          apply ltb_false in E2. assert (ltb y to = false) as ->; [|apply andb_false_r]. apply ltb_false. eapply leb_trans; [exact E2|]. apply Hge. exact Hy.
  Qed.

  Lemma proper_has_length a b r : proper (a :: b :: r) -> plain_has_length eqp (a :: b :: r) = true.
  Proof. intros [H _]. unfold plain_has_length. change (segments (a :: b :: r)) with ((a, b) :: segments (b :: r)). cbn. rewrite H. reflexivity. Qed.
  (** the length of a line is the position of its last point *)
  Lemma length_loop r : forall a x h, proper (a :: r) -> (r <> [] \/ h = true) ->
    plain_length_loop eqp dist addL zeroL (segments (a :: r)) h x = Ok (last (positions x (a :: r)) zeroL).
  Proof.
    induction r as [|b r IH]; intros a x h Hp Hh.
    - cbn. destruct Hh as [Hh| ->]; [congruence|reflexivity].
    - destruct Hp as [H1 H2]. rewrite positions_cons. change (segments (a :: b :: r)) with ((a, b) :: segments (b :: r)).
      cbn [plain_length_loop]. rewrite H1, IH; [|exact H2|right; reflexivity].
      assert (positions (addL x (dist a b)) (b :: r) <> []) by (intros E; apply (f_equal (@length L)) in E; rewrite positions_length in E; discriminate).
      destruct (positions (addL x (dist a b)) (b :: r)); [congruence|reflexivity].
  Qed.
  Definition total (line : list P) : L := last (positions zeroL line) zeroL.
  Lemma line_length a b r : proper (a :: b :: r) -> plain_length eqp dist addL zeroL (a :: b :: r) = Ok (total (a :: b :: r)).
  Proof. intros H. unfold plain_length, total. apply length_loop; [exact H|left; discriminate]. Qed.

  Lemma last_map {A B} (f : A -> B) l d : last (map f l) (f d) = f (last l d).
  Proof. induction l as [|x [|y l] IH]; [reflexivity|reflexivity|]. exact IH. Qed.
  Lemma last_cons_any {T} (l : list T) (x d d' : T) : last (x :: l) d = last (x :: l) d'.
  Proof. revert x. induction l as [|y l IH]; intros x; [reflexivity|]. change (last (y :: l) d = last (y :: l) d'). apply IH. Qed.
  Lemma last_app_one {T} (l : list T) x d : last (l ++ [x]) d = x.
  Proof. apply last_last. Qed.

  Lemma merge_parts f mid t : mid <> [] ->
    plain_merge eqp (match mid with [] => [] | m :: _ => if negb (eqp f m) then [f; m] else [] end)
      [mid; match mid with [] => [] | m :: _ => if negb (eqp (last mid m) t) then [last mid m; t] else [] end] = Ok (with_ends f mid t).
  Proof.
    destruct mid as [|m mid]; [congruence|]. intros _. unfold plain_merge, with_ends. cbn [foldO].
    set (l := last (m :: mid) m).
    assert (S1 : merge_single eqp (if negb (eqp f m) then [f; m] else []) (m :: mid) = Ok ((if eqp f m then [] else [f]) ++ m :: mid)).
    { destruct (eqp f m); cbn; [reflexivity|]. rewrite eqp_refl. reflexivity. }
    rewrite S1. cbn [bindO].
    destruct (eqp l t) eqn:E; cbn [negb]; [rewrite app_nil_r; reflexivity|]. cbn [foldO merge_single].
    assert (Ne : (if eqp f m then [] else [f]) ++ m :: mid <> []) by (destruct (eqp f m); discriminate).
    destruct ((if eqp f m then [] else [f]) ++ m :: mid) as [|q qs] eqn:Eq; [congruence|].
    assert (Hl : last (q :: qs) l = l).
    { rewrite <- Eq. unfold l. destruct (eqp f m); cbn [app]; [apply last_cons_any|]. change (last (m :: mid) (last (m :: mid) m) = last (m :: mid) m). apply last_cons_any. }
    rewrite Hl, eqp_refl. cbn [bindO]. rewrite <- Eq, app_assoc. reflexivity.
  Qed.

  (** Cutting: if the line has no equal neighbours, the positions are in order and the start lies on the line, the result
      consists of exactly the points strictly between the positions and the two end points: the given ones or those
      interpolated at the positions. (The call with both end points given and equal, and the one for the whole line, follow.) *)
  Theorem C47_cut line from to fp tp uf ut : proper line -> 2 <= length line ->
    leb zeroL from = true -> ltb from to = true -> ltb from (total line) = true ->
    uf && ut && eqp fp tp = false -> eqL from zeroL && eqL to (total line) = false ->
    substring line from to fp tp uf ut
    = Ok (with_ends (if uf then fp else interp line from) (inner line from to) (if ut then tp else interp line to)).
  Proof.
    intros Hp Hn H0 Hft Hend Hu Hw. destruct line as [|a [|b r]]; cbn in Hn; [lia|lia|]. unfold Substring.substring.
    rewrite Hu, (proper_has_length a b r Hp), (line_length a b r Hp), Hw, Hft. cbn [andb].
    pose proof (loop_search (b :: r) a 0 zeroL (length (a :: b :: r)) from to Hp H0 Hft eq_refl) as Lp.
    set (line := a :: b :: r) in *. rewrite Lp; clear Lp.
    2: { exists (total line). split; [|exact Hend]. unfold total. fold line.
         destruct (positions zeroL line) as [|y ys] eqn:E; [apply (f_equal (@length L)) in E; rewrite positions_length in E; discriminate|].
         clear; revert y; induction ys as [|z ys IH]; intros y; [left; reflexivity|right; apply IH]. }
    cbn [bindO fst snd plus]. fold line. set (f := plen (fun y => leb y from) (positions zeroL line)). set (t := plen (fun y => ltb y to) (positions zeroL line)).
    assert (Hf : f < length line).
    { subst f. rewrite <- (positions_length line zeroL). unfold total in Hend. apply ltb_iff in Hend. revert Hend.
      assert (Ne : positions zeroL line <> []) by (intros E; apply (f_equal (@length L)) in E; rewrite positions_length in E; discriminate).
      clear -Ne. intros H. induction (positions zeroL line) as [|y ys IH]; [congruence|]. cbn. destruct (leb y from) eqn:E; [|lia].
      destruct ys as [|z ys]; [cbn in H; congruence|]. specialize (IH ltac:(discriminate) H). cbn in *. lia. }
    assert (Ht : t <= length line) by (subst t; rewrite <- (positions_length line zeroL); apply plen_le).
    assert (Hft' : f <= t).
    { subst f t. clear -Hft leb_trans leb_total. induction (positions zeroL line) as [|y ys IH]; [cbn; lia|]. cbn. destruct (leb y from) eqn:E; [|lia].
      rewrite (leb_ltb_trans _ _ _ E Hft). lia. }
    unfold sub_line. rewrite (proj2 (Nat.leb_le _ _) Hft'), (proj2 (Nat.ltb_lt _ _) Hf), (proj2 (Nat.leb_le _ _) Ht). cbn [andb bindO].
    pose proof (slice line zeroL from to Hp Hft) as Sl. cbv zeta in Sl. fold f t in Sl. fold (inner line from to) in Sl. rewrite <- Sl.
    set (fpt := if uf then fp else interp line from). set (tpt := if ut then tp else interp line to).
    destruct (inner line from to) as [|m mid] eqn:Ei; [reflexivity|].
    apply (merge_parts fpt (m :: mid) tpt). discriminate.
  Qed.

  (** The remaining calls: nothing is cut out of an empty line, between equal end points or against the direction; the whole
      line is asked for by its two ends; a single point stays. *)
  Theorem C47_rest line from to fp tp uf ut :
    (line = [] \/ uf && ut && eqp fp tp = true -> substring line from to fp tp uf ut = Ok [])
    /\ (forall p, line = [p] -> uf && ut && eqp fp tp = false -> substring line from to fp tp uf ut = Ok [p])
    /\ (proper line -> 2 <= length line -> uf && ut && eqp fp tp = false ->
         (eqL from zeroL && eqL to (total line) = true -> substring line from to fp tp uf ut = Ok line)
         /\ (leb to from = true -> eqL from zeroL && eqL to (total line) = false -> substring line from to fp tp uf ut = Ok [])).
  Proof.
    split; [|split].
    - intros [->|H]; [reflexivity|]. unfold Substring.substring. destruct line as [|a [|b r]]; [reflexivity| |]; rewrite H; reflexivity.
    - intros p -> H. cbn. rewrite H. reflexivity.
    - intros Hp Hn Hu. destruct line as [|a [|b r]]; cbn in Hn; [lia|lia|]. unfold Substring.substring.
      rewrite Hu, (proper_has_length a b r Hp), (line_length a b r Hp). cbn [andb]. split.
      + intros ->. reflexivity.
      + intros H ->. cbn [andb]. unfold Substring.ltb. rewrite H. reflexivity.
  Qed.

  Lemma segments_nth (line : list P) : forall i a b, nth_error (segments line) i = Some (a, b) <-> nth_error line i = Some a /\ nth_error line (S i) = Some b.
  Proof.
    induction line as [|a [|b r] IH]; intros i c d.
    - destruct i; split; [discriminate|intros [H _]; discriminate|discriminate|intros [H _]; discriminate].
    - destruct i; cbn; (split; [discriminate|]); intros [_ H]; [discriminate|destruct i; discriminate].
    - change (segments (a :: b :: r)) with ((a, b) :: segments (b :: r)). destruct i as [|i].
      + cbn. split; [intros H; injection H as -> ->; auto|intros [H1 H2]; congruence].
      + cbn [nth_error]. apply IH.
  Qed.
  Lemma segments_length (line : list P) : length (segments line) = length line - 1.
  Proof. induction line as [|a [|b r] IH]; [reflexivity|reflexivity|]. change (segments (a :: b :: r)) with ((a, b) :: segments (b :: r)). cbn [length]. rewrite IH. cbn. lia. Qed.
  Lemma proper_nth line : forall i a b, proper line -> nth_error (segments line) i = Some (a, b) -> eqp a b = false.
  Proof.
    induction line as [|a [|b r] IH]; intros i c d Hp N; [destruct i; discriminate|destruct i; discriminate|].
    change (segments (a :: b :: r)) with ((a, b) :: segments (b :: r)) in N. destruct Hp as [H1 H2]. destruct i as [|i]; cbn [nth_error] in N.
    - injection N as <- <-. exact H1.
    - apply (IH i c d H2 N).
  Qed.
  Lemma positions_step line : forall i x a b y, nth_error (segments line) i = Some (a, b) -> nth_error (positions x line) i = Some y ->
    nth_error (positions x line) (S i) = Some (addL y (dist a b)).
  Proof.
    induction line as [|a [|b r] IH]; intros i x c d y N Ny; [destruct i; discriminate|destruct i; discriminate|].
    change (segments (a :: b :: r)) with ((a, b) :: segments (b :: r)) in N. rewrite positions_cons in *. destruct i as [|i]; cbn [nth_error] in N, Ny |- *.
    - injection N as <- <-. injection Ny as <-. destruct r; reflexivity.
    - apply (IH i _ c d y N Ny).
  Qed.
  Lemma positions_lt line x : proper line -> forall j i y z, i < j -> nth_error (positions x line) i = Some y -> nth_error (positions x line) j = Some z ->
    ltb y z = true.
  Proof.
    intros Hp. induction j as [|j IH]; intros i y z Hij Ny Nz; [lia|].
    destruct (nth_error (positions x line) j) as [w|] eqn:Nw.
    2: { apply nth_error_None in Nw. assert (S j < length (positions x line)) by (apply nth_error_Some; congruence). lia. }
    destruct (nth_error (segments line) j) as [[a b]|] eqn:Ns.
    2: { apply nth_error_None in Ns. rewrite segments_length in Ns. assert (S j < length (positions x line)) by (apply nth_error_Some; congruence). rewrite positions_length in *. lia. }
    pose proof (positions_step line j x a b w Ns Nw) as E. rewrite E in Nz. injection Nz as <-.
    pose proof (add_grows w a b (proper_nth line j a b Hp Ns)) as G.
    destruct (Nat.eq_dec i j) as [->|Ne]; [congruence|]. eapply ltb_leb_trans; [apply (IH i y w); [lia|exact Ny|reflexivity]|apply ltb_leb, G].
  Qed.
  Lemma plen_eq (q : L -> bool) xs : forall m, m <= length xs -> (forall i x, i < m -> nth_error xs i = Some x -> q x = true) ->
    (forall x, nth_error xs m = Some x -> q x = false) -> plen q xs = m.
  Proof.
    induction xs as [|x xs IH]; intros m Hm H1 H2; cbn in Hm; [cbn; lia|]. cbn. destruct m as [|m].
    - rewrite (H2 x eq_refl). reflexivity.
    - rewrite (H1 0 x ltac:(lia) eq_refl). f_equal. apply IH; [lia| |].
      + intros i y Hi N. apply (H1 (S i) y); [lia|exact N].
      + intros y N. apply (H2 y N).
  Qed.

  (** the inner points as a slice: between a position in the [i]th gap and one in the [j]th *)
  Lemma inner_slice line from to i j : proper line -> ltb from to = true -> i <= length line -> j <= length line ->
    (forall k x, nth_error (positions zeroL line) k = Some x -> (k < i -> leb x from = true) /\ (k = i -> ltb from x = true)) ->
    (forall k x, nth_error (positions zeroL line) k = Some x -> (k < j -> ltb x to = true) /\ (k = j -> leb to x = true)) ->
    inner line from to = firstn (j - i) (skipn i line).
  Proof.
    intros Hp Hft Hi Hj H1 H2. unfold inner. pose proof (slice line zeroL from to Hp Hft) as S. cbv zeta in S. rewrite S.
    rewrite (plen_eq (fun y => leb y from) _ i), (plen_eq (fun y => ltb y to) _ j); try reflexivity.
    - rewrite positions_length. exact Hj.
    - intros k x Hk N. apply (proj1 (H2 k x N) Hk).
    - intros x N. apply ltb_false. apply (proj2 (H2 j x N) eq_refl).
    - rewrite positions_length. exact Hi.
    - intros k x Hk N. apply (proj1 (H1 k x N) Hk).
    - intros x N. apply ltb_iff. apply (proj2 (H1 i x N) eq_refl).
  Qed.
  Lemma last_nth {T} (l : list T) d : l <> [] -> nth_error l (length l - 1) = Some (last l d).
  Proof.
    induction l as [|x [|y l] IH]; intros H; [congruence|reflexivity|]. change (last (x :: y :: l) d) with (last (y :: l) d).
    rewrite <- IH by discriminate. cbn. rewrite Nat.sub_0_r. reflexivity.
  Qed.
  Lemma total_nth line : line <> [] -> nth_error (positions zeroL line) (length line - 1) = Some (total line).
  Proof.
    intros H. unfold total. rewrite <- (positions_length line zeroL). apply last_nth. intros E. apply (f_equal (@length L)) in E.
    rewrite positions_length in E. destruct line; [congruence|discriminate].
  Qed.
  Lemma pos_zero line x : nth_error (positions zeroL line) 0 = Some x -> x = zeroL.
  Proof. destruct line as [|a [|b r]]; cbn; congruence. Qed.

  (** *** Distances along the line *)
  Notation nearest := (nearest eqp dist leb closest).
  Notation distances := (distances eqp dist addL zeroL leb closest).
  Hypothesis dist_zero : forall p, dist p p = zeroL.
  Hypothesis dist_pos : forall p q, leb zeroL (dist p q) = true.
  Hypothesis add_zero : forall x, addL x zeroL = x.

  Lemma nearest_hit exact p u l1 : forall i s l2 best found,
    (forall j t, In (j, t) l1 -> eqp (fst t) (snd t) = false /\ eqp p (exact t) = false) ->
    eqp (fst s) (snd s) = false -> eqp p (exact s) = true ->
    nearest exact p u (l1 ++ (i, s) :: l2) best found = Ok (Some (i, p)).
  Proof.
    induction l1 as [|[j t] l1 IH]; intros i s l2 best found H1 H2 H3; cbn [app Substring.nearest].
    - rewrite H2, H3. reflexivity.
    - destruct (H1 j t (or_introl eq_refl)) as [-> ->]. destruct (match best with None => true | Some b => ltb (dist p (closest p t)) b end);
        apply IH; auto; intros j' t' H; apply (H1 j' t'); right; exact H.
  Qed.
  Lemma nearest_rest exact p u l : forall d found,
    (forall j t, In (j, t) l -> eqp (fst t) (snd t) = false /\ eqp p (exact t) = false /\ leb d (dist p (closest p t)) = true) ->
    nearest exact p u l (Some d) found = Ok found.
  Proof.
    induction l as [|[j t] l IH]; intros d found H; cbn [Substring.nearest]; [reflexivity|].
    destruct (H j t (or_introl eq_refl)) as (-> & -> & H3). unfold Substring.ltb. rewrite H3. cbn [negb].
    apply IH. intros j' t' H'. apply (H j' t'). right. exact H'.
  Qed.
  Lemma nearest_min exact p l1 : forall i s l2 best found,
    (forall j t, In (j, t) (l1 ++ l2) -> eqp (fst t) (snd t) = false /\ eqp p (exact t) = false
       /\ ltb (dist p (closest p s)) (dist p (closest p t)) = true) ->
    eqp (fst s) (snd s) = false -> eqp p (exact s) = false ->
    match best with None => True | Some b => ltb (dist p (closest p s)) b = true end ->
    nearest exact p true (l1 ++ (i, s) :: l2) best found = Ok (Some (i, p)).
  Proof.
    induction l1 as [|[j t] l1 IH]; intros i s l2 best found H1 H2 H3 H4; cbn [app Substring.nearest].
    - rewrite H2, H3. assert (match best with None => true | Some b => ltb (dist p (closest p s)) b end = true) as ->.
      { destruct best; [exact H4|reflexivity]. }
      apply nearest_rest. intros j t H. destruct (H1 j t H) as (A & B & C). split; [exact A|]. split; [exact B|]. apply ltb_leb. exact C.
    - destruct (H1 j t (or_introl eq_refl)) as (-> & -> & C). 
      destruct (match best with None => true | Some b => ltb (dist p (closest p t)) b end);
        apply IH; auto; intros j' t' H; apply (H1 j' t'); right; exact H.
  Qed.

  Lemma combine_seq_nth {T} (l : list T) : forall n i x, In (i, x) (combine (seq n (length l)) l) <-> n <= i /\ nth_error l (i - n) = Some x.
  Proof.
    induction l as [|y l IH]; intros n i x; cbn [length seq combine].
    - split; [intros []|]. intros [_ H]. destruct (i - n); discriminate.
    - split.
      + intros [E|H]; [injection E as -> ->; rewrite Nat.sub_diag; auto|]. apply IH in H. destruct H as [H1 H2]. split; [lia|].
        replace (i - n) with (S (i - S n)) by lia. exact H2.
      + intros [H1 H2]. destruct (Nat.eq_dec i n) as [->|Ne]; [left; rewrite Nat.sub_diag in H2; cbn in H2; congruence|]. right. apply IH.
        split; [lia|]. replace (i - n) with (S (i - S n)) in H2 by lia. exact H2.
  Qed.
  Lemma combine_app' {A B} (l1 : list A) : forall (m1 : list B) l2 m2, length l1 = length m1 -> combine (l1 ++ l2) (m1 ++ m2) = combine l1 m1 ++ combine l2 m2.
  Proof. induction l1 as [|x l1 IH]; intros [|y m1] l2 m2 H; try discriminate; [reflexivity|]. cbn. f_equal. apply IH. cbn in H. lia. Qed.
  Lemma indexed_split (line : list P) k s : nth_error (segments line) k = Some s ->
    exists l1 l2, indexed line = l1 ++ (k, s) :: l2 /\ (forall j t, In (j, t) l1 -> j < k /\ nth_error (segments line) j = Some t)
      /\ (forall j t, In (j, t) l2 -> k < j /\ nth_error (segments line) j = Some t).
  Proof.
    intros N. unfold indexed. set (segs := segments line) in *. clearbody segs.
    destruct (nth_error_split segs k N) as (s1 & s2 & -> & <-).
    exists (combine (seq 0 (length s1)) s1), (combine (seq (S (length s1)) (length s2)) s2). split; [|split].
    - rewrite app_length. cbn [length]. rewrite seq_app. cbn [seq plus]. rewrite combine_app' by (rewrite seq_length; reflexivity).
      reflexivity.
    - intros j t H. apply combine_seq_nth in H. rewrite Nat.sub_0_r in H. destruct H as [_ H].
      assert (j < length s1) by (apply nth_error_Some; congruence). split; [assumption|]. rewrite nth_error_app1 by assumption. exact H.
    - intros j t H. apply combine_seq_nth in H. destruct H as [H1 H2]. split; [lia|]. rewrite nth_error_app2 by lia.
      replace (j - length s1) with (S (j - S (length s1))) by lia. exact H2.
  Qed.

  (** the position of a projection lying in segment [k] *)
  Definition value_at (line : list P) (k : nat) (proj : P) (v : L) : Prop :=
    exists a b y, nth_error (segments line) k = Some (a, b) /\ nth_error (positions zeroL line) k = Some y
      /\ v = if eqp b proj then addL y (dist a b) else addL y (dist a proj).

  Definition ainv (k : option (nat * P)) (i : nat) (x d : L) (f : bool) (line : list P) (v : L) : Prop :=
    match k with
    | None => f = true /\ d = v
    | Some (k, proj) =>
        (k < i /\ f = true /\ d = v)
        \/ (i <= k /\ f = false /\ d = x /\ exists a b y, nth_error (segments line) (k - i) = Some (a, b) /\ nth_error (positions x line) (k - i) = Some y
            /\ v = if eqp b proj then addL y (dist a b) else addL y (dist a proj))
    end.
  Lemma along_step k i x d f a b r v d1 f1 : ainv k i x d f (a :: b :: r) v -> along eqp dist addL k i a b d f = (d1, f1) ->
    ainv k (i + 1) (addL x (dist a b)) d1 f1 (b :: r) v.
  Proof.
    unfold ainv, along. destruct k as [[k proj]|]; [|intros [-> ->] E; injection E as <- <-; auto].
    intros [(H1 & -> & ->)|(H1 & -> & -> & p & q & y & N1 & N2 & ->)].
    - destruct (Nat.ltb_spec i k); [lia|]. destruct (Nat.eqb_spec i k); [lia|]. intros E. injection E as <- <-. left. split; [lia|auto].
    - destruct (Nat.ltb_spec i k) as [Hk|Hk].
      + intros E. injection E as <- <-. right. split; [lia|]. split; [reflexivity|]. split; [reflexivity|]. exists p, q, y.
        change (segments (a :: b :: r)) with ((a, b) :: segments (b :: r)) in N1. rewrite positions_cons in N2.
        replace (k - i) with (S (k - (i + 1))) in N1, N2 by lia. auto.
      + assert (k = i) by lia. subst k. rewrite Nat.sub_diag in N1, N2. rewrite Nat.eqb_refl.
        change (segments (a :: b :: r)) with ((a, b) :: segments (b :: r)) in N1. rewrite positions_cons in N2. cbn in N1, N2.
        injection N1 as <- <-. injection N2 as <-. destruct (eqp b proj); intros E; injection E as <- <-; left; split; auto; lia.
  Qed.
  Lemma along_spec r : forall a i x kf kt df dt ff ft vf vt, proper (a :: r) ->
    ainv kf i x df ff (a :: r) vf -> ainv kt i x dt ft (a :: r) vt ->
    along_loop eqp dist addL (segments (a :: r)) i kf kt df dt ff ft = Ok (vf, vt).
  Proof.
    induction r as [|b r IH]; intros a i x kf kt df dt ff ft vf vt Hp Hf Ht.
    - cbn. assert (X : forall k d f v, ainv k i x d f [a] v -> d = v).
      { intros k d f v H. unfold ainv in H. destruct k as [[k proj]|]; [|apply H]. destruct H as [(_ & _ & H)|(_ & _ & _ & p & q & y & N & _)]; [exact H|].
        destruct (k - i); discriminate. }
      rewrite (X _ _ _ _ Hf), (X _ _ _ _ Ht). reflexivity.
    - destruct Hp as [H1 H2]. change (segments (a :: b :: r)) with ((a, b) :: segments (b :: r)). cbn [along_loop]. rewrite H1.
      destruct (along eqp dist addL kf i a b df ff) as [df1 ff1] eqn:E1. destruct (along eqp dist addL kt i a b dt ft) as [dt1 ft1] eqn:E2.
      apply (along_step _ _ _ _ _ _ _ _ _ _ _ Hf) in E1. apply (along_step _ _ _ _ _ _ _ _ _ _ _ Ht) in E2.
      destruct (ff1 && ft1) eqn:E; [|apply IH with (x := addL x (dist a b)); assumption].
      apply andb_true_iff in E. destruct E as [-> ->].
      assert (X : forall k d v, ainv k (i + 1) (addL x (dist a b)) d true (b :: r) v -> d = v).
      { intros k d v H. unfold ainv in H. destruct k as [[k proj]|]; [|apply H]. destruct H as [(_ & _ & H)|(_ & H & _)]; [exact H|discriminate]. }
      rewrite (X _ _ _ E1), (X _ _ _ E2). reflexivity.
  Qed.
  Lemma value_ainv line k proj v : value_at line k proj v -> ainv (Some (k, proj)) 0 zeroL zeroL false line v.
  Proof.
    intros (a & b & y & N1 & N2 & ->). right. split; [lia|]. split; [reflexivity|]. split; [reflexivity|]. exists a, b, y. rewrite Nat.sub_0_r. auto.
  Qed.

  (** all points of the line differ *)
  Definition distinct (line : list P) : Prop :=
    forall i j p q, nth_error line i = Some p -> nth_error line j = Some q -> eqp p q = true -> i = j.
  Lemma distinct_proper line : distinct line -> proper line.
  Proof.
    induction line as [|a [|b r] IH]; intros H; [exact I|exact I|]. split.
    - destruct (eqp a b) eqn:E; [|reflexivity]. specialize (H 0 1 a b eq_refl eq_refl E). discriminate.
    - apply IH. intros i j p q N1 N2 E. specialize (H (S i) (S j) p q N1 N2 E). lia.
  Qed.
  Lemma leb_ltb_false a b : leb a b = true -> ltb b a = false. Proof. intros H. apply ltb_false. exact H. Qed.

  Lemma nearest_from_vertex line i p u : distinct line -> S i < length line -> nth_error line i = Some p ->
    nearest_from eqp dist leb closest line p u = Ok (i, p).
  Proof.
    intros Hd Hi N. assert (Hp := distinct_proper _ Hd). unfold nearest_from.
    destruct (nth_error line (S i)) as [q|] eqn:Nq; [|apply nth_error_None in Nq; lia].
    assert (Ns : nth_error (segments line) i = Some (p, q)) by (apply segments_nth; auto).
    destruct (indexed_split line i (p, q) Ns) as (l1 & l2 & -> & A1 & A2).
    rewrite nearest_hit; cbn [bindO derefO].
    - rewrite Ns. cbn [derefO]. rewrite (proper_nth line i p q Hp Ns), dist_zero, (leb_ltb_false _ _ (dist_pos p q)). reflexivity.
    - intros j [c d] H. apply A1 in H. destruct H as [Hj Nj]. cbn. split; [apply (proper_nth line j c d Hp Nj)|].
      destruct (eqp p c) eqn:E; [|reflexivity]. apply segments_nth in Nj. rewrite eqp_sym in E. specialize (Hd j i c p (proj1 Nj) N E). lia.
    - apply (proper_nth line i p q Hp Ns).
    - apply eqp_refl.
  Qed.
  Lemma nearest_to_vertex line j p u : distinct line -> nth_error line (S j) = Some p ->
    nearest_to eqp dist leb closest line p u = Ok (j, p).
  Proof.
    intros Hd N. assert (Hp := distinct_proper _ Hd). unfold nearest_to.
    destruct (nth_error line j) as [q|] eqn:Nq; [|apply nth_error_None in Nq; assert (S j < length line) by (apply nth_error_Some; congruence); lia].
    assert (Ns : nth_error (segments line) j = Some (q, p)) by (apply segments_nth; auto).
    destruct (indexed_split line j (q, p) Ns) as (l1 & l2 & -> & A1 & A2).
    rewrite rev_app_distr. cbn [rev]. rewrite <- app_assoc. cbn [app]. rewrite nearest_hit; cbn [bindO derefO].
    - rewrite Ns. cbn [derefO]. rewrite (proper_nth line j q p Hp Ns), dist_zero, (leb_ltb_false _ _ (dist_pos q p)). reflexivity.
    - intros k [c d] H. apply in_rev in H. apply A2 in H. destruct H as [Hk Nk]. cbn. split; [apply (proper_nth line k c d Hp Nk)|].
      destruct (eqp p d) eqn:E; [|reflexivity]. apply segments_nth in Nk. rewrite eqp_sym in E. specialize (Hd (S k) (S j) d p (proj2 Nk) N E). lia.
    - apply (proper_nth line j q p Hp Ns).
    - apply eqp_refl.
  Qed.

  (** Distances: for two points of a line whose points all differ they are the positions of these points. *)
  Theorem C47_distances line i j p q x y uf ut : distinct line -> S i < length line -> 0 < j ->
    nth_error line i = Some p -> nth_error line j = Some q ->
    nth_error (positions zeroL line) i = Some x -> nth_error (positions zeroL line) j = Some y ->
    distances line p q true true uf ut = Ok (x, y).
  Proof.
    intros Hd Hi Hj Np Nq Nx Ny. assert (Hp := distinct_proper _ Hd). unfold Substring.distances.
    destruct (Nat.leb_spec (length line) 1); [lia|]. rewrite (nearest_from_vertex line i p uf Hd Hi Np). cbn [bindO].
    destruct j as [|j]; [lia|]. rewrite (nearest_to_vertex line j q ut Hd Nq). cbn [bindO negb].
    destruct line as [|a r]; [cbn in *; lia|]. apply along_spec with (x := zeroL); [exact Hp| |].
    - apply value_ainv. destruct (nth_error (a :: r) (S i)) as [b|] eqn:Nb; [|apply nth_error_None in Nb; lia].
      exists p, b, x. split; [apply segments_nth; auto|]. split; [exact Nx|]. rewrite dist_zero, add_zero.
      destruct (eqp b p) eqn:E; [|reflexivity]. specialize (Hd (S i) i b p Nb Np E). lia.
    - apply value_ainv. destruct (nth_error (a :: r) j) as [b|] eqn:Nb; [|apply nth_error_None in Nb; assert (S j < length (a :: r)) by (apply nth_error_Some; congruence); lia].
      assert (Ns : nth_error (segments (a :: r)) j = Some (b, q)) by (apply segments_nth; auto).
      destruct (nth_error (positions zeroL (a :: r)) j) as [z|] eqn:Nz.
      2: { apply nth_error_None in Nz. assert (S j < length (positions zeroL (a :: r))) by (apply nth_error_Some; congruence). lia. }
      exists b, q, z. split; [exact Ns|]. split; [exact Nz|]. rewrite eqp_refl.
      pose proof (positions_step (a :: r) j zeroL b q z Ns Nz). congruence.
  Qed.

  Lemma slice_ends (line : list P) i j p q : i < j -> nth_error line i = Some p -> nth_error line j = Some q ->
    firstn (S j - i) (skipn i line) = p :: firstn (j - S i) (skipn (S i) line) ++ [q].
  Proof.
    revert i j. induction line as [|a l IH]; intros i j H N1 N2; [destruct i; discriminate|]. destruct j as [|j]; [lia|]. destruct i as [|i].
    - cbn in N1. injection N1 as ->. cbn [skipn]. change (S (S j) - 0) with (S (S j)). cbn [firstn]. f_equal. replace (S j - 1) with j by lia. cbn in N2.
      clear -N2. revert j N2. induction l as [|b l IH]; intros j N; [destruct j; discriminate|]. destruct j as [|j]; cbn in N |- *; [congruence|].
      f_equal. apply IH. exact N.
    - cbn [skipn]. cbn in N1, N2. replace (S (S j) - S i) with (S j - i) by lia. replace (S j - S (S i)) with (j - S i) by lia. apply IH; auto; lia.
  Qed.

  (** Cutting between two points of the line yields exactly the points from the one to the other. *)
  Theorem C47_points line i j p q : distinct line -> i < j ->
    nth_error line i = Some p -> nth_error line j = Some q ->
    substring_points eqp dist addL zeroL leb interp closest line p q true true = Ok (firstn (S j - i) (skipn i line)).
  Proof.
    intros Hd Hij Np Nq. assert (Hp := distinct_proper _ Hd). assert (Hj : j < length line) by (apply nth_error_Some; congruence).
    unfold substring_points.
    destruct (nth_error (positions zeroL line) i) as [x|] eqn:Nx; [|apply nth_error_None in Nx; rewrite positions_length in Nx; lia].
    destruct (nth_error (positions zeroL line) j) as [y|] eqn:Ny; [|apply nth_error_None in Ny; rewrite positions_length in Ny; lia].
    rewrite (C47_distances line i j p q x y true true) by (auto; lia). cbn [bindO fst snd].
    assert (Hxy : ltb x y = true) by (apply (positions_lt line zeroL Hp j i x y); auto).
    assert (Hpq : eqp p q = false).
    { destruct (eqp p q) eqn:E; [|reflexivity]. specialize (Hd i j p q Np Nq E). lia. }
    assert (Hne : line <> []) by (intros ->; cbn in Hj; lia).
    assert (Htot : leb y (total line) = true).
    { destruct (Nat.eq_dec j (length line - 1)) as [->|Ne]; [rewrite (total_nth line Hne) in Ny; injection Ny as <-; apply leb_refl|].
      apply ltb_leb. apply (positions_lt line zeroL Hp (length line - 1) j); [lia|exact Ny|apply total_nth, Hne]. }
    assert (Hx0 : leb zeroL x = true).
    { destruct i as [|i]; [rewrite (pos_zero line x Nx); apply leb_refl|].
      destruct (nth_error (positions zeroL line) 0) as [z|] eqn:N0; [|apply nth_error_None in N0; rewrite positions_length in N0; lia].
      rewrite <- (pos_zero line z N0). apply ltb_leb. apply (positions_lt line zeroL Hp (S i) 0); [lia|exact N0|exact Nx]. }
    destruct (eqL x zeroL && eqL y (total line)) eqn:W.
    - destruct (C47_rest line x y p q true true) as (_ & _ & R). destruct (R Hp ltac:(lia)) as [R1 _]; [cbn; exact Hpq|]. rewrite (R1 W). f_equal.
      apply andb_true_iff in W. destruct W as [W1 W2]. unfold Substring.eqL in W1, W2. apply andb_true_iff in W1, W2.
      assert (i = 0).
      { destruct i as [|i]; [reflexivity|]. exfalso.
        destruct (nth_error (positions zeroL line) 0) as [z|] eqn:N0; [|apply nth_error_None in N0; rewrite positions_length in N0; lia].
        rewrite <- (pos_zero line z N0) in W1. assert (K : ltb z x = true) by (apply (positions_lt line zeroL Hp (S i) 0); [lia|exact N0|exact Nx]).
        apply ltb_iff in K. destruct W1; congruence. }
      assert (j = length line - 1).
      { destruct (Nat.eq_dec j (length line - 1)) as [|Ne]; [assumption|]. exfalso.
        assert (K : ltb y (total line) = true) by (apply (positions_lt line zeroL Hp (length line - 1) j); [lia|exact Ny|apply total_nth, Hne]).
        apply ltb_iff in K. destruct W2; congruence. }
      subst. cbn [skipn]. replace (S (length line - 1) - 0) with (length line) by lia. symmetry. apply firstn_all.
    - rewrite C47_cut; auto; [|lia|eapply ltb_leb_trans; eauto]. f_equal.
      rewrite (inner_slice line x y (S i) j Hp Hxy); [|lia|lia| |].
      + rewrite (slice_ends line i j p q Hij Np Nq). unfold with_ends. destruct (firstn (j - S i) (skipn (S i) line)) as [|m mid] eqn:Es; [reflexivity|].
        assert (Nm : nth_error line (S i) = Some m).
        { assert (E : nth_error (firstn (j - S i) (skipn (S i) line)) 0 = Some m) by (rewrite Es; reflexivity).
          assert (0 < j - S i) by (destruct (j - S i); [discriminate|lia]).
          rewrite nth_error_firstn_lt in E by assumption. rewrite nth_error_skipn, Nat.add_0_r in E. exact E. }
        assert (Hlen : length (m :: mid) = j - S i) by (rewrite <- Es, firstn_length, skipn_length; lia).
        assert (Nl : nth_error line (j - 1) = Some (last (m :: mid) m)).
        { pose proof (last_nth (m :: mid) m ltac:(discriminate)) as E. rewrite Hlen in E. rewrite <- Es in E at 1.
          rewrite nth_error_firstn_lt in E by (cbn in Hlen; lia). rewrite nth_error_skipn in E. rewrite <- E. f_equal. cbn in Hlen. lia. }
        destruct (eqp p m) eqn:E1; [specialize (Hd i (S i) p m Np Nm E1); lia|].
        destruct (eqp (last (m :: mid) m) q) eqn:E2; [specialize (Hd (j - 1) j _ q Nl Nq E2); lia|]. reflexivity.
      + intros k z N. split; intros Hk.
        * destruct (Nat.eq_dec k i) as [->|]; [rewrite Nx in N; injection N as <-; apply leb_refl|]. apply ltb_leb.
          apply (positions_lt line zeroL Hp i k); [lia|exact N|exact Nx].
        * subst k. apply (positions_lt line zeroL Hp (S i) i); [lia|exact Nx|exact N].
      + intros k z N. split; intros Hk.
        * apply (positions_lt line zeroL Hp j k); [lia|exact N|exact Ny].
        * subst k. rewrite Ny in N. injection N as <-. apply leb_refl.
  Qed.

  Hypothesis add_mono : forall x u v, ltb u v = true -> ltb (addL x u) (addL x v) = true.

  (** [p] projects into segment [k] and nowhere else *)
  Definition projects (line : list P) (k : nat) (p : P) : Prop :=
    exists a b, nth_error (segments line) k = Some (a, b)
      /\ (forall q, In q line -> eqp p q = false)
      /\ (forall j t, nth_error (segments line) j = Some t -> j <> k -> ltb (dist p (closest p (a, b))) (dist p (closest p t)) = true)
      /\ ltb (dist a p) (dist a b) = true /\ ltb (dist b p) (dist a b) = true.

  Lemma split_distance line k p : proper line -> projects line k p -> exists a b y,
    nth_error (segments line) k = Some (a, b) /\ nth_error (positions zeroL line) k = Some y
    /\ distance_from eqp dist addL zeroL leb closest line p true = Ok (addL y (dist a p))
    /\ distance_to eqp dist addL zeroL leb closest line p true = Ok (addL y (dist a p)).
  Proof.
    intros Hp (a & b & Ns & Hv & Hm & Ha & Hb).
    assert (Hk : k < length (segments line)) by (apply nth_error_Some; congruence). rewrite segments_length in Hk.
    destruct (nth_error (positions zeroL line) k) as [y|] eqn:Ny; [|apply nth_error_None in Ny; rewrite positions_length in Ny; lia].
    exists a, b, y. split; [exact Ns|]. split; [reflexivity|].
    assert (Hab : forall q, In q line -> eqp p q = false) by exact Hv.
    assert (Hends : forall j c d, nth_error (segments line) j = Some (c, d) -> eqp p c = false /\ eqp p d = false).
    { intros j c d N. apply segments_nth in N. split; apply Hv; eapply nth_error_In; apply N. }
    assert (Val : value_at line k p (addL y (dist a p))).
    { exists a, b, y. split; [exact Ns|]. split; [exact Ny|]. rewrite eqp_sym. rewrite (proj2 (Hends k a b Ns)). reflexivity. }
    destruct (indexed_split line k (a, b) Ns) as (l1 & l2 & El & A1 & A2).
    assert (Hn : (length line <=? 1) = false) by (apply Nat.leb_gt; lia).
    destruct line as [|h r]; [cbn in Hk; lia|]. split.
    - unfold distance_from, Substring.distances. rewrite Hn. unfold nearest_from. rewrite El, nearest_min; cbn [bindO derefO].
      + rewrite Ns. cbn [derefO]. rewrite (proper_nth _ k a b Hp Ns), (leb_ltb_false _ _ (ltb_leb _ _ Ha)). cbn [andb bindO negb].
        rewrite (along_spec r h 0 zeroL _ _ _ _ _ _ (addL y (dist a p)) zeroL Hp); [reflexivity|apply value_ainv, Val|split; reflexivity].
      + intros j [c d] H. apply in_app_or in H. assert (X : j <> k /\ nth_error (segments (h :: r)) j = Some (c, d)).
        { destruct H as [H|H]; [apply A1 in H|apply A2 in H]; destruct H; split; auto; lia. }
        destruct X as [X1 X2]. split; [apply (proper_nth _ j c d Hp X2)|]. split; [apply (Hends j c d X2)|apply (Hm j _ X2 X1)].
      + apply (proper_nth _ k a b Hp Ns).
      + apply (Hends k a b Ns).
      + exact I.
    - unfold distance_to, Substring.distances. rewrite Hn. unfold nearest_to. rewrite El, rev_app_distr. cbn [rev]. rewrite <- app_assoc. cbn [app].
      rewrite nearest_min; cbn [bindO derefO].
      + rewrite Ns. cbn [derefO]. rewrite (proper_nth _ k a b Hp Ns), (leb_ltb_false _ _ (ltb_leb _ _ Hb)). cbn [andb bindO negb].
        rewrite (along_spec r h 0 zeroL _ _ _ _ _ _ zeroL (addL y (dist a p)) Hp); [reflexivity|split; reflexivity|apply value_ainv, Val].
      + intros j [c d] H. rewrite <- rev_app_distr in H. apply in_rev in H. apply in_app_or in H. assert (X : j <> k /\ nth_error (segments (h :: r)) j = Some (c, d)).
        { destruct H as [H|H]; [apply A1 in H|apply A2 in H]; destruct H; split; auto; lia. }
        destruct X as [X1 X2]. split; [apply (proper_nth _ j c d Hp X2)|]. split; [apply (Hends j c d X2)|apply (Hm j _ X2 X1)].
      + apply (proper_nth _ k a b Hp Ns).
      + apply (Hends k a b Ns).
      + exact I.
  Qed.

  Lemma firstn_In' {T} n : forall (l : list T) q, In q (firstn n l) -> In q l.
  Proof. induction n as [|n IH]; intros [|x l] q H; cbn in H; try contradiction. destruct H as [->|H]; [left; reflexivity|right; apply IH, H]. Qed.
  Lemma skipn_In' {T} n : forall (l : list T) q, In q (skipn n l) -> In q l.
  Proof. induction n as [|n IH]; intros [|x l] q H; cbn in H; try contradiction; [exact H|right; apply IH, H]. Qed.
  Lemma skipn_last {T} (l : list T) d : forall m, l <> [] -> m <= length l - 1 -> skipn m l = firstn (length l - 1 - m) (skipn m l) ++ [last l d].
  Proof.
    induction l as [|x l IH]; intros m H Hm; [congruence|]. destruct m as [|m].
    - cbn [skipn]. rewrite Nat.sub_0_r. clear -H. revert x H. induction l as [|y l IH]; intros x H; [reflexivity|].
      change (last (x :: y :: l) d) with (last (y :: l) d). cbn [length]. replace (S (S (length l)) - 1) with (S (length (y :: l) - 1)) by (cbn; lia).
      cbn [firstn app]. f_equal. apply IH. discriminate.
    - cbn [skipn]. cbn in Hm. destruct l as [|y l]; [cbn in Hm; lia|]. change (last (x :: y :: l) d) with (last (y :: l) d).
      replace (length (x :: y :: l) - 1 - S m) with (length (y :: l) - 1 - m) by (cbn; lia). apply IH; [discriminate|cbn in *; lia].
  Qed.
  Lemma last_firstn (line : list P) k m mid : firstn k (skipn 1 line) = m :: mid -> In m line /\ In (last (m :: mid) m) line.
  Proof.
    intros E. assert (X : forall q, In q (m :: mid) -> In q line).
    { intros q Hq. rewrite <- E in Hq. apply firstn_In' in Hq. apply skipn_In' in Hq. exact Hq. }
    split; apply X; [left; reflexivity|]. clear. revert m. induction mid as [|x mid IH]; intros m; [left; reflexivity|]. right.
    rewrite (last_cons_any _ _ _ x). apply IH.
  Qed.

  (** Splitting a line at a point that projects into its [k]th segment: the two parts are the points up to this segment with the
      point behind, and the point with the points behind this segment. *)
  Theorem C47_split line k p : proper line -> projects line k p ->
    substring_point_to eqp dist addL zeroL leb interp closest line p true = Ok (firstn (S k) line ++ [p])
    /\ substring_point_from eqp dist addL zeroL leb interp closest line p true = Ok (p :: skipn (S k) line).
  Proof.
    intros Hp Hpr. destruct (split_distance line k p Hp Hpr) as (a & b & y & Ns & Ny & Df & Dt). destruct Hpr as (a' & b' & Ns' & Hv & _ & Ha & Hb).
    rewrite Ns in Ns'. injection Ns' as <- <-.
    unfold substring_point_to, substring_point_from. rewrite Df, Dt. cbn [bindO].
    assert (Hk : k < length (segments line)) by (apply nth_error_Some; congruence). rewrite segments_length in Hk.
    assert (Ep : forall q, In q line -> eqp q p = false) by (intros q Hq; rewrite eqp_sym; apply Hv, Hq).
    set (z := addL y (dist a p)). assert (Hyz : ltb y z = true).
    { apply add_grows. apply Ep. apply segments_nth in Ns. eapply nth_error_In. apply Ns. }
    pose proof (positions_step line k zeroL a b y Ns Ny) as Nn. set (w := addL y (dist a b)) in *.
    assert (Hzw : ltb z w = true) by (apply add_mono; exact Ha).
    assert (Hne : line <> []) by (intros ->; cbn in Hk; lia).
    assert (Hwt : leb w (total line) = true).
    { destruct (Nat.eq_dec (S k) (length line - 1)) as [E|Ne]; [rewrite E, (total_nth line Hne) in Nn; injection Nn as E2; rewrite E2; apply leb_refl|].
      apply ltb_leb. apply (positions_lt line zeroL Hp (length line - 1) (S k)); [lia|exact Nn|apply total_nth, Hne]. }
    assert (Hy0 : leb zeroL y = true).
    { apply (positions_ge line zeroL y Hp). eapply nth_error_In; eauto. }
    assert (Hz0 : ltb zeroL z = true) by (eapply leb_ltb_trans; eauto).
    assert (Hzt : ltb z (total line) = true) by (eapply ltb_leb_trans; eauto).
    assert (Zt : forall j x, nth_error (positions zeroL line) j = Some x -> (j < S k -> ltb x z = true) /\ (j = S k -> leb z x = true)).
    { intros j x N. split; intros Hj.
      - destruct (Nat.eq_dec j k) as [->|]; [congruence|]. eapply ltb_leb_trans; [apply (positions_lt line zeroL Hp k j); [lia|exact N|exact Ny]|apply ltb_leb, Hyz].
      - subst j. rewrite Nn in N. injection N as <-. apply ltb_leb, Hzw. }
    destruct line as [|h [|h2 r]]; [cbn in Hk; lia|cbn in Hk; lia|].
    split.
    - unfold substring_to. rewrite C47_cut; auto using leb_refl.
      + f_equal. cbn [andb]. rewrite (inner_slice (h :: h2 :: r) zeroL z 1 (S k) Hp Hz0); [|cbn; lia|cbn in *; lia| |exact Zt].
        * replace (S k - 1) with k by lia. unfold with_ends. destruct (firstn k (skipn 1 (h :: h2 :: r))) as [|m mid] eqn:Es.
          -- cbn [firstn skipn] in Es |- *. rewrite Es. reflexivity.
          -- rewrite (Ep _ (proj2 (last_firstn _ _ _ _ Es))). destruct k as [|k]; [discriminate|].
             cbn [skipn firstn] in Es |- *. injection Es as <- <-. destruct Hp as [-> _]. reflexivity.
        * intros j x N. split; intros Hj.
          -- assert (j = 0) by lia. subst j. rewrite (pos_zero _ _ N). apply leb_refl.
          -- subst j. pose proof (positions_lt (h :: h2 :: r) zeroL Hp 1 0 zeroL x ltac:(lia) eq_refl N) as E. exact E.
      + cbn; lia.
      + eapply ltb_leb_trans; [exact Hz0|]. apply ltb_leb, Hzt.
      + cbn. apply Ep. left. reflexivity.
      + apply andb_false_iff. right. unfold Substring.eqL. apply andb_false_iff. right. apply ltb_iff. exact Hzt.
    - unfold substring_from. rewrite (line_length h h2 r Hp). cbn [bindO]. rewrite C47_cut; auto.
      + f_equal. cbn [andb]. rewrite (inner_slice (h :: h2 :: r) z (total (h :: h2 :: r)) (S k) (length (h :: h2 :: r) - 1) Hp Hzt).
        * set (line := h :: h2 :: r) in *.
          assert (Hl : skipn (S k) line = firstn (length line - 1 - S k) (skipn (S k) line) ++ [last line h]).
          { apply skipn_last; [exact Hne|lia]. }
          set (s := firstn (length line - 1 - S k) (skipn (S k) line)) in *. rewrite Hl. unfold with_ends.
          assert (Hin : forall q, In q s -> In q line).
          { intros q Hq. unfold s in Hq. apply firstn_In' in Hq. apply skipn_In' in Hq. exact Hq. }
          destruct s as [|m mid] eqn:Es; [reflexivity|]. rewrite (Hv m) by (apply Hin; left; reflexivity).
          assert (Hlast : eqp (last (m :: mid) m) (last line h) = false).
          { assert (Hlen : length (m :: mid) = length line - 1 - S k) by (rewrite <- Es; unfold s; rewrite firstn_length, skipn_length; lia).
            pose proof (last_nth (m :: mid) m ltac:(discriminate)) as E. rewrite Hlen in E. change (length (m :: mid)) with (S (length mid)) in Hlen. rewrite <- Es in E at 1. unfold s in E.
            rewrite nth_error_firstn_lt in E by lia. rewrite nth_error_skipn in E.
            apply (proper_nth line (length line - 2) _ _ Hp). apply segments_nth. split.
            - rewrite <- E. f_equal. lia.
            - rewrite <- (last_nth line h Hne). f_equal. lia. }
          rewrite Hlast. reflexivity.
        * cbn in *; lia.
        * lia.
        * intros j x N. destruct (Zt j x N) as [Z1 Z2]. split; intros Hj; [apply ltb_leb, Z1, Hj|]. subst j. rewrite Nn in N. injection N as <-. exact Hzw.
        * intros j x N. split; intros Hj.
          -- apply (positions_lt _ zeroL Hp (length (h :: h2 :: r) - 1) j); [lia|exact N|apply total_nth, Hne].
          -- subst j. rewrite (total_nth _ Hne) in N. injection N as <-. apply leb_refl.
      + cbn; lia.
      + apply ltb_leb, Hz0.
      + cbn [andb]. apply Hv. pose proof (last_nth (h :: h2 :: r) h Hne) as E. eapply nth_error_In; eauto.
      + apply andb_false_iff. left. unfold Substring.eqL. apply andb_false_iff. left. apply ltb_iff. exact Hz0.
  Qed.

  Lemma nearest_min_any exact p u l1 : forall i s l2 best found,
    (forall j t, In (j, t) l1 -> eqp (fst t) (snd t) = false /\ eqp p (exact t) = false
       /\ ltb (dist p (closest p s)) (dist p (closest p t)) = true) ->
    (forall j t, In (j, t) l2 -> eqp (fst t) (snd t) = false /\ eqp p (exact t) = false
       /\ leb (dist p (closest p s)) (dist p (closest p t)) = true) ->
    eqp (fst s) (snd s) = false -> eqp p (exact s) = false ->
    match best with None => True | Some b => ltb (dist p (closest p s)) b = true end ->
    nearest exact p u (l1 ++ (i, s) :: l2) best found = Ok (Some (i, if u then p else closest p s)).
  Proof.
    induction l1 as [|[j t] l1 IH]; intros i s l2 best found H1 H1' H2 H3 H4; cbn [app Substring.nearest].
    - rewrite H2, H3. assert (match best with None => true | Some b => ltb (dist p (closest p s)) b end = true) as ->.
      { destruct best; [exact H4|reflexivity]. }
      apply nearest_rest. exact H1'.
    - destruct (H1 j t (or_introl eq_refl)) as (-> & -> & C). 
      destruct (match best with None => true | Some b => ltb (dist p (closest p t)) b end);
        apply IH; auto; intros j' t' H; apply (H1 j' t'); right; exact H.
  Qed.

  (** no point of the line equals [p], and [(a, b)], the [k]th segment, is the first ([last_one]: the last) of those nearest to [p] *)
  Definition closest_to (last_one : bool) (line : list P) (k : nat) (a b p : P) : Prop :=
    nth_error (segments line) k = Some (a, b) /\ (forall q, In q line -> eqp p q = false)
    /\ (forall j t, nth_error (segments line) j = Some t -> leb (dist p (closest p (a, b))) (dist p (closest p t)) = true)
    /\ (forall j t, nth_error (segments line) j = Some t -> (if last_one then k < j else j < k) -> ltb (dist p (closest p (a, b))) (dist p (closest p t)) = true).

  Lemma measured_from line k a b p (u : bool) v : proper line -> closest_to false line k a b p ->
    let q := if u then p else closest p (a, b) in
    value_at line (if ltb (dist a b) (dist a p) && (S k <? length line - 1) then S k else k) q v ->
    distance_from eqp dist addL zeroL leb closest line p u = Ok v.
  Proof.
    intros Hp (Ns & Hv & Hm & Hm') q Val.
    assert (Hk : k < length (segments line)) by (apply nth_error_Some; congruence). rewrite segments_length in Hk.
    assert (Hends : forall j c d, nth_error (segments line) j = Some (c, d) -> eqp p c = false /\ eqp p d = false).
    { intros j c d N. apply segments_nth in N. split; apply Hv; eapply nth_error_In; apply N. }
    destruct (indexed_split line k (a, b) Ns) as (l1 & l2 & El & A1 & A2).
    assert (Hn : (length line <=? 1) = false) by (apply Nat.leb_gt; lia).
    assert (Nf : nearest fst p u (indexed line) None None = Ok (Some (k, q))).
    { rewrite El. apply nearest_min_any; [| |apply (proper_nth _ k a b Hp Ns)|apply (Hends k a b Ns)|exact I].
      - intros j [c d] H. apply A1 in H. destruct H as [X1 X2].
        split; [apply (proper_nth _ j c d Hp X2)|]. split; [apply (Hends j c d X2)|apply (Hm' j _ X2 X1)].
      - intros j [c d] H. apply A2 in H. destruct H as [X1 X2].
        split; [apply (proper_nth _ j c d Hp X2)|]. split; [apply (Hends j c d X2)|apply (Hm j _ X2)]. }
    unfold distance_from, Substring.distances. rewrite Hn. unfold nearest_from. rewrite Nf. cbn [bindO derefO]. rewrite Ns. cbn [derefO].
    rewrite (proper_nth _ k a b Hp Ns), Nat.add_1_r.
    destruct (ltb (dist a b) (dist a p) && (S k <? length line - 1)); cbn [bindO negb]; destruct line as [|h r]; try (cbn in Hk; lia);
      (rewrite (along_spec r h 0 zeroL _ _ _ _ _ _ v zeroL Hp); [reflexivity|apply value_ainv, Val|split; reflexivity]).
  Qed.
  Lemma measured_to line k a b p (u : bool) v : proper line -> closest_to true line k a b p ->
    let q := if u then p else closest p (a, b) in
    value_at line (if ltb (dist a b) (dist b p) && (0 <? k) then k - 1 else k) q v ->
    distance_to eqp dist addL zeroL leb closest line p u = Ok v.
  Proof.
    intros Hp (Ns & Hv & Hm & Hm') q Val.
    assert (Hk : k < length (segments line)) by (apply nth_error_Some; congruence). rewrite segments_length in Hk.
    assert (Hends : forall j c d, nth_error (segments line) j = Some (c, d) -> eqp p c = false /\ eqp p d = false).
    { intros j c d N. apply segments_nth in N. split; apply Hv; eapply nth_error_In; apply N. }
    destruct (indexed_split line k (a, b) Ns) as (l1 & l2 & El & A1 & A2).
    assert (Hn : (length line <=? 1) = false) by (apply Nat.leb_gt; lia).
    assert (Nt : nearest snd p u (rev (indexed line)) None None = Ok (Some (k, q))).
    { rewrite El, rev_app_distr. cbn [rev]. rewrite <- app_assoc. cbn [app].
      apply nearest_min_any; [| |apply (proper_nth _ k a b Hp Ns)|apply (Hends k a b Ns)|exact I].
      - intros j [c d] H. apply in_rev, A2 in H. destruct H as [X1 X2].
        split; [apply (proper_nth _ j c d Hp X2)|]. split; [apply (Hends j c d X2)|apply (Hm' j _ X2 X1)].
      - intros j [c d] H. apply in_rev, A1 in H. destruct H as [X1 X2].
        split; [apply (proper_nth _ j c d Hp X2)|]. split; [apply (Hends j c d X2)|apply (Hm j _ X2)]. }
    unfold distance_to, Substring.distances. rewrite Hn. unfold nearest_to. rewrite Nt. cbn [bindO derefO]. rewrite Ns. cbn [derefO].
    rewrite (proper_nth _ k a b Hp Ns).
    destruct (ltb (dist a b) (dist b p) && (0 <? k)); cbn [bindO negb]; destruct line as [|h r]; try (cbn in Hk; lia);
      (rewrite (along_spec r h 0 zeroL _ _ _ _ _ _ zeroL v Hp); [reflexivity|split; reflexivity|apply value_ainv, Val]).
  Qed.

  (** Distances of a point off the line: measured in the nearest segment, to the point itself or, if asked for, to its projection;
      the distance of the start is measured in the next segment if the point is farther from the segment's start than its end is
      and there is a next segment, the one of the end in the previous segment accordingly. *)
  Theorem C47_nearest line k a b p (u : bool) v : proper line ->
    let q := if u then p else closest p (a, b) in
    (closest_to false line k a b p ->
       (leb (dist a p) (dist a b) = true \/ S (S k) = length line -> value_at line k q v ->
          distance_from eqp dist addL zeroL leb closest line p u = Ok v)
       /\ (ltb (dist a b) (dist a p) = true -> S (S k) < length line -> value_at line (S k) q v ->
          distance_from eqp dist addL zeroL leb closest line p u = Ok v))
    /\ (closest_to true line k a b p ->
       (leb (dist b p) (dist a b) = true \/ k = 0 -> value_at line k q v ->
          distance_to eqp dist addL zeroL leb closest line p u = Ok v)
       /\ (forall k', ltb (dist a b) (dist b p) = true -> k = S k' -> value_at line k' q v ->
          distance_to eqp dist addL zeroL leb closest line p u = Ok v)).
  Proof.
    intros Hp q. split; intros Hc; (split; [intros H1 H2|]).
    - apply (measured_from line k a b p u v Hp Hc). destruct H1 as [H1|H1].
      + apply ltb_false in H1. rewrite H1. exact H2.
      + destruct (Nat.ltb_spec (S k) (length line - 1)); [lia|]. rewrite andb_false_r. exact H2.
    - intros H1 H2 H3. apply (measured_from line k a b p u v Hp Hc). rewrite H1. destruct (Nat.ltb_spec (S k) (length line - 1)); [exact H3|lia].
    - apply (measured_to line k a b p u v Hp Hc). destruct H1 as [H1| ->].
      + apply ltb_false in H1. rewrite H1. exact H2.
      + cbn. rewrite andb_false_r. exact H2.
    - intros k' H1 -> H3. apply (measured_to line (S k') a b p u v Hp Hc). rewrite H1. cbn [Nat.ltb Nat.leb andb]. rewrite Nat.sub_succ, Nat.sub_0_r. exact H3.
  Qed.

  (** Equal neighbours: on a line with equal neighbours the distances of two points are never found, whatever the points are. *)
  Hypothesis eqp_eq : forall p q, eqp p q = true -> p = q.
  Lemma nearest_zero exact p u l1 : forall k s l2 best found,
    (forall j t, In (j, t) l1 -> eqp p (exact t) = false) -> eqp (fst s) (snd s) = true ->
    exists x, nearest exact p u (l1 ++ (k, s) :: l2) best found = Throw x.
  Proof.
    induction l1 as [|[j t] l1 IH]; intros k s l2 best found H1 H2; cbn [app Substring.nearest].
    - rewrite H2. eauto.
    - destruct (eqp (fst t) (snd t)); [eauto|]. rewrite (H1 j t (or_introl eq_refl)).
      destruct (match best with None => true | Some b => ltb (dist p (closest p t)) b end); apply IH; auto; intros; apply (H1 j0 t0); right; assumption.
  Qed.
  Lemma nearest_ok exact p u l : forall best found x,
    (forall k s, In (k, s) l -> eqp p (exact s) = false) \/ (exists l1 k s l2, l = l1 ++ (k, s) :: l2 /\ eqp p (exact s) = true
       /\ (forall j t, In (j, t) l1 -> eqp p (exact t) = false)
       /\ (nearest exact p u l best found = Ok x -> x = Some (k, p))).
  Proof.
    induction l as [|[j t] l IH]; intros best found x; [left; intros ? ? []|].
    destruct (eqp p (exact t)) eqn:E.
    - right. exists [], j, t, l. split; [reflexivity|]. split; [exact E|]. split; [intros ? ? []|]. cbn [Substring.nearest].
      destruct (eqp (fst t) (snd t)); [discriminate|]. rewrite E. intros Q. injection Q as <-. reflexivity.
    - cbn [Substring.nearest]. set (c := match best with None => true | Some b => ltb (dist p (closest p t)) b end).
      destruct (IH (if c then Some (dist p (closest p t)) else best) (if c then Some (j, if u then p else closest p t) else found) x) as [H|(l1 & k & s & l2 & -> & H1 & H2 & H3)].
      + left. intros k s [Q|Q]; [injection Q as <- <-; exact E|apply (H k s Q)].
      + right. exists ((j, t) :: l1), k, s, l2. split; [reflexivity|]. split; [exact H1|]. split.
        * intros j' t' [Q|Q]; [injection Q as <- <-; exact E|apply (H2 j' t' Q)].
        * destruct (eqp (fst t) (snd t)); [discriminate|]. rewrite E. destruct c; exact H3.
  Qed.
  Lemma nearest_some exact p u l : forall best found, l <> [] \/ found <> None -> (best = None <-> found = None) ->
    match nearest exact p u l best found with Ok None | UB | Fuel => False | _ => True end.
  Proof.
    induction l as [|[j t] l IH]; intros best found H1 H2; cbn [Substring.nearest].
    - destruct H1 as [H1|H1]; [congruence|]. destruct found; [exact I|congruence].
    - destruct (eqp (fst t) (snd t)); [exact I|]. destruct (eqp p (exact t)); [exact I|]. destruct best as [d|].
      + destruct (ltb (dist p (closest p t)) d).
        * apply IH; [right; discriminate|split; discriminate].
        * apply IH; [|exact H2]. right. intros E. apply H2 in E. discriminate.
      + apply IH; [right; discriminate|split; discriminate].
  Qed.
  Lemma along_loop_throws segs : forall i k a b kf kt df dt ff proj j,
    nth_error segs k = Some (a, b) -> eqp a b = true -> kt = Some (j, proj) -> i + k < j ->
    exists x, along_loop eqp dist addL segs i kf kt df dt ff false = Throw x.
  Proof.
    induction segs as [|[c d] segs IH]; intros i k a b kf kt df dt ff proj j N E Hkt Hj; [destruct k; discriminate|].
    cbn [along_loop]. destruct (eqp c d) eqn:Ecd; [eauto|]. destruct k as [|k]; cbn [nth_error] in N; [injection N as -> ->; congruence|].
    subst kt. destruct (along eqp dist addL kf i c d df ff) as [df1 ff1]. cbn [along]. destruct (Nat.ltb_spec i j); [|lia].
    rewrite andb_false_r. eapply IH; [exact N|exact E|reflexivity|]. lia.
  Qed.
  Theorem C47_equal_neighbours line p q uf ut k a b : nth_error (segments line) k = Some (a, b) -> eqp a b = true ->
    exists x, distances line p q true true uf ut = Throw x.
  Proof.
    intros Ns Eab. assert (Hk : k < length (segments line)) by (apply nth_error_Some; congruence). rewrite segments_length in Hk.
    unfold Substring.distances. destruct (Nat.leb_spec (length line) 1); [lia|].
    destruct (indexed_split line k (a, b) Ns) as (l1 & l2 & El & A1 & A2).
    assert (NF : exists y, match nearest_from eqp dist leb closest line p uf with Throw x => True | Ok x => x = y | _ => False end).
    { unfold nearest_from. pose proof (nearest_some fst p uf (indexed line) None None) as S.
      destruct (nearest fst p uf (indexed line) None None) as [[[i pr]|]|x| |] eqn:E; cbn [bindO derefO];
        try (exfalso; apply S; [left; rewrite El; destruct l1; discriminate|split; reflexivity]); [|exists (0, p); exact I].
      assert (Hi : exists c d, nth_error (segments line) i = Some (c, d)).
      { assert (G : forall l best found i pr, (forall i x, found = Some (i, x) -> exists t, nth_error (segments line) i = Some t) ->
            (forall j t, In (j, t) l -> nth_error (segments line) j = Some t) ->
            nearest fst p uf l best found = Ok (Some (i, pr)) -> exists t, nth_error (segments line) i = Some t).
        { clear. induction l as [|[j t] l IH]; intros best found i pr H1 H2 Q; cbn [Substring.nearest] in Q.
          - injection Q as ->. apply (H1 i pr eq_refl).
          - destruct (eqp (fst t) (snd t)); [discriminate|]. destruct (eqp p (fst t)).
            + injection Q as <- <-. exists t. apply H2. left. reflexivity.
            + destruct (match best with None => true | Some b => ltb (dist p (closest p t)) b end).
              * apply (IH _ _ i pr) in Q; [exact Q| |intros; apply H2; right; assumption].
                intros i' x Q'. injection Q' as <- <-. exists t. apply H2. left. reflexivity.
              * apply (IH _ _ i pr) in Q; [exact Q|exact H1|intros; apply H2; right; assumption]. }
        destruct (G (indexed line) None None i pr ltac:(intros; discriminate) ltac:(unfold indexed; intros j t Q; apply combine_seq_nth in Q; rewrite Nat.sub_0_r in Q; apply Q) E) as [[c d] Nt].
        eauto. }
      destruct Hi as (c & d & Nt). rewrite Nt. cbn [derefO]. destruct (eqp c d); [exists (0, p); exact I|].
      destruct (ltb (dist c d) (dist c p) && (i + 1 <? length line - 1)); eexists; reflexivity. }
    destruct NF as [y NF]. destruct (nearest_from eqp dist leb closest line p uf) as [kf|x| |] eqn:Ef; cbn [bindO]; try contradiction; [|eauto].
    clear NF y.
    destruct (nearest_ok snd q ut (rev (indexed line)) None None
               match nearest snd q ut (rev (indexed line)) None None with Ok x => x | _ => None end) as [H1|(m1 & j & s & m2 & Em & H1 & H2 & H3)].
    - unfold nearest_to. rewrite El, rev_app_distr. cbn [rev]. rewrite <- app_assoc. cbn [app].
      destruct (nearest_zero snd q ut (rev l2) k (a, b) (rev l1) None None) as [x ->]; [|exact Eab|cbn [bindO]; eauto].
      intros j t H'. apply (H1 j t). rewrite El, <- in_rev. apply in_or_app. right. right. apply in_rev. exact H'.
    - destruct (nearest snd q ut (rev (indexed line)) None None) as [x|x| |] eqn:E; unfold nearest_to; rewrite E; cbn [bindO derefO].
      2: eauto.
      2,3: exfalso; pose proof (nearest_some snd q ut (rev (indexed line)) None None) as S; rewrite E in S; apply S;
           [left; rewrite Em; destruct m1; discriminate|split; reflexivity].
      rewrite (H3 eq_refl) in *. cbn [derefO].
      assert (Nj : nth_error (segments line) j = Some s).
      { assert (Q : In (j, s) (indexed line)) by (apply in_rev; rewrite Em; apply in_or_app; right; left; reflexivity).
        unfold indexed in Q. apply combine_seq_nth in Q. rewrite Nat.sub_0_r in Q. apply Q. }
      rewrite Nj. destruct s as [c d]. cbn [derefO snd] in *. apply eqp_eq in H1. subst d.
      destruct (eqp c q); [cbn [bindO]; eauto|]. rewrite dist_zero, (leb_ltb_false _ _ (dist_pos c q)). cbn [andb bindO negb].
      assert (Hkj : k < j).
      { destruct (Nat.lt_ge_cases k j) as [|Hge]; [assumption|exfalso].
        assert (Q : In (k, (a, b)) (rev (indexed line))) by (rewrite <- in_rev, El; apply in_or_app; right; left; reflexivity).
        (* the search comes to [k] before it comes to [j] *)
        assert (T : exists x, nearest snd q ut (rev (indexed line)) None None = Throw x).
        { rewrite El, rev_app_distr. cbn [rev]. rewrite <- app_assoc. cbn [app]. apply nearest_zero; [|exact Eab].
          intros j' t Hj'. apply in_rev in Hj'. destruct (A2 j' t Hj') as [Hkj' Nj'].
          apply (H2 j' t).
          assert (In' : In (j', t) (rev (indexed line))) by (rewrite <- in_rev, El; apply in_or_app; right; right; exact Hj').
          rewrite Em in In'. apply in_app_or in In'. destruct In' as [In'|[In'|In']]; [exact In'|injection In' as -> _; lia|exfalso].
          (* behind [j] in the reversed list the numbers are smaller *)
          apply (f_equal (@rev _)) in Em. rewrite rev_involutive, rev_app_distr in Em. cbn [rev] in Em. rewrite <- app_assoc in Em. cbn [app] in Em.
          destruct (indexed_split line j (c, q) Nj) as (n1 & n2 & En & B1 & B2). rewrite En in Em.
          apply in_rev in In'.
          assert (Hlen : n1 = rev m2).
          { assert (ND : NoDup (map fst (n1 ++ (j, (c, q)) :: n2))).
            { rewrite <- En. unfold indexed. clear. generalize 0. generalize (segments line). induction l as [|y l IH]; intros n; [constructor|].
              cbn [length seq combine map fst]. constructor; [|apply IH]. intros Q. apply in_map_iff in Q. destruct Q as ([i z] & Q1 & Q2). cbn in Q1. subst i.
              apply combine_seq_nth in Q2. lia. }
            clear - Em ND. revert Em. generalize (rev m2) (rev m1). clear m1 m2. induction n1 as [|y n1 IH]; intros m2 m1 Em; destruct m2 as [|z m2]; cbn [app] in Em.
            - reflexivity.
            - injection Em as <- Em. exfalso. cbn in ND. inversion ND as [|? ? ND1 _]. apply ND1. rewrite Em, map_app. apply in_or_app. right. left. reflexivity.
            - injection Em as -> Em. exfalso. cbn in ND. inversion ND as [|? ? ND1 _]; subst. apply ND1. rewrite map_app. apply in_or_app. right. left. reflexivity.
            - injection Em as -> Em. f_equal. apply (IH ltac:(cbn in ND; inversion ND; assumption) m2 m1 Em). }
          rewrite <- Hlen in In'. apply B1 in In'. lia. }
        destruct T as [x' T]. congruence. }
      eapply along_loop_throws; [exact Ns|exact Eab|reflexivity|lia].
  Qed.
End C47.

(** an instance: points on the integer axis *)
From Coq Require Import ZArith Lia.
Definition adist (a b : Z) : Z := Z.abs (a - b).
Definition aclosest (p : Z) (s : Z * Z) : Z := Z.max (Z.min (fst s) (snd s)) (Z.min p (Z.max (fst s) (snd s))).
Fixpoint ainterp_ (line : list Z) (d : Z) (prev : Z) : Z :=
  match line with
  | [] => prev
  | b :: r => if (d <=? adist prev b)%Z then (if (prev <=? b)%Z then prev + d else prev - d)%Z else ainterp_ r (d - adist prev b)%Z b
  end.
Definition ainterp (line : list Z) (d : Z) : Z := match line with [] => 0%Z | a :: r => ainterp_ r d a end.
Example C47_contract :
  (forall a b, Z.leb a b = true \/ Z.leb b a = true) /\ (forall a b c, Z.leb a b = true -> Z.leb b c = true -> Z.leb a c = true)
  /\ (forall p, Z.eqb p p = true) /\ (forall p q, Z.eqb p q = Z.eqb q p)
  /\ (forall x a b, Z.eqb a b = false -> ltb Z.leb x (x + adist a b)%Z = true)
  /\ (forall p, adist p p = 0%Z) /\ (forall p q, Z.leb 0 (adist p q) = true) /\ (forall x, (x + 0 = x)%Z)
  /\ (forall x u v, ltb Z.leb u v = true -> ltb Z.leb (x + u)%Z (x + v)%Z = true).
Proof.
  unfold ltb, adist. repeat split; intros; rewrite ?negb_true_iff, ?Z.leb_gt, ?Z.leb_le, ?Z.eqb_refl, ?Z.eqb_neq in *; try lia; try apply Z.eqb_sym.
Qed.
Notation zsub := (substring Z.eqb adist Z.add 0%Z Z.leb ainterp).
Example C47_cut_demo : zsub [0; 4; 10; 7]%Z 3%Z 11%Z 0%Z 0%Z false false = Ok [3; 4; 10; 9]%Z
  /\ inner adist Z.add 0%Z Z.leb [0; 4; 10; 7]%Z 3%Z 11%Z = [4; 10]%Z
  /\ proper Z.eqb [0; 4; 10; 7]%Z /\ total adist Z.add 0%Z [0; 4; 10; 7]%Z = 13%Z.
Proof. repeat split. Qed.
Example C47_points_demo : substring_points Z.eqb adist Z.add 0%Z Z.leb ainterp aclosest [0; 4; 10; 7]%Z 4%Z 7%Z true true = Ok [4; 10; 7]%Z
  /\ distinct Z.eqb [0; 4; 10; 7]%Z.
Proof.
  split; [reflexivity|]. intros i j p q N1 N2 E. apply Z.eqb_eq in E. subst q.
  assert (ND : NoDup [0; 4; 10; 7]%Z) by (repeat constructor; cbn; intuition discriminate).
  apply (proj1 (NoDup_nth_error _) ND); [apply nth_error_Some; congruence|congruence].
Qed.
Example C47_split_demo : substring_point_to Z.eqb adist Z.add 0%Z Z.leb ainterp aclosest [0; 4; 10; 17]%Z 6%Z true = Ok [0; 4; 6]%Z
  /\ substring_point_from Z.eqb adist Z.add 0%Z Z.leb ainterp aclosest [0; 4; 10; 17]%Z 6%Z true = Ok [6; 10; 17]%Z
  /\ projects Z.eqb adist Z.leb aclosest [0; 4; 10; 17]%Z 1 6%Z.
Proof.
  split; [reflexivity|]. split; [reflexivity|]. exists 4%Z, 10%Z. split; [reflexivity|]. split; [|split; [|split; reflexivity]].
  - intros q [<-|[<-|[<-|[<-|[]]]]]; reflexivity.
  - intros [|[|[|j]]] t N Ne; [injection N as <-; reflexivity|congruence|injection N as <-; reflexivity|destruct j; discriminate].
Qed.

(** the point 7 is nearest to the turning point 4 of the line, so both segments are nearest; the first one is shorter than the
    distance of the point from its start, thus the point is measured in the second one *)
Example C47_nearest_demo : distance_from Z.eqb adist Z.add 0%Z Z.leb aclosest [0; 4; 2]%Z 7%Z true = Ok 7%Z
  /\ distance_from Z.eqb adist Z.add 0%Z Z.leb aclosest [0; 4; 2]%Z 7%Z false = Ok 4%Z
  /\ closest_to Z.eqb adist Z.leb aclosest false [0; 4; 2]%Z 0 0%Z 4%Z 7%Z
  /\ value_at Z.eqb adist Z.add 0%Z [0; 4; 2]%Z 1 7%Z 7%Z
  /\ distance_to Z.eqb adist Z.add 0%Z Z.leb aclosest [0; 4; 2]%Z 7%Z true = Ok 7%Z
  /\ closest_to Z.eqb adist Z.leb aclosest true [0; 4; 2]%Z 1 4%Z 2%Z 7%Z
  /\ value_at Z.eqb adist Z.add 0%Z [0; 4; 2]%Z 0 7%Z 7%Z.
Proof.
  assert (V : forall q, In q [0; 4; 2]%Z -> (7 =? q)%Z = false) by (intros q [<-|[<-|[<-|[]]]]; reflexivity).
  split; [reflexivity|]. split; [reflexivity|]. split; [|split; [|split; [reflexivity|split]]].
  - split; [reflexivity|]. split; [exact V|]. split; intros [|[|j]] t N; try (injection N as <-); try reflexivity; try lia; destruct j; discriminate.
  - exists 4%Z, 2%Z, 4%Z. repeat split.
  - split; [reflexivity|]. split; [exact V|]. split; intros [|[|j]] t N; try (injection N as <-); try reflexivity; try lia; destruct j; discriminate.
  - exists 0%Z, 4%Z, 0%Z. repeat split.
Qed.
Example C47_equal_neighbours_demo : distances Z.eqb adist Z.add 0%Z Z.leb aclosest [0; 4; 4; 10]%Z 0%Z 10%Z true true true true = Throw (0, 4)%Z
  /\ distances Z.eqb adist Z.add 0%Z Z.leb aclosest [0; 4; 4; 10]%Z 2%Z 3%Z true true true true = Throw (0, 0)%Z.
Proof. split; reflexivity. Qed.

(** What is not true: for a start behind the end of the line nothing lies between the two positions, but the whole line is put
    between the two end points. *)
Theorem C47_behind_end_refuted : exists line from to,
  ltb Z.leb from to = true /\ ltb Z.leb (total adist Z.add 0%Z line) from = true
  /\ inner adist Z.add 0%Z Z.leb line from to = []
  /\ zsub line from to 12%Z 15%Z true true = Ok [12; 0; 4; 10; 15]%Z.
Proof. exists [0; 4; 10]%Z, 12%Z, 15%Z. repeat split. Qed.
(** What is not true: two equal neighbours before the end position make the call fail. *)
Theorem C47_equal_neighbours_refuted : exists line from to, ltb Z.leb from to = true
  /\ inner adist Z.add 0%Z Z.leb line from to = [4; 4]%Z /\ zsub line from to 0%Z 0%Z false false = Throw [].
Proof. exists [0; 4; 4; 10]%Z, 1%Z, 9%Z. repeat split. Qed.
(** What is not true: at a point where the line meets itself, the two parts overlap; together they are longer than the line
    and contain a point of it twice. *)
Theorem C47_split_refuted : exists line p, proper Z.eqb line /\ ~ In p line
  /\ substring_point_to Z.eqb adist Z.add 0%Z Z.leb ainterp aclosest line p true = Ok [0; 10; 5]%Z
  /\ substring_point_from Z.eqb adist Z.add 0%Z Z.leb ainterp aclosest line p true = Ok [5; 10; 2]%Z
  /\ line = [0; 10; 2]%Z.
Proof. exists [0; 10; 2]%Z, 5%Z. repeat split. cbn. intuition discriminate. Qed.

Print Assumptions C47_cut.
Print Assumptions C47_rest.
Print Assumptions C47_distances.
Print Assumptions C47_points.
Print Assumptions C47_split.
Print Assumptions C47_nearest.
Print Assumptions C47_equal_neighbours.
