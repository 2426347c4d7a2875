(** C38: merging nearby measurements. *)
From Coq Require Import ZArith Sorted.
From Verif Require Import Base ListAux Median.
Local Open Scope nat_scope.

Section C38.
  Context {C D : Type}.
  Variable cleb : C -> C -> bool.
  Variable nth_el : nat -> list C -> list C.
  Variable mean : C -> C -> C.
  Hypothesis cleb_total : forall a b, cleb a b = true \/ cleb b a = true.
  Hypothesis cleb_trans : forall a b c, cleb a b = true -> cleb b c = true -> cleb a c = true.

  (** the contract of std::nth_element: a rearrangement with nothing larger before and nothing smaller after position [n] *)
  Definition nth_contract (f : nat -> list C -> list C) : Prop := forall n l, n < length l ->
    Permutation l (f n l) /\ exists v, nth_error (f n l) n = Some v
      /\ Forall (fun x => cleb x v = true) (firstn n (f n l)) /\ Forall (fun x => cleb v x = true) (skipn (S n) (f n l)).
  Hypothesis nth_ok : nth_contract nth_el.

  (** [v] is at position [n] when [l] is sorted *)
  Definition sorted_at (l : list C) (n : nat) (v : C) : Prop :=
    exists s, Permutation s l /\ StronglySorted (fun a b => cleb a b = true) s /\ nth_error s n = Some v.

  Fixpoint ins (x : C) (l : list C) : list C := match l with [] => [x] | y :: r => if cleb x y then x :: l else y :: ins x r end.
  Lemma ins_perm x l : Permutation (x :: l) (ins x l).
  Proof. induction l as [|y r IH]; [reflexivity|]. cbn. destruct (cleb x y); [reflexivity|]. rewrite perm_swap. constructor. exact IH. Qed.
  Lemma ins_sorted x l : StronglySorted (fun a b => cleb a b = true) l -> StronglySorted (fun a b => cleb a b = true) (ins x l).
  Proof.
    induction 1 as [|y r Hs IH Hy]; cbn; [repeat constructor|]. destruct (cleb x y) eqn:E.
    - constructor; [constructor; assumption|]. constructor; [exact E|]. eapply Forall_impl; [|exact Hy]. intros z Hz. cbn in Hz. eapply cleb_trans; eauto.
    - constructor; [exact IH|]. apply (Permutation_Forall (ins_perm x r)). constructor; [|exact Hy]. destruct (cleb_total x y); [congruence|assumption].
  Qed.
  Definition isort (l : list C) := fold_right ins [] l.
  Lemma isort_perm l : Permutation l (isort l).
  Proof. induction l as [|x r IH]; [reflexivity|]. cbn. rewrite <- ins_perm. constructor. exact IH. Qed.
  Lemma isort_sorted l : StronglySorted (fun a b => cleb a b = true) (isort l).
  Proof. induction l; cbn; [constructor|]. apply ins_sorted. assumption. Qed.
  Lemma sorted_app a v b : StronglySorted (fun a b => cleb a b = true) a -> StronglySorted (fun a b => cleb a b = true) b ->
    Forall (fun x => cleb x v = true) a -> Forall (fun x => cleb v x = true) b -> StronglySorted (fun a b => cleb a b = true) (a ++ v :: b).
  Proof.
    intros Ha Hb Fa Fb. induction Ha as [|x a Ha IH Hx]; cbn; [constructor; assumption|]. inversion Fa as [|? ? F1 F2]; subst.
    constructor; [apply IH; exact F2|]. apply Forall_app. split; [exact Hx|]. constructor; [exact F1|].
    eapply Forall_impl; [|exact Fb]. intros y Hy. cbn in Hy. eapply cleb_trans; eauto.
  Qed.
  Lemma partition_sorted_at l l' n v : Permutation l l' -> nth_error l' n = Some v ->
    Forall (fun x => cleb x v = true) (firstn n l') -> Forall (fun x => cleb v x = true) (skipn (S n) l') -> sorted_at l n v.
  Proof.
    intros Pm N F1 F2. assert (Len : n < length l') by (apply nth_error_Some; congruence).
    exists (isort (firstn n l') ++ v :: isort (skipn (S n) l')). split; [|split].
    - rewrite <- isort_perm. rewrite <- isort_perm. rewrite Pm. rewrite <- (firstn_skipn n l') at 3. apply Permutation_app_head.
      destruct (nth_error_split _ _ N) as (u & w & E & Lu). rewrite E. rewrite <- Lu.
      replace (S (length u)) with (length u + 1) by lia. rewrite !skipn_app. rewrite (skipn_all2 u) by lia. rewrite (skipn_all2 u) by lia. cbn [app].
      replace (length u - length u) with 0 by lia. replace (length u + 1 - length u) with 1 by lia. reflexivity.
    - apply sorted_app; try apply isort_sorted; [apply (Permutation_Forall (isort_perm _)); exact F1|apply (Permutation_Forall (isort_perm _)); exact F2].
    - assert (Li : length (isort (firstn n l')) = n) by (rewrite <- (Permutation_length (isort_perm _)), firstn_length; lia).
      rewrite nth_error_app2 by lia. rewrite Li, Nat.sub_diag. reflexivity.
  Qed.
  Lemma nth_el_at n l : n < length l -> exists v, nth_error (nth_el n l) n = Some v /\ sorted_at l n v.
  Proof.
    intros H. destruct (nth_ok n l H) as (Pm & v & N & F1 & F2). exists v. split; [exact N|]. eapply partition_sorted_at; eauto.
  Qed.
  Lemma sorted_at_perm l m n v : Permutation l m -> sorted_at l n v -> sorted_at m n v.
  Proof. intros Pm (s & H1 & H2 & H3). exists s. split; [transitivity l; assumption|auto]. Qed.

  (** **** C38: the median of an odd number of values is the value in the middle of the sorted sequence *)
  Theorem C38_median_odd l : Nat.Odd (length l) -> exists v, median nth_el mean l = Ok v /\ sorted_at l (length l / 2) v.
  Proof.
    intros [k Hk]. unfold median. assert (M : length l mod 2 = 1) by (rewrite Hk, Nat.add_comm, Nat.mul_comm, Nat.mod_add; reflexivity || lia).
    assert (Q : length l / 2 = k) by (rewrite Hk, Nat.add_comm, Nat.mul_comm, Nat.div_add by lia; reflexivity).
    rewrite M. cbn [Nat.eqb]. destruct (nth_el_at (length l / 2) l) as (v & N & S); [lia|]. rewrite N. eauto.
  Qed.
  (** **** C38: for an even number, the mean of the value before the middle and a value not below it; the value at the
      middle of the sorted sequence if the second call of nth_element leaves the position after it alone *)
  Theorem C38_median_even l : Nat.Even (length l) -> l <> [] ->
    exists a b, median nth_el mean l = Ok (mean a b) /\ sorted_at l (length l / 2 - 1) a /\ cleb a b = true /\ In b l
      /\ (nth_error (nth_el (length l / 2 - 1) (nth_el (length l / 2) l)) (length l / 2) = nth_error (nth_el (length l / 2) l) (length l / 2) ->
          sorted_at l (length l / 2) b).
  Proof.
    intros [k Hk] Ne. unfold median. assert (M : length l mod 2 = 0) by (rewrite Hk, Nat.mul_comm; apply Nat.mod_mul; lia).
    assert (Q : length l / 2 = k) by (rewrite Hk, Nat.mul_comm; apply Nat.div_mul; lia).
    assert (Kp : 0 < k) by (destruct l; [congruence|cbn in Hk; lia]). rewrite M. cbn [Nat.eqb]. rewrite Q.
    replace (k =? 0) with false by (symmetry; apply Nat.eqb_neq; lia).
    destruct (nth_ok k l) as (P1 & v & N1 & _); [lia|]. set (l1 := nth_el k l) in *.
    assert (L1 : length l1 = length l) by (symmetry; apply Permutation_length; exact P1).
    destruct (nth_ok (k - 1) l1) as (P2 & a & N2 & F1 & F2); [lia|]. set (l2 := nth_el (k - 1) l1) in *.
    assert (L2 : length l2 = length l) by (rewrite <- L1; symmetry; apply Permutation_length; exact P2).
    rewrite N2. destruct (nth_error l2 k) as [b|] eqn:Nb; [|apply nth_error_None in Nb; lia].
    exists a, b. split; [reflexivity|]. split; [apply (sorted_at_perm l1); [symmetry; exact P1|]; eapply partition_sorted_at; eauto|].
    split; [|split].
    - rewrite Forall_forall in F2. apply F2. apply nth_error_In with 0. rewrite nth_error_skipn. rewrite <- Nb. f_equal. lia.
    - apply (Permutation_in b (Permutation_sym P1)), (Permutation_in b (Permutation_sym P2)). eapply nth_error_In; eauto.
    - intros Keep. destruct (nth_el_at k l) as (w & Nw & Sw); [lia|]. fold l1 in Nw. congruence.
  Qed.
  Theorem C38_median_one x : (forall l, length l = 1 -> nth_el 0 l = l) -> median nth_el mean [x] = Ok x.
  Proof. intros H. unfold median. cbn [length Nat.div Nat.modulo Nat.eqb]. change (1 / 2) with 0. change (1 mod 2 =? 1) with true. cbn iota. rewrite H by reflexivity. reflexivity. Qed.
  Lemma median_total l : l <> [] -> exists v, median nth_el mean l = Ok v.
  Proof.
    intros Ne. destruct (Nat.Even_or_Odd (length l)) as [E|O].
    - destruct (C38_median_even l E Ne) as (a & b & H & _). eauto.
    - destruct (C38_median_odd l O) as (v & H & _). eauto.
  Qed.
  Lemma median_point_total ps : ps <> [] -> exists m, median_point nth_el mean ps = Ok m
      /\ median nth_el mean (map fst ps) = Ok (fst m) /\ median nth_el mean (map snd ps) = Ok (snd m).
  Proof.
    intros Ne. destruct (median_total (map fst ps)) as (a & Ha); [destruct ps; [congruence|discriminate]|].
    destruct (median_total (map snd ps)) as (b & Hb); [destruct ps; [congruence|discriminate]|].
    exists (a, b). unfold median_point. rewrite Ha. cbn [bindO]. rewrite Hb. auto.
  Qed.

  (** *** the merge *)
  Variable dist : C * C -> C * C -> D.
  Variable leb : D -> D -> bool.
  Variable adjust : C * C -> D.
  Variable in_box : C * C -> D -> C * C -> bool.
  Variable positive : D -> bool.
  (** the box of a positive tolerance contains everything within it *)
  Hypothesis box_ok : forall p q, positive (adjust p) = true -> leb (dist p q) (adjust p) = true -> in_box p (adjust p) q = true.
  Notation near p q := (leb (dist p q) (adjust p)).
  (** a point is within any positive tolerance of itself *)
  Hypothesis self_near : forall p, positive (adjust p) = true -> near p p = true.

  (** the intended result: runs of measurements within the tolerance of the first one, as long as possible, are replaced
      by their componentwise median, up to the measurements [stop] *)
  Inductive merged (stop : list (C * C)) : list (C * C) -> list (C * C) -> Prop :=
  | merged_stop : merged stop stop []
  | merged_run p run rest m out :
      positive (adjust p) = true ->
      (forall q, In q (p :: run) -> near p q = true) ->
      match rest with [] => True | q :: _ => near p q = false end ->
      median nth_el mean (map fst (p :: run)) = Ok (fst m) ->
      median nth_el mean (map snd (p :: run)) = Ok (snd m) ->
      merged stop rest out ->
      merged stop (p :: run ++ rest) (m :: out).

  Notation entry := (@entry C).
  Notation query := (query dist leb adjust in_box).
  Notation merge_loop := (merge_loop nth_el mean dist leb adjust in_box positive).

  Lemma query_in index p e : positive (adjust p) = true -> (In e (query index p) <-> In e index /\ near p (snd e) = true).
  Proof.
    intros Hp. unfold Median.query. rewrite !filter_In. split; [tauto|]. intros [H1 H2]. auto.
  Qed.
  Fixpoint split_run (p : C * C) (l : list entry) : list entry * list entry :=
    match l with
    | [] => ([], [])
    | e :: r => if near p (snd e) then let (c, rest) := split_run p r in (e :: c, rest) else ([], l)
    end.
  Lemma split_run_spec p l : forall c rest, split_run p l = (c, rest) ->
    l = c ++ rest /\ (forall e, In e c -> near p (snd e) = true) /\ match rest with [] => True | e :: _ => near p (snd e) = false end.
  Proof.
    induction l as [|e l IH]; intros c rest H; cbn in H; [injection H as <- <-; repeat split; intros ? []|].
    destruct (near p (snd e)) eqn:E.
    - destruct (split_run p l) as [c' r']. injection H as <- <-. destruct (IH c' r' eq_refl) as (H1 & H2 & H3). split; [cbn; congruence|].
      split; [|exact H3]. intros x [<-|Hx]; auto.
    - injection H as <- <-. split; [reflexivity|]. split; [intros x []|exact E].
  Qed.
  Lemma connected_split index p todo : positive (adjust p) = true -> NoDup (map fst index) -> incl todo index -> connected (query index p) todo = split_run p todo.
  Proof.
    intros Hp Nd. induction todo as [|e r IH]; intros Hi; [reflexivity|]. cbn [connected split_run].
    assert (He : In e index) by (apply Hi; left; reflexivity).
    destruct (find (fun f => fst f =? fst e) (query index p)) as [f|] eqn:F.
    - apply find_some in F as [F1 F2]. apply Nat.eqb_eq in F2. apply (query_in _ _ _ Hp) in F1 as [F1 F3].
      assert (f = e). { destruct f as [i a], e as [j b]. cbn in F2. subst j. apply (NoDup_map_inj fst index); auto. }
      subst f. rewrite F3, IH by (intros x Hx; apply Hi; right; exact Hx). reflexivity.
    - destruct (near p (snd e)) eqn:E; [|reflexivity]. exfalso.
      assert (Hq : In e (query index p)) by (apply (query_in _ _ _ Hp); auto). apply (find_none _ _ F) in Hq. rewrite Nat.eqb_refl in Hq. discriminate.
  Qed.

  Lemma loop_spec : forall n todo, length todo <= n -> forall index out fuel, n < fuel ->
    NoDup (map fst index) -> NoDup (map fst todo) -> incl todo index ->
    exists r, (merge_loop fuel index todo out = Ok (out ++ r) /\ merged [] (map snd todo) r)
      \/ (exists p stop, merge_loop fuel index todo out = Throw (out ++ r) /\ merged (p :: stop) (map snd todo) r /\ positive (adjust p) = false).
  Proof.
    induction n as [|n IH]; intros todo Hl index out fuel Hf N1 N2 Hi.
    - destruct todo; [|cbn in Hl; lia]. destruct fuel; [lia|]. exists []. left. rewrite app_nil_r. split; [reflexivity|constructor].
    - destruct fuel as [|fuel]; [lia|]. destruct todo as [|e r]; [exists []; left; rewrite app_nil_r; split; [reflexivity|constructor]|].
      cbn [Median.merge_loop]. cbn [length] in Hl. inversion N2 as [|? ? N3 N4]; subst.
      assert (He : In e index) by (apply Hi; left; reflexivity).
      destruct (positive (adjust (snd e))) eqn:Hp; cbn [negb].
      2:{ exists []. right. exists (snd e), (map snd r). rewrite app_nil_r. split; [reflexivity|]. split; [constructor|exact Hp]. }
      pose proof (self_near _ Hp) as Sf.
      destruct (query index (snd e)) as [|q0 qs] eqn:Q.
      + exfalso. assert (X : In e (query index (snd e))) by (apply (query_in _ _ _ Hp); auto). rewrite Q in X. destruct X.
      + rewrite <- Q. rewrite connected_split by assumption. destruct (split_run (snd e) (e :: r)) as [conn rest] eqn:Sp.
        destruct (split_run_spec _ _ _ _ Sp) as (E1 & E2 & E3). cbn [split_run] in Sp. rewrite Sf in Sp. destruct (split_run (snd e) r) as [c' r'].
        injection Sp as <- <-. injection E1 as Er.
        destruct (median_point_total (map snd (e :: c'))) as (m & M1 & M2 & M3); [discriminate|]. unfold Median.entry in *. rewrite M1. cbn [bindO].
        assert (Lr : length r' <= n) by (rewrite Er in Hl; rewrite app_length in Hl; lia).
        destruct (IH r' Lr (remove_all index (e :: c')) (out ++ [m]) fuel) as (x & Hx); [lia|apply NoDup_map_filter; exact N1| | |].
        * rewrite Er, map_app in N4. clear -N4. induction (map fst c') as [|z l IHl]; [exact N4|]. cbn in N4. inversion N4; auto.
        * intros y Hy. apply filter_In. split; [apply Hi; right; rewrite Er; apply in_or_app; right; exact Hy|].
          apply negb_true_iff. destruct (existsb _ _) eqn:Ex; [|reflexivity]. apply existsb_exists in Ex as (g & Hg & Eg). apply Nat.eqb_eq in Eg. exfalso.
          assert (Same : g = y).
          { apply (NoDup_map_inj fst index); auto; apply Hi; [|right; rewrite Er; apply in_or_app; right; exact Hy].
            destruct Hg as [<-|Hg]; [left; reflexivity|right; rewrite Er; apply in_or_app; left; exact Hg]. }
          subst g. rewrite Er in N2. cbn [map] in N2. rewrite map_app in N2.
          assert (Dy : In (fst y) (fst e :: map fst c')). { destruct Hg as [<-|Hg]; [left; reflexivity|right; apply in_map; exact Hg]. }
          change (fst e :: map fst c' ++ map fst r') with ((fst e :: map fst c') ++ map fst r') in N2.
          clear -N2 Dy Hy. induction (fst e :: map fst c') as [|z l IHl]; [destruct Dy|]. cbn in N2. inversion N2; subst.
          destruct Dy as [->|Dy]; [apply H1; apply in_or_app; right; apply in_map; exact Hy|auto].
        * exists (m :: x). assert (G : forall stop, merged stop (map snd r') x -> merged stop (map snd (e :: r)) (m :: x)).
          { intros stop Mx. cbn [map] in *. rewrite Er, map_app. constructor; auto.
            - intros q [<-|Hq]; [exact Sf|]. apply in_map_iff in Hq as (y & <- & Hy). apply E2. right. exact Hy.
            - destruct r'; [exact I|exact E3]. }
          destruct Hx as [[Ex Mx]|(p & stop & Ex & Mx & Hpp)].
          -- left. split; [rewrite Ex, <- app_assoc; reflexivity|exact (G [] Mx)].
          -- right. exists p, stop. split; [rewrite Ex, <- app_assoc; reflexivity|]. split; [exact (G _ Mx)|exact Hpp].
  Qed.

  (** **** C38: the merge ends and gives the intended result, or it stops at a measurement whose tolerance is not positive *)
  Theorem C38_merge_or_throw line fuel : length line < fuel ->
    exists out, (median_merge nth_el mean dist leb adjust in_box positive fuel line = Ok out /\ merged [] line out)
      \/ (exists p stop, median_merge nth_el mean dist leb adjust in_box positive fuel line = Throw out
            /\ merged (p :: stop) line out /\ positive (adjust p) = false).
  Proof.
    intros H. set (es := combine (seq 0 (length line)) line).
    assert (S2 : map snd es = line).
    { unfold es. generalize 0. clear. induction line as [|p l IH]; intros n; [reflexivity|]. cbn. rewrite IH. reflexivity. }
    assert (F2 : map fst es = seq 0 (length line)).
    { unfold es. generalize 0. clear. induction line as [|p l IH]; intros n; [reflexivity|]. cbn. rewrite IH. reflexivity. }
    destruct (loop_spec (length line) es) with (index := es) (out := @nil (C * C)) (fuel := fuel) as (r & E); auto.
    - unfold es. rewrite combine_length, seq_length. lia.
    - rewrite F2. apply seq_NoDup.
    - rewrite F2. apply seq_NoDup.
    - intros x Hx. exact Hx.
    - exists r. rewrite S2 in E. exact E.
  Qed.
  Lemma merged_stop_in stop line out : merged stop line out -> exists l, line = l ++ stop.
  Proof.
    induction 1 as [|p run rest m out _ _ _ _ _ M [l ->]]; [exists []; reflexivity|]. exists (p :: run ++ l). cbn. rewrite <- app_assoc. reflexivity.
  Qed.
  (** with positive tolerances it always gives the result *)
  Theorem C38_merge line fuel : length line < fuel -> (forall p, In p line -> positive (adjust p) = true) ->
    exists out, median_merge nth_el mean dist leb adjust in_box positive fuel line = Ok out /\ merged [] line out.
  Proof.
    intros H Hp. destruct (C38_merge_or_throw line fuel H) as (out & [E|(p & stop & _ & M & N)]); [eauto|].
    destruct (merged_stop_in _ _ _ M) as (l & ->). rewrite (Hp p) in N by (apply in_or_app; right; left; reflexivity). discriminate.
  Qed.
  (** with a tolerance that is not positive anywhere no track gets through *)
  Theorem C38_no_tolerance line fuel : length line < fuel -> line <> [] -> (forall p, In p line -> positive (adjust p) = false) ->
    median_merge nth_el mean dist leb adjust in_box positive fuel line = Throw [].
  Proof.
    intros H Ne Hp. destruct line as [|p l]; [congruence|]. destruct fuel as [|fuel]; [cbn in H; lia|].
    unfold median_merge. cbn. rewrite (Hp p) by (left; reflexivity). reflexivity.
  Qed.
  (** the intended result is unique *)
  Theorem C38_unique line out out' : merged [] line out -> merged [] line out' -> out = out'.
  Proof.
    intros M. revert out'. induction M as [|p run rest m out _ H1 H2 H3 H4 M IH]; intros out' M'.
    - inversion M'. reflexivity.
    - remember (p :: run ++ rest) as line eqn:El. destruct M' as [|p' run' rest' m' out2 _ G1 G2 G3 G4 M2]; [discriminate|]; injection El as -> H0.
      assert (E : run = run' /\ rest = rest').
      { symmetry in H0. clear -H0 H1 H2 G1 G2. assert (H1' : forall q, In q run -> near p q = true) by (intros; apply H1; right; assumption).
        assert (G1' : forall q, In q run' -> near p q = true) by (intros; apply G1; right; assumption). clear H1 G1.
        revert run' H0 G1'. induction run as [|a run IHr]; intros [|b run'] E G1; cbn in E.
        - auto.
        - subst rest. cbn in H2. rewrite G1 in H2 by (left; reflexivity). discriminate.
        - subst rest'. cbn in G2. rewrite H1' in G2 by (left; reflexivity). discriminate.
        - injection E as -> E. destruct (IHr ltac:(intros; apply H1'; right; assumption) run' E) as [-> ->]; [intros; apply G1; right; assumption|auto]. }
      destruct E as [-> ->]. f_equal; [|apply IH; exact M2]. destruct m, m'. cbn in *. congruence.
  Qed.
End C38.

(** an instance: integer coordinates, the larger of the coordinate differences as distance, a tolerance of two everywhere *)
Fixpoint zins (x : Z) (l : list Z) : list Z := match l with [] => [x] | y :: r => if (x <=? y)%Z then x :: l else y :: zins x r end.
Definition zsort (l : list Z) : list Z := fold_right zins [] l.
Definition znth (n : nat) (l : list Z) : list Z := zsort l.
Definition zmean (a b : Z) : Z := ((a + b) / 2)%Z.
Definition zdist (p q : Z * Z) : Z := Z.max (Z.abs (fst p - fst q)) (Z.abs (snd p - snd q)).
Definition zbox (p : Z * Z) (t : Z) (q : Z * Z) : bool := (Z.abs (fst p - fst q) <=? t)%Z && (Z.abs (snd p - snd q) <=? t)%Z.
Lemma zins_perm x l : Permutation (x :: l) (zins x l).
Proof. induction l as [|y r IH]; [reflexivity|]. cbn. destruct (x <=? y)%Z; [reflexivity|]. rewrite perm_swap. constructor. exact IH. Qed.
Lemma zsort_perm l : Permutation l (zsort l).
Proof. induction l as [|x r IH]; [reflexivity|]. cbn. rewrite <- zins_perm. constructor. exact IH. Qed.
Lemma zsort_sorted l : StronglySorted Z.le (zsort l).
Proof.
  induction l as [|x r IH]; cbn; [constructor|]. fold (zsort r). generalize dependent (zsort r). intros s0 IH. induction IH as [|y s Hs IHs Hy]; cbn; [repeat constructor|]. destruct (Z.leb_spec x y).
  - constructor; [constructor; assumption|]. constructor; [lia|]. eapply Forall_impl; [|exact Hy]. cbn. lia.
  - constructor; [exact IHs|]. apply (Permutation_Forall (zins_perm x s)). constructor; [lia|exact Hy].
Qed.
Lemma sorted_split (s : list Z) n v : StronglySorted Z.le s -> nth_error s n = Some v ->
  Forall (fun x => (x <=? v)%Z = true) (firstn n s) /\ Forall (fun x => (v <=? x)%Z = true) (skipn (S n) s).
Proof.
  intros Hs. revert n. induction Hs as [|y s Hs IH Hy]; intros n N; [destruct n; discriminate|]. destruct n as [|n]; cbn in *.
  - injection N as ->. split; [constructor|]. eapply Forall_impl; [|exact Hy]. intros z. cbn. apply Z.leb_le.
  - destruct (IH n N) as [H1 H2]. split; [|exact H2]. constructor; [|exact H1]. apply Z.leb_le. rewrite Forall_forall in Hy. apply Hy. eapply nth_error_In; eauto.
Qed.
Definition zpos (t : Z) : bool := negb (t <=? 0)%Z.
Example C38_instance : nth_contract Z.leb znth
  /\ (forall p q t, zpos t = true -> (zdist p q <=? t)%Z = true -> zbox p t q = true) /\ (forall p t, zpos t = true -> (zdist p p <=? t)%Z = true).
Proof.
  split; [|split].
  - intros n l Hn. split; [apply zsort_perm|]. assert (Ne : nth_error (zsort l) n <> None) by (apply nth_error_Some; rewrite <- (Permutation_length (zsort_perm l)); exact Hn).
    unfold znth. destruct (nth_error (zsort l) n) as [v|] eqn:E; [|congruence]. exists v. split; [reflexivity|]. apply sorted_split; [apply zsort_sorted|exact E].
  - intros p q t _ H. unfold zdist, zbox in *. apply Z.leb_le in H. apply andb_true_iff. split; apply Z.leb_le; lia.
  - intros p t H. unfold zdist, zpos in *. apply negb_true_iff, Z.leb_gt in H. apply Z.leb_le. lia.
Qed.
Example C38_demo : median_merge znth zmean zdist Z.leb (fun _ => 2%Z) zbox zpos 9 [(0, 0); (2, 1); (1, 2); (3, 0); (9, 9)]%Z = Ok [(1, 1); (3, 0); (9, 9)]%Z.
Proof. reflexivity. Qed.
(** a tolerance of zero, as it can be given on the command line *)
Example C38_demo_throw : median_merge znth zmean zdist Z.leb (fun _ => 0%Z) zbox zpos 9 [(0, 0); (2, 1)]%Z = Throw [].
Proof. reflexivity. Qed.

(** What is not true: nth_element may move the element behind the one it has put into place, so that for an even number of
    values the result need not be the mean of the two middle values. *)
Theorem C38_median_even_refuted : exists nth_el, nth_contract Z.leb nth_el
  /\ median nth_el zmean [2; 4; 8; 20]%Z = Ok 12%Z /\ zmean 4 8 = 6%Z.
Proof.
  set (f := fun n l => match zsort l with [a; b; c; d] => if n =? 1 then [a; b; d; c] else zsort l | _ => zsort l end).
  exists f. split; [|split; reflexivity]. intros n l Hn. unfold f.
  destruct (proj1 C38_instance n l Hn) as (P & v & N & F1 & F2). unfold znth in *.
  destruct (zsort l) as [|a [|b [|c [|d [|]]]]] eqn:E; try (split; [exact P|exists v; auto]).
  destruct (Nat.eqb_spec n 1) as [->|]; [|split; [exact P|exists v; auto]].
  split; [rewrite P; do 2 constructor; apply perm_swap|]. exists v. split; [exact N|]. split; [exact F1|].
  cbn in F2 |- *. inversion F2 as [|? ? F3 F4]; subst. inversion F4; subst. repeat constructor; assumption.
Qed.

Print Assumptions C38_median_odd.
Print Assumptions C38_median_even.
Print Assumptions C38_median_one.
Print Assumptions C38_merge_or_throw.
Print Assumptions C38_merge.
Print Assumptions C38_no_tolerance.
Print Assumptions C38_unique.
