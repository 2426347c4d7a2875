(** Proofs about the ownership of the lines of routes. *)
From Verif Require Import Base ListAux RichLine Route RouteRefs.
Require Import Lia.

Section Proofs.
  Context {P : Type}.

  (** [references] consists of [mine] and [others], each in order *)
  Inductive weave : list nat -> list nat -> list nat -> Prop :=
  | weave_nil : weave [] [] []
  | weave_mine : forall a mine references others, weave mine references others -> weave (a :: mine) (a :: references) others
  | weave_other : forall a mine references others, weave mine references others -> weave mine (a :: references) (a :: others).

  Definition tidy (r : rroute) (others : list nat) : Prop :=
    weave (own r) (refs r) others /\ NoDup (own r) /\ (forall a, In a others -> ~ In a (own r)).

  Definition all (h : @heap P) (l : list nat) (ls : list (list P)) : Prop := Forall2 (fun a x => load h a = Some x) l ls.
  Definition sees (h : @heap P) (r : rroute) (ls : list (list P)) : Prop := all h (refs r) ls.

  Definition kept (h h' : @heap P) (given : list nat) : Prop :=
    length h <= length h' /\ forall a, a < length h -> ~ In a given -> load h' a = load h a.

  Definition delivers (h h' : @heap P) (given : list nat) (t : rroute) (others : list nat) (ls : list (list P)) : Prop :=
    kept h h' given /\ tidy t others /\ (forall a, In a (own t) -> length h <= a) /\ sees h' t ls.

  Lemma NoDup_parts : forall (l1 l2 : list nat), NoDup (l1 ++ l2) -> NoDup l1 /\ NoDup l2 /\ (forall a, In a l1 -> ~ In a l2).
  Proof.
    induction l1 as [|b l1 IH]; cbn; intros l2 H; [repeat split; auto; constructor|]. inversion H as [|? ? Hn H']; subst.
    destruct (IH l2 H') as [A [B C]]. rewrite in_app_iff in Hn. repeat split; auto; [constructor; tauto|].
    intros a [<-|Ha]; auto.
  Qed.

  (** *** heaps *)
  Lemma load_lt : forall (h : @heap P) a x, load h a = Some x -> a < length h.
  Proof. intros h a x H. unfold load in H. destruct (nth_error h a) eqn:E; [|discriminate]. apply nth_error_Some. congruence. Qed.

  Lemma load_app : forall (h k : @heap P) a, a < length h -> load (h ++ k) a = load h a.
  Proof. intros. unfold load. rewrite nth_error_app1; auto. Qed.
  Lemma load_new : forall (h : @heap P) c, load (h ++ [c]) (length h) = c.
  Proof. intros. unfold load. rewrite nth_error_app2, Nat.sub_diag; auto. Qed.

  Lemma store_length : forall (h : @heap P) a c, length (store h a c) = length h.
  Proof. induction h as [|x h IH]; intros [|a] c; cbn; auto. Qed.
  Lemma store_same : forall (h : @heap P) a c, a < length h -> load (store h a c) a = c.
  Proof. unfold load. induction h as [|x h IH]; intros [|a] c; cbn; intros; try lia; auto. apply IH. lia. Qed.
  Lemma store_other : forall (h : @heap P) a b c, a <> b -> load (store h a c) b = load h b.
  Proof. unfold load. induction h as [|x h IH]; intros [|a] [|b] c; cbn; intros; auto; try congruence. Qed.

  Lemma destroy_length : forall l (h : @heap P), length (fold_left (fun h a => store h a None) l h) = length h.
  Proof. induction l; cbn; intros; auto. rewrite IHl. apply store_length. Qed.
  Lemma destroy_other : forall l (h : @heap P) b, ~ In b l -> load (fold_left (fun h a => store h a None) l h) b = load h b.
  Proof. induction l; cbn; intros; auto. rewrite IHl by tauto. apply store_other. tauto. Qed.
  Lemma destroy_in : forall l (h : @heap P) b, In b l -> load (fold_left (fun h a => store h a None) l h) b = None.
  Proof.
    induction l; cbn; intros h b H; [tauto|]. destruct (in_dec Nat.eq_dec b l) as [Hi|Hi]; [auto|]. destruct H as [->|]; [|tauto].
    rewrite destroy_other by auto. destruct (Nat.lt_ge_cases b (length h)); [apply store_same; auto|].
    unfold load. replace (nth_error (store h b None) b) with (@None (option (list P))); auto.
    symmetry. apply nth_error_None. rewrite store_length. auto.
  Qed.

  Lemma all_ext : forall h h' l ls, (forall a, In a l -> load h' a = load h a) -> all h l ls -> all h' l ls.
  Proof.
    unfold all. intros h h' l ls H A. induction A; constructor; [rewrite H by (cbn; auto); auto|]. apply IHA. intros; apply H; cbn; auto.
  Qed.
  Lemma all_lt : forall h l ls a, all h l ls -> In a l -> a < length h.
  Proof. intros h l ls a A. induction A; cbn; intros; [tauto|]. destruct H0 as [->|]; eauto using load_lt. Qed.
  Lemma view_all : forall h l ls, view h l = Some ls <-> all h l ls.
  Proof.
    induction l as [|a l IH]; cbn; intros ls; split; intros H.
    - injection H as <-. constructor.
    - inversion H; auto.
    - destruct (load h a) eqn:E; [|discriminate]. destruct (view h l) eqn:F; [|discriminate]. injection H as <-.
      constructor; auto. apply IH. auto.
    - inversion H; subst. rewrite H2. assert (view h l = Some l') as -> by (apply IH; auto). auto.
  Qed.
  Lemma view_none : forall (h : @heap P) l a, In a l -> load h a = None -> view h l = None.
  Proof.
    induction l as [|b l IH]; cbn; intros a H E; [tauto|]. destruct H as [->|H]; [rewrite E; auto|].
    destruct (load h b); auto. rewrite (IH a); auto.
  Qed.
  Lemma seen_ok : forall {T} h r ls (k : @route P -> outcome T), sees h r ls -> seen h r k = k (mkRoute (r_invalid r) ls).
  Proof. intros. unfold seen. apply view_all in H. rewrite H. auto. Qed.

  Lemma kept_refl : forall h g, kept h h g. Proof. split; auto. Qed.
  Lemma kept_trans : forall h1 h2 h3 g1 g2, kept h1 h2 g1 -> kept h2 h3 g2 -> kept h1 h3 (g1 ++ g2).
  Proof.
    intros h1 h2 h3 g1 g2 [L1 K1] [L2 K2]. split; [lia|]. intros a Ha Hn. rewrite in_app_iff in Hn.
    rewrite K2 by (try lia; tauto). apply K1; auto; tauto.
  Qed.
  Lemma kept_incl : forall h h' g g', incl g g' -> kept h h' g -> kept h h' g'.
  Proof. intros h h' g g' I [L K]. split; auto. Qed.
  (** cells that were new in between do not count *)
  Lemma kept_fresh : forall h1 h2 h3 g1 g2, kept h1 h2 g1 -> kept h2 h3 g2 -> (forall a, In a g2 -> a < length h1 -> In a g1) -> kept h1 h3 g1.
  Proof.
    intros h1 h2 h3 g1 g2 [L1 K1] [L2 K2] H. split; [lia|]. intros a Ha Hn. rewrite K2; auto; try lia.
  Qed.
  Lemma kept_app : forall h k g, kept h (h ++ k) g.
  Proof. split; [rewrite app_length; lia|]. intros. apply load_app; auto. Qed.
  Lemma all_kept : forall h h' g l ls, kept h h' g -> all h l ls -> (forall a, In a l -> ~ In a g) -> all h' l ls.
  Proof. intros h h' g l ls [L K] A H. eapply all_ext; [|exact A]. intros a Ha. apply K; eauto using all_lt. Qed.

  (** *** weaving *)
  Lemma weave_in : forall m l o, weave m l o -> forall a, In a l <-> In a m \/ In a o.
  Proof. induction 1; cbn; intros; [tauto| |]; rewrite IHweave; tauto. Qed.
  Lemma weave_app : forall m l o, weave m l o -> forall m' l' o', weave m' l' o' -> weave (m ++ m') (l ++ l') (o ++ o').
  Proof. induction 1; cbn; intros; auto; constructor; auto. Qed.
  Lemma weave_all : forall l, weave l l [].
  Proof. induction l; constructor; auto. Qed.
  Lemma weave_none : forall l, weave [] l l.
  Proof. induction l; constructor; auto. Qed.
  Lemma check_weave : forall m l o, weave m l o -> (forall a, In a o -> ~ In a m) -> check l m = true.
  Proof.
    induction 1; intros D; auto.
    - cbn. rewrite Nat.eqb_refl. apply IHweave. intros b Hb Hm. apply (D b); cbn; auto.
    - cbn [check]. destruct mine as [|m ms]; auto. destruct (m =? a) eqn:E.
      + apply Nat.eqb_eq in E. subst. exfalso. apply (D a); cbn; auto.
      + apply IHweave. intros b Hb. apply D. cbn; auto.
  Qed.
  Lemma weave_back : forall m l o, weave m l o -> forall l1 a, l = l1 ++ [a] ->
    (exists m1, m = m1 ++ [a] /\ weave m1 l1 o) \/ (exists o1, o = o1 ++ [a] /\ weave m l1 o1).
  Proof.
    induction 1; intros l1 b E.
    - destruct l1; discriminate.
    - destruct l1 as [|c l1]; cbn in E; injection E as -> ->.
      + inversion H; subst. left. exists []. split; auto; constructor.
      + destruct (IHweave l1 b eq_refl) as [[m1 [-> W]]|[o1 [-> W]]].
        * left. exists (c :: m1). split; auto; constructor; auto.
        * right. exists o1. split; auto; constructor; auto.
    - destruct l1 as [|c l1]; cbn in E; injection E as -> ->.
      + inversion H; subst. right. exists []. split; auto; constructor.
      + destruct (IHweave l1 b eq_refl) as [[m1 [-> W]]|[o1 [-> W]]].
        * left. exists m1. split; auto; constructor; auto.
        * right. exists (c :: o1). split; auto; constructor; auto.
  Qed.
  Lemma weave_split : forall m l o, weave m l o -> forall l1 l2, l = l1 ++ l2 ->
    exists m1 m2 o1 o2, m = m1 ++ m2 /\ o = o1 ++ o2 /\ weave m1 l1 o1 /\ weave m2 l2 o2.
  Proof.
    induction 1; intros l1 l2 E.
    - destruct l1; [|discriminate]. destruct l2; [|discriminate]. exists [], [], [], []. repeat split; constructor.
    - destruct l1 as [|c l1]; cbn in E.
      + subst l2. exists [], (a :: mine), [], others. repeat split; constructor; auto.
      + injection E as -> ->. destruct (IHweave l1 l2 eq_refl) as [m1 [m2 [o1 [o2 [-> [-> [W1 W2]]]]]]].
        exists (c :: m1), m2, o1, o2. repeat split; auto; constructor; auto.
    - destruct l1 as [|c l1]; cbn in E.
      + subst l2. exists [], mine, [], (a :: others). repeat split; auto; constructor; auto.
      + injection E as -> ->. destruct (IHweave l1 l2 eq_refl) as [m1 [m2 [o1 [o2 [-> [-> [W1 W2]]]]]]].
        exists m1, m2, (c :: o1), o2. repeat split; auto; constructor; auto.
  Qed.

  (** *** copying *)
  Lemma copy_loop_ok : forall m l o, weave m l o -> NoDup m -> (forall a, In a o -> ~ In a m) ->
    forall h ls, all h l ls ->
    exists h' m' l', copy_loop h m l = Ok (h', m', l') /\ weave m' l' o /\ NoDup m' /\ (forall a, In a m' -> length h <= a) /\ kept h h' [] /\ all h' l' ls.
  Proof.
    induction 1; intros N D h ls A.
    - inversion A; subst. exists h, [], []. cbn. repeat split; auto; try constructor. cbn; tauto.
    - inversion A as [|? x ? ls' Hx A' E1 E2]; subst. inversion N; subst.
      cbn [copy_loop]. rewrite Nat.eqb_refl, Hx. cbn [derefO].
      destruct (IHweave ltac:(auto) ltac:(intros b Hb Hm; apply (D b); cbn; auto) (h ++ [Some x]) ls') as [h' [m' [l' [E [W [N' [F [K A2]]]]]]]].
      { eapply all_kept with (g := []); eauto using kept_app. }
      rewrite E. cbn [bindO]. exists h', (length h :: m'), (length h :: l'). split; auto.
      rewrite app_length in F. cbn in F.
      split; [constructor; auto|]. split; [constructor; auto; intros Hi; apply F in Hi; lia|].
      split; [intros b [<-|Hb]; auto; apply F in Hb; lia|].
      split; [eapply kept_fresh; [apply kept_app|exact K|cbn; tauto]|].
      constructor; auto. destruct K as [_ K]. rewrite K; [apply load_new|rewrite app_length; cbn; lia|auto].
    - inversion A as [|? x ? ls' Hx A' E1 E2]; subst.
      destruct (IHweave N ltac:(intros b Hb; apply D; cbn; auto) h ls' A') as [h' [m' [l' [E [W [N' [F [K A2]]]]]]]].
      assert (copy_loop h mine (a :: references) = Ok (h', m', a :: l')) as ->.
      { cbn [copy_loop]. destruct mine as [|m ms].
        - rewrite E. auto.
        - destruct (m =? a) eqn:Em; [apply Nat.eqb_eq in Em; subst; exfalso; apply (D a); cbn; auto|]. rewrite E. auto. }
      exists h', m', (a :: l'). split; auto. split; [constructor; auto|]. repeat split; auto; try apply K.
      constructor; auto. destruct K as [_ K]. rewrite K; eauto using load_lt.
  Qed.

  (** *** moving *)
  Lemma move_loop_ok : forall m l o, weave m l o -> NoDup m -> (forall a, In a o -> ~ In a m) ->
    forall h ls, all h l ls ->
    exists h' m' l', move_loop h m l = Ok (h', m', l') /\ weave m' l' o /\ NoDup m' /\ (forall a, In a m' -> length h <= a) /\ kept h h' m /\ all h' l' ls.
  Proof.
    induction 1; intros N D h ls A.
    - inversion A; subst. exists h, [], []. cbn. repeat split; auto; try constructor. cbn; tauto.
    - inversion A as [|? x ? ls' Hx A' E1 E2]; subst. inversion N; subst.
      cbn [move_loop]. rewrite Nat.eqb_refl, Hx. cbn [derefO].
      assert (kept h (store h a (Some []) ++ [Some x]) [a]) as K0.
      { split; [rewrite app_length, store_length; lia|]. intros b Hb Hn. rewrite load_app by (rewrite store_length; auto).
        apply store_other. intros ->. apply Hn. cbn; auto. }
      destruct (IHweave ltac:(auto) ltac:(intros b Hb Hm; apply (D b); cbn; auto) (store h a (Some []) ++ [Some x]) ls') as [h' [m' [l' [E [W [N' [F [K A2]]]]]]]].
      { eapply all_kept; [exact K0|exact A'|]. intros b Hb [<-|[]]. apply (weave_in _ _ _ H) in Hb. destruct Hb as [Hb|Hb]; [auto|]. apply (D a); cbn; auto. }
      rewrite E. cbn [bindO]. exists h', (length h :: m'), (length h :: l'). split; auto.
      assert (length (store h a (Some []) ++ [Some x]) = S (length h)) as L by (rewrite app_length, store_length; cbn; lia).
      rewrite L in F.
      split; [constructor; auto|]. split; [constructor; auto; intros Hi; apply F in Hi; lia|].
      split; [intros b [<-|Hb]; auto; apply F in Hb; lia|].
      split; [eapply kept_incl; [|eapply kept_trans; [exact K0|exact K]]; intros b; cbn; tauto|].
      constructor; auto. destruct K as [_ K]. rewrite K.
      + replace (length h) with (length (store h a (Some []))) by apply store_length. apply load_new.
      + lia.
      + intros Hi. assert (length h < length h); [|lia]. eapply all_lt; [exact A'|]. apply (weave_in _ _ _ H). auto.
    - inversion A as [|? x ? ls' Hx A' E1 E2]; subst.
      destruct (IHweave N ltac:(intros b Hb; apply D; cbn; auto) h ls' A') as [h' [m' [l' [E [W [N' [F [K A2]]]]]]]].
      assert (move_loop h mine (a :: references) = Ok (h', m', a :: l')) as ->.
      { cbn [move_loop]. destruct mine as [|m ms].
        - rewrite E. auto.
        - destruct (m =? a) eqn:Em; [apply Nat.eqb_eq in Em; subst; exfalso; apply (D a); cbn; auto|]. rewrite E. auto. }
      exists h', m', (a :: l'). split; auto. split; [constructor; auto|]. repeat split; auto; try apply K.
      constructor; auto. destruct K as [_ K]. rewrite K; eauto using load_lt. apply D. cbn; auto.
  Qed.

  (** *** merging *)
  Lemma all_rev_head : forall h l ls, all h l ls ->
    match rev l, rev ls with [], [] => True | a :: _, x :: _ => load h a = Some x | _, _ => False end.
  Proof.
    intros h l ls A. destruct l as [|a0 l0] eqn:El; [|destruct (exists_last (l := a0 :: l0)) as [l1 [a E]]; [discriminate|rewrite E in *]].
    - inversion A. cbn. auto.
    - apply Forall2_app_inv_l in A. destruct A as [x1 [x2 [A1 [A2 ->]]]]. inversion A2 as [|? x ? ? Hx A3]; subst. inversion A3; subst.
      rewrite !rev_app_distr. cbn. auto.
  Qed.

  (** a route, the lines it shows, and what it refers to without owning it *)
  Definition source : Type := rroute * list (list P) * list nat.
  Definition sr (s : source) : rroute := fst (fst s).
  Definition sv (s : source) : @route P := mkRoute (r_invalid (sr s)) (snd (fst s)).
  Definition so (s : source) : list nat := snd s.
  Definition owned (ss : list source) : list nat := concat (map (fun s => own (sr s)) ss).
  Definition outside (ss : list source) : list nat := concat (map so ss).
  Definition sound (h : @heap P) (s : source) : Prop := tidy (sr s) (so s) /\ sees h (sr s) (lines (sv s)).

  Variable eqp : P -> P -> bool.

  Lemma connection_ok : forall cn ex h l ls (s : source), all h l ls -> sees h (sr s) (lines (sv s)) ->
    connection eqp cn ex h l (sr s) =
      match gap eqp ls (sv s) with
      | None => Ok (h, [])
      | Some (p, q) => if cn then Ok (h ++ [Some [p; q]], [length h]) else if ex then Throw (h, []) else Ok (h, [])
      end.
  Proof.
    intros cn ex h l ls s A S. unfold connection, gap. pose proof (all_rev_head _ _ _ A) as R.
    destruct (rev l) as [|a ra], (rev ls) as [|x rx]; try tauto; auto.
    destruct s as [[[i o rf] vs] oo]. unfold sees, all, sv, sr in *. cbn in *. destruct S as [|b y lr lsr Hb Ar]; auto.
    rewrite R, Hb. cbn [derefO]. destruct (back x), (front y); auto. destruct (eqp _ _); auto.
  Qed.

  Lemma sound_lt : forall h s a, sound h s -> In a (own (sr s)) \/ In a (so s) -> a < length h.
  Proof. intros h s a [[W _] S] H. eapply all_lt; [exact S|]. apply (weave_in _ _ _ W). auto. Qed.

  Lemma sound_kept : forall h h' g s, sound h s -> kept h h' g -> (forall a, In a (own (sr s)) \/ In a (so s) -> ~ In a g) -> sound h' s.
  Proof.
    intros h h' g s [T S] K D. split; auto. eapply all_kept; eauto. intros a Ha. apply D. apply (weave_in _ _ _ (proj1 T)). auto.
  Qed.

  Lemma in_owned : forall ss s a, In s ss -> In a (own (sr s)) -> In a (owned ss).
  Proof. intros. unfold owned. apply in_concat. exists (own (sr s)). split; auto. apply in_map_iff. eauto. Qed.
  Lemma in_outside : forall ss s a, In s ss -> In a (so s) -> In a (outside ss).
  Proof. intros. unfold outside. apply in_concat. exists (so s). split; auto. apply in_map_iff. eauto. Qed.

  Lemma merge_loop_ok : forall cn ex ss h o l oo ls base,
    (forall s, In s ss -> sound h s) -> NoDup (owned ss) -> (forall a, In a (outside ss) -> ~ In a (owned ss)) ->
    (forall a, In a (owned ss) \/ In a (outside ss) -> a < base) ->
    weave o l oo -> NoDup o -> (forall a, In a o -> base <= a) -> (forall a, In a oo -> a < base /\ ~ In a (owned ss)) -> base <= length h ->
    all h l ls ->
    match foldO (merge_one eqp cn ex) (map sv ss) ls with
    | Ok ls' => exists h' o' l' oo', merge_loop eqp cn ex h (combine (map sr ss) (map (fun s => mergeable eqp (sv s)) ss)) o l = Ok (h', o', l') /\
        weave o' l' oo' /\ NoDup o' /\ (forall a, In a o' -> base <= a) /\ incl oo' (oo ++ outside ss) /\ kept h h' (owned ss) /\ all h' l' ls'
    | Throw _ => exists x, merge_loop eqp cn ex h (combine (map sr ss) (map (fun s => mergeable eqp (sv s)) ss)) o l = Throw x
    | _ => False
    end.
  Proof.
    intros cn ex. induction ss as [|s ss IH]; intros h o l oo ls base HS HN HD HB W N F G L A.
    - cbn. exists h, o, l, oo. repeat split; auto. intros a. rewrite in_app_iff. auto.
    - cbn [map foldO combine merge_loop]. unfold merge_one at 1.
      assert (forall a, In a (own (sr s)) -> In a (owned (s :: ss))) as I1 by (intros; apply in_or_app; auto).
      assert (forall a, In a (owned ss) -> In a (owned (s :: ss))) as I2 by (intros; apply in_or_app; auto).
      assert (forall a, In a (so s) -> In a (outside (s :: ss))) as I3 by (intros; apply in_or_app; auto).
      assert (forall a, In a (outside ss) -> In a (outside (s :: ss))) as I4 by (intros; apply in_or_app; auto).
      assert (NoDup (own (sr s)) /\ NoDup (owned ss) /\ (forall a, In a (own (sr s)) -> ~ In a (owned ss))) as [N1 [N2 N3]].
      { unfold owned in HN. cbn in HN. apply NoDup_parts in HN. tauto. }
      destruct (mergeable eqp (sv s)) eqn:Em.
      2: { cbn [bindO].
           assert (forall a, In a (outside ss) -> ~ In a (owned ss)) as HD' by (intros a Ha Hb; apply (HD a); auto).
           specialize (IH h o l oo ls base (fun x Hx => HS x (or_intror Hx)) N2 HD').
           assert (forall a : nat, In a (owned ss) \/ In a (outside ss) -> a < base) as HB' by (intros a [Ha|Ha]; apply HB; auto).
           specialize (IH HB' W N F). 
           assert (forall a : nat, In a oo -> a < base /\ ~ In a (owned ss)) as G' by (intros a Ha; destruct (G a Ha) as [? Hn]; split; auto).
           specialize (IH G' L A).
           destruct (foldO (merge_one eqp cn ex) (map sv ss) ls) as [lx|lx| |]; auto.
           destruct IH as [h' [o' [l' [oo' [E [W' [N' [F' [I [K A']]]]]]]]]]. exists h', o', l', oo'.
           split; [exact E|]. split; [exact W'|]. split; [exact N'|]. split; [exact F'|]. split; [|split; [|exact A']].
           - intros a Ha. apply I in Ha. rewrite in_app_iff in *. destruct Ha; auto.
           - apply kept_incl with (g := owned ss); auto. }
      pose proof (HS s (or_introl eq_refl)) as [T S].
      rewrite (connection_ok cn ex h l ls s A S).
      (* what happens once the connection is in place *)
      assert (forall h1 c cl, kept h h1 [] -> (forall a, In a c -> length h <= a) -> NoDup c -> all h1 c cl ->
        match foldO (merge_one eqp cn ex) (map sv ss) (ls ++ cl ++ lines (sv s)) with
        | Ok ls' => exists h' o' l' oo', bindO (move_loop h1 (own (sr s)) (refs (sr s))) (fun x => x) (fun '(h2, o2, l2) =>
              merge_loop eqp cn ex h2 (combine (map sr ss) (map (fun s => mergeable eqp (sv s)) ss)) (o ++ c ++ o2) (l ++ c ++ l2)) = Ok (h', o', l') /\
            weave o' l' oo' /\ NoDup o' /\ (forall a, In a o' -> base <= a) /\ incl oo' (oo ++ outside (s :: ss)) /\ kept h h' (owned (s :: ss)) /\ all h' l' ls'
        | Throw _ => exists x, bindO (move_loop h1 (own (sr s)) (refs (sr s))) (fun x => x) (fun '(h2, o2, l2) =>
              merge_loop eqp cn ex h2 (combine (map sr ss) (map (fun s => mergeable eqp (sv s)) ss)) (o ++ c ++ o2) (l ++ c ++ l2)) = Throw x
        | _ => False
        end) as STEP.
      { intros h1 c cl K1 Fc Nc Ac.
        assert (sees h1 (sr s) (lines (sv s))) as S1 by (eapply all_kept; [exact K1|exact S|cbn; tauto]).
        destruct T as [Ws [_ Ds]].
        destruct (move_loop_ok _ _ _ Ws N1 Ds h1 _ S1) as [h2 [o2 [l2 [E2 [W2 [N2' [F2 [K2 A2]]]]]]]].
        rewrite E2. cbn [bindO].
        assert (kept h h2 (own (sr s))) as K12 by (eapply kept_incl; [|eapply kept_trans; [exact K1|exact K2]]; apply incl_refl).
        assert (length h <= length h1 <= length h2) as LL by (split; [apply K1|apply K2]).
        assert (forall a, In a l -> ~ In a (owned (s :: ss))) as Dl.
        { intros a Ha Ho. apply (weave_in _ _ _ W) in Ha. destruct Ha as [Ha|Ha].
          - apply F in Ha. assert (a < base) by (apply HB; auto). lia.
          - apply G in Ha. tauto. }
        assert (all h2 (l ++ c ++ l2) (ls ++ cl ++ lines (sv s))) as AA.
        { apply Forall2_app; [|apply Forall2_app].
          - eapply all_kept; [exact K12|exact A|]. intros a Ha Ho. apply (Dl a); auto.
          - eapply all_kept; [exact K2|exact Ac|]. intros a Ha Ho. apply Fc in Ha. assert (a < base) by (apply HB; auto). lia.
          - exact A2. }
        assert (weave (o ++ c ++ o2) (l ++ c ++ l2) (oo ++ [] ++ so s)) as WW.
        { apply weave_app; auto. apply weave_app; auto. apply weave_all. }
        assert (NoDup (o ++ c ++ o2)) as NN.
        { apply NoDup_app'; auto.
          - apply NoDup_app'; auto. intros a Ha Hb. apply F2 in Hb. assert (a < length h1) by (eapply all_lt; [exact Ac|exact Ha]). lia.
          - intros a Ha Hb. assert (a < length h) by (eapply all_lt; [exact A|]; apply (weave_in _ _ _ W); left; exact Ha).
            apply in_app_iff in Hb. destruct Hb as [Hb|Hb]; [apply Fc in Hb|apply F2 in Hb]; lia. }
        assert (forall x, In x ss -> sound h2 x) as P1.
        { intros x Hx. eapply sound_kept; [apply HS; right; exact Hx|exact K12|]. intros a [Ha|Ha] Hb.
          - apply (N3 a Hb). eapply in_owned; eauto.
          - apply (HD a); [apply I4; eapply in_outside; eauto|auto]. }
        assert (forall a, In a (outside ss) -> ~ In a (owned ss)) as P2 by (intros a Ha Hb; apply (HD a); auto).
        assert (forall a, In a (owned ss) \/ In a (outside ss) -> a < base) as P3 by (intros a [Ha|Ha]; apply HB; auto).
        assert (forall a, In a (o ++ c ++ o2) -> base <= a) as P4.
        { intros a Ha. rewrite !in_app_iff in Ha. destruct Ha as [Ha|[Ha|Ha]]; [auto|apply Fc in Ha; lia|apply F2 in Ha; lia]. }
        assert (forall a, In a (oo ++ [] ++ so s) -> a < base /\ ~ In a (owned ss)) as P5.
        { intros a Ha. cbn in Ha. apply in_app_iff in Ha. destruct Ha as [Ha|Ha].
          - destruct (G a Ha). split; auto.
          - split; [apply HB; auto|]. intros Hb. apply (HD a); auto. }
        specialize (IH h2 _ _ _ _ base P1 N2 P2 P3 WW NN P4 P5 ltac:(lia) AA).
        destruct (foldO (merge_one eqp cn ex) (map sv ss) (ls ++ cl ++ lines (sv s))) as [lx|lx| |]; auto.
        destruct IH as [h' [o' [l' [oo' [E [W' [N' [F' [I [K A']]]]]]]]]]. exists h', o', l', oo'.
        split; [exact E|]. split; [exact W'|]. split; [exact N'|]. split; [exact F'|]. split; [|split; [split|exact A']].
        - intros a Ha. apply I in Ha. cbn in Ha. rewrite !in_app_iff in *. unfold outside. cbn. rewrite in_app_iff. tauto.
        - destruct K; lia.
        - eapply kept_trans in K; [|exact K12]. intros a Ha Hb. apply K; auto. }
      destruct (gap eqp ls (sv s)) as [[p q]|] eqn:Eg.
      + destruct cn.
        * cbn [bindO]. apply (STEP (h ++ [Some [p; q]]) [length h] [[p; q]]).
          -- apply kept_app.
          -- intros a [<-|[]]. lia.
          -- repeat constructor. cbn; tauto.
          -- repeat constructor. apply load_new.
        * destruct ex; cbn [bindO]; [eexists; reflexivity|].
          apply (STEP h [] []); try constructor; cbn; try tauto; auto.
      + cbn [bindO]. apply (STEP h [] []); try constructor; cbn; try tauto; auto.
  Qed.

  Definition separate (ss : list source) : Prop := NoDup (owned ss) /\ (forall a, In a (outside ss) -> ~ In a (owned ss)).

  Lemma merge_ok : forall cn ex ss h, (forall s, In s ss -> sound h s) -> separate ss ->
    match Route.merge eqp (map sv ss) cn ex with
    | Ok v => exists h' t oo, rmerge eqp h (map sr ss) cn ex = Ok (h', t) /\ r_invalid t = invalid v /\ delivers h h' (owned ss) t oo (lines v) /\ incl oo (outside ss)
    | Throw _ => exists x, rmerge eqp h (map sr ss) cn ex = Throw x
    | _ => False
    end.
  Proof.
    intros cn ex ss h HS [HN HD]. unfold Route.merge, rmerge. destruct ss as [|s0 ss0]; cbn [map].
    - exists h, (rflagged true), []. repeat split; cbn; auto; try constructor; try tauto. intros a [].
    - change (sv s0 :: map sv ss0) with (map sv (s0 :: ss0)). change (sr s0 :: map sr ss0) with (map sr (s0 :: ss0)).
      remember (s0 :: ss0) as ss. clear Heqss s0 ss0.
      replace (forallb r_invalid (map sr ss)) with (forallb invalid (map sv ss)) by (clear; induction ss; cbn; f_equal; auto).
      destruct (forallb invalid (map sv ss)).
      + exists h, (rflagged true), []. repeat split; cbn; auto; try constructor; try tauto. intros a [].
      + assert (mapO (fun r => seen h r (fun x => Ok (mergeable eqp x))) (map sr ss) = Ok (map (fun s => mergeable eqp (sv s)) ss)) as ->.
        { clear HN HD. induction ss as [|s ss IH]; auto. cbn [map mapO].
          rewrite (seen_ok h (sr s) (lines (sv s))) by (apply HS; cbn; auto).
          cbn [bindO]. rewrite IH by (intros; apply HS; cbn; auto). auto. }
        cbn [bindO].
        pose proof (merge_loop_ok cn ex ss h [] [] [] [] (length h) HS HN HD) as M.
        assert (forall a, In a (owned ss) \/ In a (outside ss) -> a < length h) as B.
        { intros a Ha. unfold owned, outside in Ha. rewrite !in_concat in Ha.
          destruct Ha as [[x [Hx Ha]]|[x [Hx Ha]]]; apply in_map_iff in Hx; destruct Hx as [s [<- Hs]]; eapply sound_lt; eauto. }
        specialize (M B weave_nil (NoDup_nil _) ltac:(cbn; tauto) ltac:(cbn; tauto) (le_n _) (Forall2_nil _)).
        destruct (foldO (merge_one eqp cn ex) (map sv ss) []) as [v|v| |]; cbn [bindO]; auto.
        * destruct M as [h' [o' [l' [oo' [-> [W [N [F [I [K A]]]]]]]]]]. cbn [bindO]. unfold construct.
          assert (forall a, In a oo' -> ~ In a o') as D.
          { intros a Ha Hb. apply F in Hb. apply I in Ha. cbn in Ha. assert (a < length h) by auto. lia. }
          rewrite (check_weave _ _ _ W D). cbn [bindO]. exists h', (mkR false o' l'), oo'. repeat split; auto; apply K.
        * destruct M as [x ->]. cbn [bindO]. eexists; reflexivity.
  Qed.

  (** *** cutting *)
  Lemma search_found : forall m1 a m2, ~ In a m1 -> search (m1 ++ a :: m2) a = Some m2.
  Proof.
    induction m1 as [|b m1 IH]; cbn; intros a m2 H; [rewrite Nat.eqb_refl; auto|].
    destruct (b =? a) eqn:E; [apply Nat.eqb_eq in E; tauto|]. apply IH. tauto.
  Qed.
  Lemma search_missing : forall m a, ~ In a m -> search m a = None.
  Proof.
    induction m as [|b m IH]; cbn; intros a H; auto. destruct (b =? a) eqn:E; [apply Nat.eqb_eq in E; tauto|]. apply IH. tauto.
  Qed.
  Lemma sub_loop_rest : forall l (h : @heap P), sub_loop h [] l = Ok (h, [], l).
  Proof. induction l as [|a l IH]; cbn; intros h; auto. rewrite IH. auto. Qed.

  (** first own lines [s1], found one after the other, then one that is not found *)
  Lemma sub_loop_ok : forall s1 s2 pre post h ls, NoDup (pre ++ s1 ++ post) ->
    match s2 with [] => True | a :: _ => ~ In a (pre ++ s1 ++ post) end -> all h (s1 ++ s2) ls ->
    exists h' new, sub_loop h (pre ++ s1 ++ post) (s1 ++ s2) = Ok (h', new, new ++ s2) /\ length new = length s1 /\ NoDup new /\
      (forall a, In a new -> length h <= a) /\ kept h h' [] /\ all h' (new ++ s2) ls.
  Proof.
    induction s1 as [|b s1 IH]; intros s2 pre post h ls N M A.
    - exists h, []. cbn [app length] in *. split; [|split; [|split; [|split; [|split]]]]; auto using kept_refl; [|constructor|intros a []].
      destruct s2 as [|a s2]; auto. cbn [sub_loop]. rewrite search_missing by auto. rewrite sub_loop_rest. auto.
    - cbn [app] in *. inversion A as [|? x ? ls' Hx A' E1 E2]; subst. cbn [sub_loop].
      apply NoDup_remove in N. destruct N as [N Nb]. rewrite search_found by (rewrite in_app_iff in Nb; tauto). rewrite Hx. cbn [derefO].
      destruct (IH s2 [] post (h ++ [Some x]) ls') as [h' [new [E [L [N' [F [K A2]]]]]]].
      + apply NoDup_parts in N. tauto.
      + destruct s2; auto. cbn [app]. rewrite !in_app_iff in *. cbn in M. rewrite in_app_iff in M. tauto.
      + eapply all_kept with (g := []); eauto using kept_app.
      + cbn [app] in E. rewrite E. cbn [bindO]. rewrite app_length in F. cbn in F.
        exists h', (length h :: new). cbn [app length]. split; auto. split; auto.
        split; [constructor; auto; intros Hi; apply F in Hi; lia|].
        split; [intros a [<-|Ha]; auto; apply F in Ha; lia|].
        split; [eapply kept_fresh; [apply kept_app|exact K|cbn; tauto]|].
        constructor; auto. destruct K as [_ K]. rewrite K; [apply load_new|rewrite app_length; cbn; lia|auto].
  Qed.

  Lemma weave_only : forall m l o, weave m l o -> o = [] -> m = l.
  Proof. induction 1; intros E; auto; [f_equal; auto|discriminate]. Qed.
  Lemma weave_incl : forall m l o, weave m l o -> (forall a, In a o -> ~ In a m) -> incl l m -> m = l /\ o = [].
  Proof.
    intros m l o W D I. assert (o = []) as ->.
    { destruct o as [|a o]; auto. exfalso. apply (D a); cbn; auto. apply I. apply (weave_in _ _ _ W). cbn; auto. }
    split; auto. eapply weave_only; eauto.
  Qed.

  Lemma all_firstn : forall h n l ls, all h l ls -> all h (firstn n l) (firstn n ls).
  Proof. intros h n l ls A. revert n. induction A; intros [|n]; cbn; constructor; auto. apply IHA. Qed.
  Lemma all_skipn : forall h n l ls, all h l ls -> all h (skipn n l) (skipn n ls).
  Proof. intros h n l ls A. revert n. induction A; intros [|n]; cbn; try constructor; auto. Qed.
  Lemma all_length : forall h l ls, all h l ls -> length l = length ls.
  Proof. intros h l ls A. induction A; cbn; auto. Qed.

  Lemma sub2_ok : forall h r others ls from to s1 s2, tidy r others -> sees h r ls ->
    from <= to -> from < length (refs r) -> to <= length (refs r) ->
    firstn (to - from) (skipn from (refs r)) = s1 ++ s2 -> incl s1 (own r) -> match s2 with [] => True | a :: _ => ~ In a (own r) end ->
    exists h' t, rsub2 h r from to = Ok (h', t) /\ r_invalid t = false /\ refs t = own t ++ s2 /\ length (own t) = length s1 /\
      delivers h h' [] t s2 (firstn (to - from) (skipn from ls)).
  Proof.
    intros h r others ls from to s1 s2 [W [N D]] S Hft Hf Ht E I M. unfold rsub2.
    replace ((from <=? to) && (from <? length (refs r)) && (to <=? length (refs r))) with true
      by (symmetry; rewrite !andb_true_iff, !Nat.leb_le, Nat.ltb_lt; auto).
    assert (refs r = firstn from (refs r) ++ (s1 ++ s2 ++ skipn (to - from) (skipn from (refs r)))) as Er.
    { rewrite (app_assoc s1 s2), <- E, !firstn_skipn. auto. }
    destruct (weave_split _ _ _ W _ _ Er) as [m1 [m2 [o1 [o2 [Em [Eo [W1 W2]]]]]]].
    destruct (weave_split _ _ _ W2 _ _ eq_refl) as [m3 [m4 [o3 [o4 [Em2 [Eo2 [W3 W4]]]]]]].
    assert (o3 = []) as ->.
    { destruct o3 as [|a o3]; auto. exfalso. apply (D a).
      - rewrite Eo, Eo2, !in_app_iff. cbn. auto.
      - apply I. apply (weave_in _ _ _ W3). cbn; auto. }
    apply weave_only in W3; auto. subst m3. subst m2.
    assert (all h (s1 ++ s2) (firstn (to - from) (skipn from ls))) as A by (rewrite <- E; apply all_firstn, all_skipn, S).
    destruct (sub_loop_ok s1 s2 m1 m4 h _ ltac:(rewrite <- Em; auto) ltac:(rewrite <- Em; auto) A) as [h' [new [El [L [N' [F [K A']]]]]]].
    rewrite <- Em in El. rewrite E, El. cbn [bindO]. unfold construct.
    assert (weave new (new ++ s2) s2) as Wn.
    { pose proof (weave_app _ _ _ (weave_all new) _ _ _ (weave_none s2)) as X. rewrite app_nil_r in X. exact X. }
    assert (forall a, In a s2 -> ~ In a new) as Dn.
    { intros a Ha Hb. apply F in Hb. assert (a < length h) by (eapply all_lt; [exact A|apply in_app_iff; auto]). lia. }
    rewrite (check_weave _ _ _ Wn Dn). cbn [bindO].
    exists h', (mkR false new (new ++ s2)). cbn. repeat split; auto; apply K.
  Qed.

  Lemma sub2_throws : forall h r from to, ~ (from <= to /\ from < length (refs r) /\ to <= length (refs r)) -> @rsub2 P h r from to = Throw (h, r).
  Proof.
    intros h r from to H. unfold rsub2.
    destruct ((from <=? to) && (from <? length (refs r)) && (to <=? length (refs r))) eqn:E; auto.
    rewrite !andb_true_iff, !Nat.leb_le, Nat.ltb_lt in E. tauto.
  Qed.

  (** *** routes built one after the other on top of the heap [h] *)
  Definition built (h h' : @heap P) (ss : list source) (others : list nat) : Prop :=
    (forall s, In s ss -> sound h' s) /\ separate ss /\ kept h h' [] /\ (forall a, In a (owned ss) -> length h <= a) /\
    incl (outside ss) others /\ (forall a, In a others -> a < length h).

  Lemma built_nil : forall h others, (forall a, In a others -> a < length h) -> built h h [] others.
  Proof. intros h others H. split; [intros s []|]. split; [split; [constructor|intros a []]|]. split; [apply kept_refl|]. split; [intros a []|]. split; [intros a []|auto]. Qed.

  Lemma owned_app : forall ss ss', owned (ss ++ ss') = owned ss ++ owned ss'.
  Proof. intros. unfold owned. rewrite map_app, concat_app. auto. Qed.
  Lemma outside_app : forall ss ss', outside (ss ++ ss') = outside ss ++ outside ss'.
  Proof. intros. unfold outside. rewrite map_app, concat_app. auto. Qed.

  Lemma built_add : forall h h1 ss others h2 t oo ls, built h h1 ss others -> delivers h1 h2 [] t oo ls -> incl oo others ->
    built h h2 (ss ++ [(t, ls, oo)]) others.
  Proof.
    intros h h1 ss others h2 t oo ls [HS [[HN HD] [K [F [I B]]]]] [K2 [T [F2 S2]]] I2.
    assert (owned [(t, ls, oo)] = own t) as Eo by (unfold owned; cbn; apply app_nil_r).
    assert (outside [(t, ls, oo)] = oo) as Eu by (unfold outside; cbn; apply app_nil_r).
    assert (length h <= length h1) as L by apply K.
    assert (forall a, In a (owned ss) -> a < length h1) as Fo.
    { intros a Ha. unfold owned in Ha. apply in_concat in Ha. destruct Ha as [x [Hx Ha]]. apply in_map_iff in Hx. destruct Hx as [s [<- Hs]].
      eapply sound_lt; eauto. }
    unfold built, separate. rewrite owned_app, outside_app, Eo, Eu. split; [|split; [split|split; [|split; [|split]]]].
    - intros s Hs. apply in_app_iff in Hs. destruct Hs as [Hs|[<-|[]]].
      + eapply sound_kept; eauto.
      + split; auto.
    - apply NoDup_app'; auto; [apply T|]. intros a Ha Hb. apply F2 in Hb. apply Fo in Ha. lia.
    - intros a Ha Hb. rewrite in_app_iff in *. destruct T as [_ [_ D]].
      assert (a < length h) by (apply B; destruct Ha; auto).
      destruct Hb as [Hb|Hb]; [apply F in Hb|apply F2 in Hb]; lia.
    - eapply kept_fresh; [exact K|exact K2|cbn; tauto].
    - intros a Ha. apply in_app_iff in Ha. destruct Ha as [Ha|Ha]; auto. apply F2 in Ha. lia.
    - apply incl_app; auto.
    - auto.
  Qed.

  Lemma of_line_ok : forall h l, delivers h (h ++ [Some l]) [] (mkR false [length h] [length h]) [] [l].
  Proof.
    intros h l. split; [apply kept_app|]. split; [split; [apply (weave_all [length h])|split; [repeat constructor; cbn; tauto|cbn; tauto]]|].
    split; [intros a [<-|[]]; auto|]. repeat constructor. apply load_new.
  Qed.

  Lemma merge_built : forall cn ex ss h h' others, built h h' ss others ->
    match Route.merge eqp (map sv ss) cn ex with
    | Ok v => exists h'' t oo, rmerge eqp h' (map sr ss) cn ex = Ok (h'', t) /\ r_invalid t = invalid v /\ delivers h h'' [] t oo (lines v) /\ incl oo others
    | Throw _ => exists x, rmerge eqp h' (map sr ss) cn ex = Throw x
    | _ => False
    end.
  Proof.
    intros cn ex ss h h' others [HS [HP [K [F [I B]]]]]. pose proof (merge_ok cn ex ss h' HS HP) as M.
    destruct (Route.merge eqp (map sv ss) cn ex) as [v|v| |]; auto.
    destruct M as [h'' [t [oo [E [Ei [[K' [T [F' S]]] I']]]]]]. exists h'', t, oo. split; auto. split; auto. split; [|eapply incl_tran; eauto].
    split; [|split; [exact T|split; [|exact S]]].
    - eapply kept_fresh; [exact K|exact K'|]. intros a Ha Hl. apply F in Ha. lia.
    - intros a Ha. apply F' in Ha. destruct K. lia.
  Qed.

  (** own lines first, then all others *)
  Definition own_first (r : rroute) (others : list nat) : Prop := refs r = own r ++ others.
  Lemma slice_app : forall {A} (l1 l2 : list A) n m, exists s1 s2, firstn m (skipn n (l1 ++ l2)) = s1 ++ s2 /\ incl s1 l1 /\ incl s2 l2.
  Proof.
    intros A l1 l2 n m. exists (firstn m (skipn n l1)), (firstn (m - length (skipn n l1)) (skipn (n - length l1) l2)). split.
    - rewrite skipn_app, firstn_app. auto.
    - split; intros x Hx.
      + rewrite <- (firstn_skipn n l1). apply in_app_iff. right. rewrite <- (firstn_skipn m (skipn n l1)). apply in_app_iff; auto.
      + rewrite <- (firstn_skipn (n - length l1) l2). apply in_app_iff. right.
        rewrite <- (firstn_skipn (m - length (skipn n l1)) (skipn (n - length l1) l2)). apply in_app_iff; auto.
  Qed.

  Lemma sub2_first : forall h r others i ls from to, own_first r others -> tidy r others -> sees h r ls ->
    match sub_route2 (mkRoute i ls) from to with
    | Ok v => exists h' t oo, rsub2 h r from to = Ok (h', t) /\ r_invalid t = invalid v /\ delivers h h' [] t oo (lines v) /\ incl oo others
    | Throw _ => exists x, rsub2 h r from to = Throw x
    | _ => False
    end.
  Proof.
    intros h r others i ls from to O T S. unfold sub_route2. cbn [lines].
    assert (length ls = length (refs r)) as L by (symmetry; eapply all_length; exact S). rewrite L.
    destruct ((from <=? to) && (from <? length (refs r)) && (to <=? length (refs r))) eqn:E.
    - rewrite !andb_true_iff, !Nat.leb_le, Nat.ltb_lt in E. destruct E as [[E1 E2] E3].
      destruct (slice_app (own r) others from (to - from)) as [s1 [s2 [Es [I1 I2]]]]. rewrite <- O in Es.
      destruct (sub2_ok h r others ls from to s1 s2 T S E1 E2 E3 Es I1) as [h' [t [Er [Ei [_ [_ D]]]]]].
      { destruct s2 as [|a s2]; auto. apply T. apply I2. cbn; auto. }
      exists h', t, s2. cbn. auto.
    - exists (h, r). apply sub2_throws. intros [A [B C]]. apply Nat.leb_le in A, C. apply Nat.ltb_lt in B. rewrite A, B, C in E. discriminate.
  Qed.

  Lemma sees_kept : forall h h' r others ls, kept h h' [] -> tidy r others -> sees h r ls -> sees h' r ls.
  Proof. intros. eapply all_kept; eauto. Qed.

  Lemma sub4_ok : forall h r others ls from fp to tp, own_first r others -> tidy r others -> sees h r ls ->
    match sub_route4 eqp (mkRoute (r_invalid r) ls) from fp to tp with
    | Ok v => exists h' t oo, rsub4 eqp h r from fp to tp = Ok (h', t) /\ r_invalid t = invalid v /\ delivers h h' [] t oo (lines v) /\ incl oo others
    | Throw _ => exists x, rsub4 eqp h r from fp to tp = Throw x
    | UB => rsub4 eqp h r from fp to tp = UB
    | Fuel => rsub4 eqp h r from fp to tp = Fuel
    end.
  Proof.
    intros h r others ls from fp to tp O T S. unfold rsub4. rewrite (seen_ok h r ls _ S). unfold sub_route4. cbn [lines].
    assert (length (refs r) = length ls) as L by (eapply all_length; exact S). rewrite L.
    match goal with |- context [if ?b then _ else _] => destruct b end; [|eexists; reflexivity].
    assert (forall a, In a others -> a < length h) as B.
    { intros a Ha. eapply all_lt; [exact S|]. rewrite O. apply in_app_iff; auto. }
    (* the part in front *)
    assert (match (if 0 <? fp then bindO (sub_line (nth from ls []) fp (length (nth from ls []))) (fun _ => []) (fun l => Ok [of_lines [l]]) else Ok []) with
      | Ok vs => exists h1 ss, (if 0 <? fp
             then bindO (sub_line (nth from ls []) fp (length (nth from ls []))) (fun _ => (h, [])) (fun l => let (h1, t) := of_line h l in Ok (h1, [t]))
             else Ok (h, [])) = Ok (h1, map sr ss) /\ map sv ss = vs /\ built h h1 ss others
      | Throw _ => exists x, (if 0 <? fp
             then bindO (sub_line (nth from ls []) fp (length (nth from ls []))) (fun _ => (h, [])) (fun l => let (h1, t) := of_line h l in Ok (h1, [t]))
             else Ok (h, [])) = Throw x
      | UB => (if 0 <? fp
             then bindO (sub_line (nth from ls []) fp (length (nth from ls []))) (fun _ => (h, [])) (fun l => let (h1, t) := of_line h l in Ok (h1, [t]))
             else Ok (h, [])) = UB
      | Fuel => (if 0 <? fp
             then bindO (sub_line (nth from ls []) fp (length (nth from ls []))) (fun _ => (h, [])) (fun l => let (h1, t) := of_line h l in Ok (h1, [t]))
             else Ok (h, [])) = Fuel
      end) as HEAD.
    { destruct (0 <? fp).
      - destruct (sub_line (nth from ls []) fp (length (nth from ls []))) as [l|l| |]; cbn [bindO]; auto; [|eexists; reflexivity].
        exists (h ++ [Some l]), [(mkR false [length h] [length h], [l], [])]. split; auto. split; auto.
        apply (built_add h h [] others); [apply built_nil; auto|apply of_line_ok|intros a []].
      - exists h, []. split; auto. split; auto. apply built_nil; auto. }
    destruct (if 0 <? fp then bindO (sub_line (nth from ls []) fp (length (nth from ls []))) (fun _ => []) (fun l => Ok [of_lines [l]]) else Ok [])
      as [vs|vs| |]; cbn [bindO].
    2: { destruct HEAD as [x ->]. cbn [bindO]. eexists; reflexivity. }
    2, 3: rewrite HEAD; auto.
    destruct HEAD as [h1 [ss [-> [Ev Bl]]]]. cbn [bindO].
    set (from1 := if 0 <? fp then from + 1 else from).
    assert (sees h1 r ls) as S1 by (eapply sees_kept; eauto; apply Bl).
    (* the rest *)
    assert (forall i, match (if (0 <? to) && (tp <? length (nth (to - 1) ls []))
             then bindO (sub_route2 (mkRoute i ls) from1 (to - 1)) (fun _ => []) (fun mid =>
                  bindO (sub_line (nth (to - 1) ls []) 0 tp) (fun _ => []) (fun l => Ok [mid; of_lines [l]]))
             else if from1 <? length ls then bindO (sub_route2 (mkRoute i ls) from1 to) (fun _ => []) (fun mid => Ok [mid]) else Ok []) with
      | Ok vs2 => exists h2 ss2, (if (0 <? to) && (tp <? length (nth (to - 1) ls []))
             then bindO (rsub2 h1 r from1 (to - 1)) (fun _ => (h, [])) (fun '(h2, mid) =>
                  bindO (sub_line (nth (to - 1) ls []) 0 tp) (fun _ => (h, [])) (fun l => let (h3, t) := of_line h2 l in Ok (h3, [mid; t])))
             else if from1 <? length ls then bindO (rsub2 h1 r from1 to) (fun _ => (h, [])) (fun '(h2, mid) => Ok (h2, [mid])) else Ok (h1, []))
               = Ok (h2, map sr ss2) /\ map sv ss2 = vs2 /\ built h h2 (ss ++ ss2) others
      | Throw _ => exists x, (if (0 <? to) && (tp <? length (nth (to - 1) ls []))
             then bindO (rsub2 h1 r from1 (to - 1)) (fun _ => (h, [])) (fun '(h2, mid) =>
                  bindO (sub_line (nth (to - 1) ls []) 0 tp) (fun _ => (h, [])) (fun l => let (h3, t) := of_line h2 l in Ok (h3, [mid; t])))
             else if from1 <? length ls then bindO (rsub2 h1 r from1 to) (fun _ => (h, [])) (fun '(h2, mid) => Ok (h2, [mid])) else Ok (h1, []))
               = Throw x
      | UB => (if (0 <? to) && (tp <? length (nth (to - 1) ls []))
             then bindO (rsub2 h1 r from1 (to - 1)) (fun _ => (h, [])) (fun '(h2, mid) =>
                  bindO (sub_line (nth (to - 1) ls []) 0 tp) (fun _ => (h, [])) (fun l => let (h3, t) := of_line h2 l in Ok (h3, [mid; t])))
             else if from1 <? length ls then bindO (rsub2 h1 r from1 to) (fun _ => (h, [])) (fun '(h2, mid) => Ok (h2, [mid])) else Ok (h1, []))
               = UB
      | Fuel => (if (0 <? to) && (tp <? length (nth (to - 1) ls []))
             then bindO (rsub2 h1 r from1 (to - 1)) (fun _ => (h, [])) (fun '(h2, mid) =>
                  bindO (sub_line (nth (to - 1) ls []) 0 tp) (fun _ => (h, [])) (fun l => let (h3, t) := of_line h2 l in Ok (h3, [mid; t])))
             else if from1 <? length ls then bindO (rsub2 h1 r from1 to) (fun _ => (h, [])) (fun '(h2, mid) => Ok (h2, [mid])) else Ok (h1, []))
               = Fuel
      end) as TAIL.
    { intros i. destruct ((0 <? to) && (tp <? length (nth (to - 1) ls []))).
      - pose proof (sub2_first h1 r others i ls from1 (to - 1) O T S1) as M.
        destruct (sub_route2 (mkRoute i ls) from1 (to - 1)) as [v|v| |]; try tauto; cbn [bindO].
        + destruct M as [h2 [t [oo [-> [Ei [D I]]]]]]. cbn [bindO].
          destruct (sub_line (nth (to - 1) ls []) 0 tp) as [l|l| |]; cbn [bindO]; auto; [|eexists; reflexivity].
          exists (h2 ++ [Some l]), [(t, lines v, oo); (mkR false [length h2] [length h2], [l], [])]. split; auto. split.
          * unfold sv, sr. cbn. rewrite Ei. destruct v; auto.
          * change [(t, lines v, oo); (mkR false [length h2] [length h2], [l], [])] with ([(t, lines v, oo)] ++ [(mkR false [length h2] [length h2], [l], [])]).
            rewrite app_assoc. eapply built_add; [|apply of_line_ok|intros a []]. eapply built_add; eauto.
        + destruct M as [x ->]. cbn [bindO]. eexists; reflexivity.
      - destruct (from1 <? length ls).
        + pose proof (sub2_first h1 r others i ls from1 to O T S1) as M.
          destruct (sub_route2 (mkRoute i ls) from1 to) as [v|v| |]; try tauto; cbn [bindO].
          * destruct M as [h2 [t [oo [-> [Ei [D I]]]]]]. cbn [bindO]. exists h2, [(t, lines v, oo)]. split; auto. split.
            -- unfold sv, sr. cbn. rewrite Ei. destruct v; auto.
            -- eapply built_add; eauto.
          * destruct M as [x ->]. cbn [bindO]. eexists; reflexivity.
        + exists h1, []. split; auto. split; auto. rewrite app_nil_r. auto. }
    specialize (TAIL (r_invalid r)).
    match type of TAIL with match ?X with _ => _ end => destruct X as [vs2|vs2| |] end; cbn [bindO].
    - destruct TAIL as [h2 [ss2 [-> [Ev2 Bl2]]]]. cbn [bindO]. rewrite <- Ev, <- Ev2, <- !map_app.
      pose proof (merge_built false false _ _ _ _ Bl2) as M.
      destruct (Route.merge eqp (map sv (ss ++ ss2)) false false); tauto.
    - destruct TAIL as [x ->]. cbn [bindO]. eexists; reflexivity.
    - rewrite TAIL. auto.
    - rewrite TAIL. auto.
  Qed.

  (** *** destroying the sources *)
  Lemma destroy_all_other : forall rs (h : @heap P) a, (forall r, In r rs -> ~ In a (own r)) -> load (fold_left destroy rs h) a = load h a.
  Proof.
    induction rs as [|r rs IH]; cbn; intros h a H; auto. rewrite IH by auto. unfold destroy. apply destroy_other. auto.
  Qed.
  Lemma survives : forall h h' given t others ls rs, delivers h h' given t others ls ->
    (forall r a, In r rs -> In a (own r) -> a < length h /\ ~ In a others) -> sees (fold_left destroy rs h') t ls.
  Proof.
    intros h h' given t others ls rs [K [T [F S]]] H. eapply all_ext; [|exact S]. intros a Ha. apply destroy_all_other. intros r Hr Ho.
    destruct (H r a Hr Ho) as [Hl Hn]. apply (weave_in _ _ _ (proj1 T)) in Ha. destruct Ha as [Ha|Ha]; [apply F in Ha; lia|tauto].
  Qed.

  (** *** joining *)
  Lemma pop_back_ok : forall (h : @heap P) m l1 a o, weave m (l1 ++ [a]) o -> NoDup m -> (forall b, In b o -> ~ In b m) ->
    exists h1 m1 o1, match rev m with x :: rest => if x =? a then (store h x None, rev rest) else (h, m) | [] => (h, []) end = (h1, m1) /\
      weave m1 l1 o1 /\ NoDup m1 /\ incl m1 m /\ incl o1 o /\ length h1 = length h /\ (forall b, ~ In b m \/ In b m1 -> load h1 b = load h b).
  Proof.
    intros h m l1 a o W N D. destruct (weave_back _ _ _ W l1 a eq_refl) as [[m1 [-> W1]]|[o1 [-> W1]]].
    - rewrite rev_app_distr. cbn. rewrite Nat.eqb_refl, rev_involutive. exists (store h a None), m1, o.
      apply NoDup_parts in N. destruct N as [N1 [_ N2]].
      split; auto. split; auto. split; auto. split; [apply incl_appl, incl_refl|]. split; [apply incl_refl|]. split; [apply store_length|].
      intros b Hb. apply store_other. intros <-. destruct Hb as [Hb|Hb]; [apply Hb, in_app_iff; cbn; auto|]. apply (N2 a Hb). cbn; auto.
    - exists h, m, o1. split.
      + destruct (rev m) as [|x rest] eqn:E; [assert (m = []) as -> by (rewrite <- (rev_involutive m), E; auto); auto|].
        destruct (x =? a) eqn:Ex; auto. apply Nat.eqb_eq in Ex. subst x. exfalso. apply (D a); [apply in_app_iff; cbn; auto|].
        apply in_rev. rewrite E. cbn; auto.
      + split; auto. split; auto. split; [apply incl_refl|]. split; [apply incl_appl, incl_refl|]. auto.
  Qed.
  Lemma pop_front_ok : forall (h : @heap P) m l1 a o, weave m (a :: l1) o -> NoDup m -> (forall b, In b o -> ~ In b m) ->
    exists h1 m1 o1, match m with x :: rest => if x =? a then (store h x None, rest) else (h, m) | [] => (h, []) end = (h1, m1) /\
      weave m1 l1 o1 /\ NoDup m1 /\ incl m1 m /\ incl o1 o /\ length h1 = length h /\ (forall b, ~ In b m \/ In b m1 -> load h1 b = load h b).
  Proof.
    intros h m l1 a o W N D. inversion W as [|? m1 ? ? W1|? ? ? o1 W1]; subst.
    - rewrite Nat.eqb_refl. exists (store h a None), m1, o. inversion N; subst.
      split; auto. split; auto. split; auto. split; [apply incl_tl, incl_refl|]. split; [apply incl_refl|]. split; [apply store_length|].
      intros b Hb. apply store_other. intros <-. cbn in Hb. tauto.
    - exists h, m, o1. split.
      + destruct m as [|x rest]; auto. destruct (x =? a) eqn:Ex; auto. apply Nat.eqb_eq in Ex. subst x. exfalso. apply (D a); cbn; auto.
      + split; auto. split; auto. split; [apply incl_refl|]. split; [apply incl_tl, incl_refl|]. auto.
  Qed.

  Variable opposite : P * P -> P * P -> bool.

  Lemma join_ok : forall h sa sb retain, sound h sa -> sound h sb -> separate [sa; sb] ->
    exists h' sa' sb', rjoin eqp opposite h (sr sa) (sr sb) retain = Ok (h', sr sa', sr sb') /\
      Route.join eqp opposite (sv sa) (sv sb) retain = (sv sa', sv sb') /\
      sound h' sa' /\ sound h' sb' /\ separate [sa'; sb'] /\ kept h h' (owned [sa; sb]) /\
      (forall a, In a (own (sr sa')) -> In a (own (sr sa)) \/ length h <= a) /\ (forall a, In a (own (sr sb')) -> In a (own (sr sb)) \/ length h <= a) /\
      incl (so sa') (so sa) /\ incl (so sb') (so sb).
  Proof.
    intros h [[ra va] oa] [[rb vb] ob] retain [Ta Sa] [Tb Sb] SEP. unfold sr, sv, so in *. cbn [fst snd lines] in *.
    unfold rjoin. rewrite (seen_ok h ra va _ Sa), (seen_ok h rb vb _ Sb). unfold Route.join, sr. cbn [invalid lines fst snd].
    assert (forall x, x = (mkRoute (r_invalid ra) va, mkRoute (r_invalid rb) vb) -> exists h' sa' sb', @Ok (heap * rroute * rroute) (h, ra, rb) = Ok (h', fst (fst sa'), fst (fst sb')) /\
      x = (sv sa', sv sb') /\
      sound h' sa' /\ sound h' sb' /\ separate [sa'; sb'] /\ kept h h' (owned [(ra, va, oa); (rb, vb, ob)]) /\
      (forall a, In a (own (fst (fst sa'))) -> In a (own ra) \/ length h <= a) /\ (forall a, In a (own (fst (fst sb'))) -> In a (own rb) \/ length h <= a) /\
      incl (snd sa') oa /\ incl (snd sb') ob) as SAME.
    { intros x ->. exists h, (ra, va, oa), (rb, vb, ob). repeat (split; [solve [auto using kept_refl, incl_refl | split; auto]|]).
      cbn. auto using incl_refl. }
    destruct (r_invalid ra) eqn:Ira; [apply SAME; auto|]. destruct (r_invalid rb) eqn:Irb; [apply SAME; auto|]. cbn [orb].
    (* the last line of a and the first line of b *)
    pose proof (all_rev_head _ _ _ Sa) as RA. fold (refs ra) in RA.
    destruct (rev (refs ra)) as [|na ra_rest] eqn:Era, (rev va) as [|a_back va_rest] eqn:Eva; try tauto; try (apply SAME; reflexivity).
    destruct (refs rb) as [|nb rb_rest] eqn:Erb, vb as [|b_front vb_rest];
      [apply SAME; reflexivity|exfalso; unfold sees, all in Sb; rewrite Erb in Sb; inversion Sb|exfalso; unfold sees, all in Sb; rewrite Erb in Sb; inversion Sb|].
    destruct ((length a_back <? 2) || (length b_front <? 2)) eqn:Es; [apply SAME; auto|].
    destruct (retain && reverse_attaches eqp opposite a_back b_front) eqn:Er; [apply SAME; auto|].
    clear SAME Er.
    set (b_line := tl b_front). set (a_line := removelast a_back ++ firstn 1 b_line).
    set (a_line1 := if length a_line <? 2 then [] else a_line). set (b_line1 := if length b_line <? 2 then [] else b_line).
    assert (refs ra = rev ra_rest ++ [na]) as Ea by (rewrite <- (rev_involutive (refs ra)), Era; auto).
    assert (va = rev va_rest ++ [a_back]) as Eva2 by (rewrite <- (rev_involutive va), Eva; auto).
    destruct Ta as [Wa [Na Da]], Tb as [Wb [Nb Db]]. rewrite Ea in Wa. rewrite Erb in Wb.
    unfold sees in Sa, Sb. rewrite Ea, Eva2 in Sa. rewrite Erb in Sb.
    apply Forall2_app_inv_l in Sa. destruct Sa as [v1 [v2 [Aa [Aa2 Ev]]]]. inversion Aa2 as [|? x2 ? ? Hna An]; subst. inversion An; subst.
    apply app_inj_tail in Ev. destruct Ev as [<- <-]. inversion Sb as [|? ? ? ? Hnb Ab]; subst.
    destruct SEP as [SN SD]. unfold owned, outside in SN, SD. cbn in SN, SD. rewrite (app_nil_r (own rb)) in SN, SD. rewrite (app_nil_r ob) in SD.
    apply NoDup_parts in SN. destruct SN as [_ [_ SN]].
    destruct (pop_back_ok h _ _ _ _ Wa Na Da) as [h1 [ma [oa' [E1 [Wa' [Na' [Ia [Ioa [L1 K1]]]]]]]]]. rewrite E1. clear E1.
    destruct (pop_front_ok h1 _ _ _ _ Wb Nb Db) as [h2 [mb [ob' [E2 [Wb' [Nb' [Ib [Iob [L2 K2]]]]]]]]]. rewrite E2. clear E2.
    assert (forall b, In b (rev ra_rest) -> load h2 b = load h b) as LA.
    { intros b Hb. apply (weave_in _ _ _ Wa') in Hb. destruct Hb as [Hb|Hb].
      - rewrite K2, K1; auto.
      - apply Ioa in Hb. assert (~ In b (own ra ++ own rb)) as Hn by (apply SD; apply in_app_iff; auto). rewrite in_app_iff in Hn.
        rewrite K2, K1; tauto. }
    assert (forall b, In b rb_rest -> load h2 b = load h b) as LB.
    { intros b Hb. apply (weave_in _ _ _ Wb') in Hb. destruct Hb as [Hb|Hb].
      - rewrite K2, K1; auto. left. intros Hc. apply (SN b Hc). auto.
      - apply Iob in Hb. assert (~ In b (own ra ++ own rb)) as Hn by (apply SD; apply in_app_iff; auto). rewrite in_app_iff in Hn.
        rewrite K2, K1; tauto. }
    assert (forall b, In b (own ra) -> b < length h) as LtA.
    { intros b Hb. assert (In b (rev ra_rest ++ [na])) as Hc by (apply (weave_in _ _ _ Wa); auto). apply in_app_iff in Hc. destruct Hc as [Hc|[<-|[]]].
      - eapply all_lt; [exact Aa|exact Hc].
      - eapply load_lt; exact Hna. }
    assert (forall b, In b oa -> b < length h) as LtOA.
    { intros b Hb. assert (In b (rev ra_rest ++ [na])) as Hc by (apply (weave_in _ _ _ Wa); auto). apply in_app_iff in Hc. destruct Hc as [Hc|[<-|[]]].
      - eapply all_lt; [exact Aa|exact Hc].
      - eapply load_lt; exact Hna. }
    assert (forall b, In b (own rb) \/ In b ob -> b < length h) as LtB.
    { intros b Hb. assert (In b (nb :: rb_rest)) as Hc by (apply (weave_in _ _ _ Wb); auto). destruct Hc as [<-|Hc].
      - eapply load_lt; exact Hnb.
      - eapply all_lt; [exact Ab|exact Hc]. }
    (* the new lines *)
    set (h3 := if is_empty a_line1 then h2 else h2 ++ [Some a_line1]).
    set (a1 := if is_empty a_line1 then mkR false ma (rev ra_rest) else mkR false (ma ++ [length h2]) (rev ra_rest ++ [length h2])).
    set (va1 := rev va_rest ++ (if is_empty a_line1 then [] else [a_line1])).
    replace (if is_empty a_line1 then (h2, mkR false ma (rev ra_rest)) else (h2 ++ [Some a_line1], mkR false (ma ++ [length h2]) (rev ra_rest ++ [length h2])))
      with (h3, a1) by (unfold h3, a1; destruct (is_empty a_line1); auto).
    set (h4 := if is_empty b_line1 then h3 else h3 ++ [Some b_line1]).
    set (b1 := if is_empty b_line1 then mkR false mb rb_rest else mkR false (length h3 :: mb) (length h3 :: rb_rest)).
    set (vb1 := (if is_empty b_line1 then [] else [b_line1]) ++ vb_rest).
    replace (if is_empty b_line1 then (h3, mkR false mb rb_rest) else (h3 ++ [Some b_line1], mkR false (length h3 :: mb) (length h3 :: rb_rest)))
      with (h4, b1) by (unfold h4, b1; destruct (is_empty b_line1); auto).
    assert (kept h2 h3 []) as K23 by (unfold h3; destruct (is_empty a_line1); auto using kept_refl, kept_app).
    assert (kept h3 h4 []) as K34 by (unfold h4; destruct (is_empty b_line1); auto using kept_refl, kept_app).
    assert (all h2 (rev ra_rest) (rev va_rest)) as Aa3 by (eapply all_ext; [exact LA|exact Aa]).
    assert (all h2 rb_rest vb_rest) as Ab3 by (eapply all_ext; [exact LB|exact Ab]).
    assert (all h3 (refs a1) va1) as Sa1.
    { unfold a1, va1, h3. destruct (is_empty a_line1); cbn [refs]; [rewrite app_nil_r; auto|].
      apply Forall2_app; [eapply all_kept with (g := []); [apply kept_app|exact Aa3|auto]|]. repeat constructor. apply load_new. }
    assert (all h4 (refs b1) vb1) as Sb1.
    { assert (all h3 rb_rest vb_rest) as Ab4 by (eapply all_kept with (g := []); [exact K23|exact Ab3|auto]).
      unfold b1, vb1, h4. destruct (is_empty b_line1); cbn [refs app]; [auto|].
      constructor; [apply load_new|]. eapply all_kept with (g := []); [apply kept_app|exact Ab4|auto]. }
    assert (all h4 (refs a1) va1) as Sa2 by (eapply all_kept with (g := []); [exact K34|exact Sa1|auto]).
    assert (forall a, In a (own a1) -> In a ma \/ a = length h2) as Fa.
    { unfold a1. destruct (is_empty a_line1); cbn; auto. intros a Ha. apply in_app_iff in Ha. cbn in Ha. intuition auto. }
    assert (forall a, In a (own b1) -> In a mb \/ (a = length h3 /\ is_empty b_line1 = false)) as Fb.
    { unfold b1. destruct (is_empty b_line1); cbn; auto. intuition auto. }
    assert (length h2 = length h) as L2h by lia.
    assert (length h <= length h3) as L3h by (destruct K23; lia).
    assert (forall a, In a (own a1) -> In a (own ra) \/ a = length h) as Fa2 by (intros a Ha; apply Fa in Ha; rewrite L2h in Ha; destruct Ha; auto).
    assert (forall a, In a (own b1) -> In a (own rb) \/ length h <= a) as Fb2 by (intros a Ha; apply Fb in Ha; destruct Ha as [Ha|[-> _]]; auto).
    assert (forall a, In a (own a1) -> In a (own b1) -> False) as Dab.
    { intros a Ha Hb. pose proof Ha as Ha0. apply Fa2 in Ha. apply Fb in Hb. destruct Ha as [Ha| ->], Hb as [Hb|[Hb1 Hb2]].
      - apply (SN a Ha). auto.
      - apply LtA in Ha. lia.
      - assert (length h < length h); [apply LtB; left; auto|lia].
      - (* both new: then a's line came first *)
        unfold h3 in Hb1. unfold a1 in Ha0. destruct (is_empty a_line1); cbn in Ha0.
        + assert (length h < length h); [apply LtA; auto|lia].
        + rewrite app_length in Hb1. cbn in Hb1. lia. }
    exists h4, (a1, va1, oa'), (b1, vb1, ob'). split; auto. split.
    { unfold sv, sr. cbn. f_equal; f_equal; [unfold a1|unfold b1]; [destruct (is_empty a_line1)|destruct (is_empty b_line1)]; auto. }
    assert (sound h4 (a1, va1, oa')) as Soa.
    { split; [|exact Sa2]. unfold tidy, sr, so. cbn [fst snd]. split; [|split].
      - unfold a1. destruct (is_empty a_line1); cbn; auto. rewrite <- (app_nil_r oa'). apply weave_app; auto. apply (weave_all [length h2]).
      - unfold a1. destruct (is_empty a_line1); cbn; auto. apply NoDup_app'; auto; [repeat constructor; cbn; tauto|].
        intros a Ha [<-|[]]. apply Ia in Ha. apply LtA in Ha. lia.
      - intros a Ha Hb. apply Ioa in Ha. apply Fa2 in Hb. destruct Hb as [Hb| ->]; [apply (Da a); auto|]. apply LtOA in Ha. lia. }
    assert (sound h4 (b1, vb1, ob')) as Sob.
    { split; [|exact Sb1]. unfold tidy, sr, so. cbn [fst snd]. split; [|split].
      - unfold b1. destruct (is_empty b_line1); cbn; auto. constructor. auto.
      - unfold b1. destruct (is_empty b_line1); cbn; auto. constructor; auto. intros Ha. apply Ib in Ha.
        assert (length h3 < length h) by (apply LtB; auto). lia.
      - intros a Ha Hb. apply Iob in Ha. apply Fb2 in Hb. destruct Hb as [Hb|Hb]; [apply (Db a); auto|].
        assert (a < length h) by (apply LtB; auto). lia. }
    split; [exact Soa|]. split; [exact Sob|]. split; [|split; [|split; [|split; [|split]]]]; cbn [fst snd].
    - unfold separate, owned, outside. cbn. rewrite !app_nil_r. split.
      + apply NoDup_app'; [apply Soa|apply Sob|]. intros a Ha Hb. eapply Dab; eauto.
      + intros a Ha Hb. assert (~ In a (own ra ++ own rb) /\ a < length h) as [Hn Hl].
        { apply in_app_iff in Ha. split.
          - apply SD. apply in_app_iff. destruct Ha; auto.
          - destruct Ha; auto. }
        rewrite in_app_iff in Hn, Hb. destruct Hb as [Hb|Hb]; [apply Fa2 in Hb|apply Fb2 in Hb]; destruct Hb; try tauto; lia.
    - eapply kept_incl with (g := (own ra ++ own rb) ++ []); [unfold owned; cbn; rewrite !app_nil_r; apply incl_refl|].
      apply kept_trans with (h2 := h2).
      + split; [lia|]. intros a Ha Hn. rewrite in_app_iff in Hn. rewrite K2, K1; tauto.
      + eapply kept_fresh; [exact K23|exact K34|cbn; tauto].
    - intros a Ha. apply Fa2 in Ha. destruct Ha; [auto|right; lia].
    - auto.
    - auto.
    - auto.
  Qed.

  Lemma join_built : forall h h' sa sb others retain, built h h' [sa; sb] others ->
    exists h'' sa' sb', rjoin eqp opposite h' (sr sa) (sr sb) retain = Ok (h'', sr sa', sr sb') /\
      Route.join eqp opposite (sv sa) (sv sb) retain = (sv sa', sv sb') /\ built h h'' [sa'; sb'] others.
  Proof.
    intros h h' sa sb others retain [HS [HP [K [F [I B]]]]].
    destruct (join_ok h' sa sb retain (HS _ (or_introl eq_refl)) (HS _ (or_intror (or_introl eq_refl))) HP)
      as [h'' [sa' [sb' [E1 [E2 [Sa [Sb [SEP [K' [Fa [Fb [Ia Ib]]]]]]]]]]]].
    exists h'', sa', sb'. split; auto. split; auto.
    assert (length h <= length h') as L by apply K.
    unfold owned, outside in *. cbn in *. rewrite !app_nil_r in *.
    split; [intros s [<-|[<-|[]]]; auto|]. split; auto. split; [eapply kept_fresh; [exact K|exact K'|]; intros a Ha Hl; cbn in Ha; rewrite ?app_nil_r in Ha; apply F in Ha; lia|].
    split; [|split; [|exact B]].
    - intros a Ha. unfold owned in Ha. cbn in Ha. rewrite app_nil_r in Ha. apply in_app_iff in Ha. destruct Ha as [Ha|Ha]; [apply Fa in Ha|apply Fb in Ha]; destruct Ha; try lia; apply F, in_app_iff; auto.
    - intros a Ha. unfold outside in Ha. cbn in Ha. rewrite app_nil_r in Ha. apply I. apply in_app_iff in Ha. apply in_app_iff. destruct Ha; auto.
  Qed.

  Lemma trim_ok : forall fuel h r oo ls other oo2 ls2,
    own_first r oo -> tidy r oo -> sees h r ls -> own_first other oo2 -> tidy other oo2 -> sees h other ls2 ->
    match Route.trim_merge eqp opposite fuel (mkRoute (r_invalid r) ls) (mkRoute (r_invalid other) ls2) with
    | Ok v => exists h' t o, rtrim eqp opposite fuel h r other = Ok (h', t) /\ r_invalid t = invalid v /\ delivers h h' [] t o (lines v) /\ incl o (oo ++ oo2)
    | Throw _ => exists x, rtrim eqp opposite fuel h r other = Throw x
    | UB => rtrim eqp opposite fuel h r other = UB
    | Fuel => rtrim eqp opposite fuel h r other = Fuel
    end.
  Proof.
    intros fuel h r oo ls other oo2 ls2 O T S O2 T2 S2. unfold rtrim. rewrite (seen_ok h r ls _ S), (seen_ok h other ls2 _ S2).
    unfold Route.trim_merge. destruct (find_return_line eqp fuel _ _) as [pt|pt| |]; cbn [bindO]; auto; [|eexists; reflexivity].
    destruct (some_parts pt).
    2: { exists h, (rflagged true), []. split; auto. split; auto. split; [|intros a []].
         split; [apply kept_refl|]. split; [split; [constructor|split; [constructor|auto]]|]. split; [intros a []|constructor]. }
    assert (forall a, In a (oo ++ oo2) -> a < length h) as B.
    { intros a Ha. apply in_app_iff in Ha. destruct Ha as [Ha|Ha]; [eapply all_lt; [exact S|]; rewrite O|eapply all_lt; [exact S2|]; rewrite O2];
        apply in_app_iff; auto. }
    assert (forall f1 p1 f2 p2, match sub_route4 eqp (mkRoute (r_invalid r) ls) f1 p1 f2 p2 with
      | Ok v => exists h1 sa, rsub4 eqp h r f1 p1 f2 p2 = Ok (h1, sr sa) /\ sv sa = v /\ built h h1 [sa] (oo ++ oo2)
      | Throw _ => exists x, rsub4 eqp h r f1 p1 f2 p2 = Throw x
      | UB => rsub4 eqp h r f1 p1 f2 p2 = UB
      | Fuel => rsub4 eqp h r f1 p1 f2 p2 = Fuel
      end) as ONE.
    { intros f1 p1 f2 p2. pose proof (sub4_ok h r oo ls f1 p1 f2 p2 O T S) as M.
      destruct (sub_route4 eqp (mkRoute (r_invalid r) ls) f1 p1 f2 p2) as [v|v| |]; auto.
      destruct M as [h1 [t [o [-> [Ei [D I]]]]]]. exists h1, (t, lines v, o). split; auto. split.
      - unfold sv, sr. cbn. rewrite Ei. destruct v; auto.
      - apply (built_add h h [] (oo ++ oo2)); auto using built_nil. apply incl_appl; auto. }
    assert (match match self_start pt with Some (i, j) => sub_route4 eqp (mkRoute (r_invalid r) ls) 0 0 (i + 1) (j + 1) | None => sub_route4 eqp (mkRoute (r_invalid r) ls) 0 0 0 0 end with
      | Ok v => exists h1 sa, match self_start pt with Some (i, j) => rsub4 eqp h r 0 0 (i + 1) (j + 1) | None => rsub4 eqp h r 0 0 0 0 end = Ok (h1, sr sa) /\ sv sa = v /\ built h h1 [sa] (oo ++ oo2)
      | Throw _ => exists x, match self_start pt with Some (i, j) => rsub4 eqp h r 0 0 (i + 1) (j + 1) | None => rsub4 eqp h r 0 0 0 0 end = Throw x
      | UB => match self_start pt with Some (i, j) => rsub4 eqp h r 0 0 (i + 1) (j + 1) | None => rsub4 eqp h r 0 0 0 0 end = UB
      | Fuel => match self_start pt with Some (i, j) => rsub4 eqp h r 0 0 (i + 1) (j + 1) | None => rsub4 eqp h r 0 0 0 0 end = Fuel
      end) as FIRST by (destruct (self_start pt) as [[i j]|]; apply ONE).
    match type of FIRST with match ?X with _ => _ end => destruct X as [va|va| |] end; cbn [bindO].
    2: { destruct FIRST as [x ->]. cbn [bindO]. eexists; reflexivity. }
    2, 3: rewrite FIRST; auto.
    destruct FIRST as [h1 [sa [-> [Eva Bl]]]]. cbn [bindO lines].
    assert (length (refs other) = length ls2) as L2 by (eapply all_length; exact S2). rewrite L2.
    assert (sees h1 other ls2) as S2' by (eapply sees_kept; eauto; apply Bl).
    destruct (other_end pt) as [[k l]|]; cbn [bindO]; [|eexists; reflexivity].
    pose proof (sub4_ok h1 other oo2 ls2 k l (length ls2) (length (last ls2 [])) O2 T2 S2') as M.
    destruct (sub_route4 eqp (mkRoute (r_invalid other) ls2) k l (length ls2) (length (last ls2 []))) as [vb|vb| |]; cbn [bindO].
    2: { destruct M as [x ->]. cbn [bindO]. eexists; reflexivity. }
    2, 3: rewrite M; auto.
    destruct M as [h2 [t [o [-> [Ei [D I]]]]]]. cbn [bindO].
    assert (built h h2 ([sa] ++ [(t, lines vb, o)]) (oo ++ oo2)) as Bl2 by (eapply built_add; [exact Bl|exact D|apply incl_appr; auto]).
    cbn [app] in Bl2. set (sb := (t, lines vb, o) : source) in *.
    assert (sv sb = vb) as Evb by (unfold sv, sr, sb; cbn; rewrite Ei; destruct vb; auto).
    assert (sees h2 (sr sa) (lines (sv sa))) as Ssa by (apply Bl2; cbn; auto).
    assert (sees h2 (sr sb) (lines (sv sb))) as Ssb by (apply Bl2; cbn; auto).
    rewrite (seen_ok h2 (sr sa) (lines (sv sa)) _ Ssa). change t with (sr sb). rewrite (seen_ok h2 (sr sb) (lines (sv sb)) _ Ssb). cbn [lines].
    rewrite <- Eva, <- Evb.
    assert (exists h3 sa' sb', match rev (lines (sv sa)), lines (sv sb) with
             | x :: _, y :: _ => if reverse_attaches eqp opposite x y then rjoin eqp opposite h2 (sr sa) (sr sb) false else Ok (h2, sr sa, sr sb)
             | _, _ => Ok (h2, sr sa, sr sb)
             end = Ok (h3, sr sa', sr sb') /\
             match rev (lines (sv sa)), lines (sv sb) with
             | x :: _, y :: _ => if reverse_attaches eqp opposite x y then Route.join eqp opposite (sv sa) (sv sb) false else (sv sa, sv sb)
             | _, _ => (sv sa, sv sb)
             end = (sv sa', sv sb') /\ built h h3 [sa'; sb'] (oo ++ oo2)) as J.
    { destruct (rev (lines (sv sa))) as [|x lx]; [exists h2, sa, sb; auto|]. destruct (lines (sv sb)) as [|y ly]; [exists h2, sa, sb; auto|].
      destruct (reverse_attaches eqp opposite x y); [|exists h2, sa, sb; auto]. apply join_built; auto. }
    destruct J as [h3 [sa' [sb' [J1 [J2 Bl3]]]]]. cbn [lines] in *. rewrite J1, J2. cbn [bindO].
    exact (let M := merge_built false false _ _ _ _ Bl3 in
           match Route.merge eqp (map sv [sa'; sb']) false false as X return
             match X with
             | Ok v => exists h'' t oo0, rmerge eqp h3 (map sr [sa'; sb']) false false = Ok (h'', t) /\ r_invalid t = invalid v /\ delivers h h'' [] t oo0 (lines v) /\ incl oo0 (oo ++ oo2)
             | Throw _ => exists x, rmerge eqp h3 (map sr [sa'; sb']) false false = Throw x
             | _ => False
             end ->
             match X with
             | Ok v => exists h' t o, rmerge eqp h3 [sr sa'; sr sb'] false false = Ok (h', t) /\ r_invalid t = invalid v /\ delivers h h' [] t o (lines v) /\ incl o (oo ++ oo2)
             | Throw _ => exists x, rmerge eqp h3 [sr sa'; sr sb'] false false = Throw x
             | UB => rmerge eqp h3 [sr sa'; sr sb'] false false = UB
             | Fuel => rmerge eqp h3 [sr sa'; sr sb'] false false = Fuel
             end with
           | Ok v => fun x => x | Throw v => fun x => x | UB => fun x => match x with end | Fuel => fun x => match x with end end M).
  Qed.

End Proofs.
