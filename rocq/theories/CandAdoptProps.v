(** C58: what adopting candidates from other measurements adds, and the nodes of a candidate. *)
From Coq Require Import QArith Qabs Qminmax Sorted Lqa.
From Verif Require Import Base ListAux CandCreate CandCreateProps CandAdopt.
Local Open Scope nat_scope.

Section C58.
  Context {P : Type}.

  Lemma upd_nth : forall i f (st : @state P) k,
    nth_error (upd i f st) k = if k =? i then match nth_error st k with Some (p, s) => Some (p, f p s) | None => None end else nth_error st k.
  Proof.
    induction i as [|i IH]; intros f [|[p s] st] [|k]; cbn [upd nth_error Nat.eqb]; auto; destruct (k =? _); auto.
  Qed.
  Lemma upd_length : forall i f (st : @state P), length (upd i f st) = length st.
  Proof. induction i as [|i IH]; intros f [|[p s] st]; cbn; auto. Qed.
  Lemma upd_upd : forall i f g (st : @state P), upd i g (upd i f st) = upd i (fun p s => g p (f p s)) st.
  Proof. induction i as [|i IH]; intros f g [|[p s] st]; cbn; auto. rewrite IH. auto. Qed.
  Lemma upd_id : forall i (st : @state P), upd i (fun _ s => s) st = st.
  Proof. induction i as [|i IH]; intros [|[p s] st]; cbn; auto. rewrite IH. auto. Qed.
  Lemma upd_fun : forall i f g (st : @state P), (forall p s, f p s = g p s) -> upd i f st = upd i g st.
  Proof. induction i as [|i IH]; intros f g [|[p s] st] H; cbn; auto; [rewrite H; auto|rewrite (IH f g st H); auto]. Qed.

  Lemma insert_In : forall (n x : @candidate P) s, In x (insert n s) <-> x = n \/ In x s.
  Proof.
    intros n x s. split; intros H.
    - apply (Permutation_in _ (insert_perm n s)) in H. destruct H; auto.
    - apply (Permutation_in _ (Permutation_sym (insert_perm n s))). destruct H; cbn; auto.
  Qed.
  Lemma insert_filter : forall (n : @candidate P) s, adopted n = true -> filter (fun c => negb (adopted c)) (insert n s) = filter (fun c => negb (adopted c)) s.
  Proof.
    induction s as [|x s IH]; intros H; cbn; [rewrite H; auto|]. destruct (lessQ (distance n) (distance x)); cbn; rewrite ?H; cbn; auto. rewrite IH; auto.
  Qed.
  Lemma sorted_last : forall (s : list (@candidate P)) l x, StronglySorted nearer s -> hd_error (rev s) = Some l -> In x s -> (distance x <= distance l)%Q.
  Proof.
    intros s. induction s as [|a s IH]; intros l x S H I; [destruct I|]. inversion S as [|? ? S' F]; subst. cbn in H.
    destruct (rev s) as [|b r] eqn:E.
    - cbn in H. injection H as <-. assert (s = []) by (rewrite <- (rev_involutive s), E; reflexivity). subst s. destruct I as [<-|[]]. apply Qle_refl.
    - cbn in H. injection H as <-. destruct I as [<-|I]; [|eapply IH; eauto; reflexivity].
      rewrite Forall_forall in F. apply F. apply in_rev. rewrite E. cbn; auto.
  Qed.
  Lemma last_In : forall {A} (s : list A) l, hd_error (rev s) = Some l -> In l s.
  Proof. intros A s l H. apply in_rev. destruct (rev s); cbn in H; [discriminate|]. injection H as <-. cbn; auto. Qed.

  Variable dist : P -> P -> Q.
  Variable eqp : P -> P -> bool.
  Variable seg_dist : P -> P -> P -> Q.
  Variable query : P -> Q -> list (nat * P * @candidate P) -> list (nat * P * @candidate P).
  Variable source target : nat -> nat.
  Variable vertex_point : nat -> P.
  (** the index returns entries it has, among them all whose segment is within a positive distance *)
  Hypothesis query_sound : forall p d vs x, In x (query p d vs) -> In x vs.
  Hypothesis query_complete : forall p d vs i q c, (0 < d)%Q -> In (i, q, c) vs -> (seg_dist p q (projection c) <= d)%Q -> In (i, q, c) (query p d vs).
  Hypothesis eqp_refl : forall p, eqp p p = true.
  Hypothesis eqp_sym : forall p q, eqp p q = eqp q p.
  Hypothesis eqp_dist : forall p a b, eqp a b = true -> dist p a == dist p b.

  Let same := same eqp.
  Let adopt := adopt dist.
  Let add_candidate := add_candidate dist eqp.
  Let add_all := add_all dist eqp.
  Let finalize := finalize dist eqp seg_dist query source target vertex_point.
  Let adoptions := adoptions dist eqp seg_dist query.

  (** the sets before: as C57 leaves them, without two equal candidates *)
  Definition fresh (st : @state P) : Prop := forall i p s, nth_error st i = Some (p, s) ->
    StronglySorted nearer s /\ ForallOrdPairs (fun a b => same a b = false) s /\ forall c, In c s -> adopted c = false /\ distance c == dist p (projection c).

  Lemma same_refl : forall c, same c c = true.
  Proof. intros c. unfold same, CandAdopt.same. rewrite Nat.eqb_refl, eqp_refl. reflexivity. Qed.
  Lemma same_sym : forall a b, same a b = same b a.
  Proof. intros a b. unfold same, CandAdopt.same. rewrite Nat.eqb_sym, eqp_sym. reflexivity. Qed.
  Lemma same_adopt : forall x p c, same x (adopt p c) = same x c.
  Proof. reflexivity. Qed.

  Lemma insert_distinct : forall n s, ForallOrdPairs (fun a b => same a b = false) s -> (forall x, In x s -> same x n = false) -> ForallOrdPairs (fun a b => same a b = false) (insert n s).
  Proof.
    induction s as [|x s IH]; cbn; intros H K; [repeat constructor|]. inversion H as [|? ? F H']; subst. destruct (lessQ (distance n) (distance x)).
    - constructor; [|exact H]. apply Forall_forall. intros y Hy. rewrite same_sym. apply K. exact Hy.
    - constructor; auto. apply Forall_forall. intros y Hy. apply insert_In in Hy. destruct Hy as [->|Hy]; [apply K; auto|]. rewrite Forall_forall in F. auto.
  Qed.

  Lemma add_cases : forall p c s, (add_candidate p c s = s /\ exists x, In x s /\ same x c = true) \/
    (add_candidate p c s = insert (adopt p c) s /\ forall x, In x s -> distance x == dist p (projection x) -> same x c = false).
  Proof.
    intros p c s. unfold add_candidate, CandAdopt.add_candidate. destruct (existsb _ s) eqn:E.
    - left. split; auto. apply existsb_exists in E. destruct E as [x [Hx E]]. exists x. split; auto. apply andb_prop in E. destruct E as [_ E]. exact E.
    - right. split; auto. intros x Hx Hd. destruct (same x c) eqn:Es; auto. exfalso. rewrite <- not_true_iff_false in E. apply E. apply existsb_exists.
      exists x. split; auto. change (CandAdopt.same eqp x (CandAdopt.adopt dist p c)) with (same x c). rewrite Es, andb_true_r.
      assert (eqp (projection x) (projection c) = true) as Ep by (unfold same, CandAdopt.same in Es; apply andb_prop in Es; tauto).
      apply (eqp_dist p) in Ep. cbn [CandAdopt.adopt distance].
      apply andb_true_intro. split; apply negb_true_iff; apply lessQ_false; lra.
  Qed.
  Lemma add_incl : forall p c s, incl s (add_candidate p c s).
  Proof. intros p c s x H. destruct (add_cases p c s) as [[-> _]|[-> _]]; auto. apply insert_In. auto. Qed.
  Lemma add_has : forall p c s, exists x, In x (add_candidate p c s) /\ same x c = true.
  Proof.
    intros p c s. destruct (add_cases p c s) as [[-> [x H]]|[-> _]]; eauto. exists (adopt p c). split; [apply insert_In; auto|]. apply (same_refl c).
  Qed.
  Lemma add_all_incl : forall cs p s, incl s (add_all cs p s).
  Proof.
    induction cs as [|c cs IH]; intros p s; cbn; [apply incl_refl|]. eapply incl_tran; [|apply IH]. destruct (adopted c); [apply incl_refl|apply add_incl].
  Qed.
  Lemma add_all_has : forall cs p s c, In c cs -> adopted c = false -> exists x, In x (add_all cs p s) /\ same x c = true.
  Proof.
    induction cs as [|a cs IH]; intros p s c I A; [destruct I|]. destruct I as [->|I]; cbn.
    - rewrite A. destruct (add_has p c s) as [x [Hx Hs]]. exists x. split; auto. apply (add_all_incl cs p _ x). exact Hx.
    - apply IH; auto.
  Qed.

  (** *** sequences of single adoptions *)
  Section Reach.
    Variable st0 : @state P.
    Hypothesis F0 : fresh st0.
    Variable R : nat -> nat -> @candidate P -> Prop.
    Inductive reach : @state P -> Prop :=
    | reach_start : reach st0
    | reach_step : forall st i j q sj c, reach st -> i <> j -> nth_error st0 j = Some (q, sj) -> In c sj -> R i j c -> reach (upd i (fun p s => add_candidate p c s) st).

    Definition good (i : nat) (p : P) (s0 s : list (@candidate P)) : Prop :=
      filter (fun c => negb (adopted c)) s = s0 /\ StronglySorted nearer s /\ ForallOrdPairs (fun a b => same a b = false) s /\
      (forall c, In c s -> distance c == dist p (projection c)) /\
      (forall x, In x s -> adopted x = true -> exists j q sj c, j <> i /\ nth_error st0 j = Some (q, sj) /\ In c sj /\ R i j c /\ x = adopt p c).

    Lemma filter_all : forall (s : list (@candidate P)), (forall c, In c s -> adopted c = false) -> filter (fun c => negb (adopted c)) s = s.
    Proof. induction s as [|x s IH]; intros H; cbn [filter]; auto. rewrite (H x (or_introl eq_refl)). cbn [negb]. f_equal. apply IH. intros c Hc. apply H. right. exact Hc. Qed.

    Lemma reach_good : forall st, reach st -> length st = length st0 /\
      forall i p s0, nth_error st0 i = Some (p, s0) -> exists s, nth_error st i = Some (p, s) /\ good i p s0 s.
    Proof.
      intros st H. induction H as [|st i j q sj c H [L IH] Hij Hj Hc Hr].
      - split; auto. intros i p s0 E. exists s0. split; auto. destruct (F0 _ _ _ E) as [S [D A]]. split; [apply filter_all; intros c Hc; apply A; auto|].
        split; auto. split; auto. split; [intros c Hc; apply A; auto|]. intros x Hx Ax. apply A in Hx. destruct Hx. congruence.
      - split; [rewrite upd_length; auto|]. intros k p s0 E. destruct (IH _ _ _ E) as [s [Es G]]. rewrite upd_nth, Es. destruct (k =? i) eqn:Ek; [|eauto].
        apply Nat.eqb_eq in Ek. subst k. exists (add_candidate p c s). split; auto. destruct (add_cases p c s) as [[-> _]|[-> Hn]]; auto.
        destruct G as [Gf [Gs [Gd [Gp Ga]]]]. split; [rewrite insert_filter; auto|]. split; [apply insert_sorted; auto|].
        split; [apply insert_distinct; auto; intros x Hx; rewrite same_adopt; auto|]. split.
        + intros x Hx. apply insert_In in Hx. destruct Hx as [->|Hx]; auto. cbn. reflexivity.
        + intros x Hx Ax. apply insert_In in Hx. destruct Hx as [->|Hx]; auto. exists j, q, sj, c. auto 10.
    Qed.

    Lemma reach_add_all : forall cs i j q sj st, reach st -> i <> j -> nth_error st0 j = Some (q, sj) ->
      (forall c, In c cs -> adopted c = false -> In c sj /\ R i j c) -> reach (upd i (add_all cs) st).
    Proof.
      induction cs as [|c cs IH]; intros i j q sj st H Hij Hj Hc; [rewrite (upd_fun i (add_all []) (fun _ s => s)); [rewrite upd_id; auto|reflexivity]|].
      assert (reach (upd i (fun p s => if adopted c then s else add_candidate p c s) st)) as H1.
      { destruct (adopted c) eqn:A; [rewrite upd_id; auto|]. destruct (Hc c (or_introl eq_refl) A). eapply reach_step; eauto. }
      apply (IH i j q sj _) in H1; auto; [|intros c' Hc' A; apply Hc; cbn; auto]. rewrite upd_upd in H1.
      rewrite (upd_fun i (add_all (c :: cs)) (fun p s => add_all cs p (if adopted c then s else add_candidate p c s))); auto.
    Qed.

    (** the candidates of a set that are not adopted are those it had in the beginning *)
    Lemma reach_own : forall st i c, reach st -> In c (set_of st i) -> adopted c = false -> exists q s0, nth_error st0 i = Some (q, s0) /\ In c s0.
    Proof.
      intros st i c H Hc A. destruct (reach_good st H) as [L G]. unfold set_of in Hc. destruct (nth_error st i) as [[p s]|] eqn:E; [|destruct Hc].
      destruct (nth_error st0 i) as [[q s0]|] eqn:E0.
      - exists q, s0. split; auto. destruct (G _ _ _ E0) as [s' [Es [Gf _]]]. assert (s' = s) by congruence. subst s'. rewrite <- Gf. apply filter_In. rewrite A. auto.
      - apply nth_error_None in E0. assert (i < length st) by (apply nth_error_Some; congruence). lia.
    Qed.
    Lemma reach_own' : forall st i q s0 c, reach st -> nth_error st0 i = Some (q, s0) -> In c s0 -> In c (set_of st i) /\ adopted c = false.
    Proof.
      intros st i q s0 c H E Hc. destruct (reach_good st H) as [L G]. destruct (G _ _ _ E) as [s [Es [Gf _]]]. unfold set_of. rewrite Es.
      rewrite <- Gf in Hc. apply filter_In in Hc. destruct Hc as [Hc A]. split; auto. apply negb_true_iff. auto.
    Qed.
  End Reach.

  (** *** nothing gets lost *)
  Definition ext (a b : @state P) : Prop := forall i p s, nth_error a i = Some (p, s) -> exists s', nth_error b i = Some (p, s') /\ incl s s'.
  Lemma ext_refl : forall a, ext a a.
  Proof. intros a i p s H. exists s. split; auto. apply incl_refl. Qed.
  Lemma ext_trans : forall a b c, ext a b -> ext b c -> ext a c.
  Proof. intros a b c H K i p s E. destruct (H _ _ _ E) as [s1 [E1 I1]]. destruct (K _ _ _ E1) as [s2 [E2 I2]]. exists s2. split; auto. eapply incl_tran; eauto. Qed.
  Lemma upd_ext : forall i f st, (forall p s, incl s (f p s)) -> ext st (upd i f st).
  Proof. intros i f st H k p s E. rewrite upd_nth, E. destruct (k =? i); eauto. exists s. split; auto. apply incl_refl. Qed.
  Lemma fold_ext : forall {A} (f : @state P -> A -> @state P), (forall st x, ext st (f st x)) -> forall l st, ext st (fold_left f l st).
  Proof. intros A f H. induction l as [|x l IH]; intros st; cbn; [apply ext_refl|]. eapply ext_trans; [apply H|apply IH]. Qed.
  Definition holds (st : @state P) (i : nat) (c : @candidate P) : Prop := exists p s x, nth_error st i = Some (p, s) /\ In x s /\ same x c = true.
  Lemma holds_ext : forall a b i c, ext a b -> holds a i c -> holds b i c.
  Proof. intros a b i c E [p [s [x [H [I S]]]]]. destruct (E _ _ _ H) as [s' [E' I']]. exists p, s', x. auto. Qed.

  Lemma nearby_step_ext : forall rev i st x, ext st (nearby_step dist eqp rev i st x).
  Proof.
    intros r i st [[j q] c]. unfold nearby_step. destruct (i =? j); [apply ext_refl|].
    assert (ext st (upd i (fun p s => add_candidate p c s) st)) as E by (apply upd_ext; intros; apply add_incl).
    destruct r; auto. eapply ext_trans; [exact E|]. apply upd_ext. intros. apply add_all_incl.
  Qed.
  Lemma nearby_one_ext : forall rev vs st i, ext st (nearby_one dist eqp seg_dist query rev vs st i).
  Proof.
    intros r vs st i. unfold nearby_one. destruct (nth_error st i) as [[p s]|]; [|apply ext_refl]. destruct (hd_error (List.rev s)) as [l|]; [|apply ext_refl].
    destruct (lessQ 0 (distance l)); [|apply ext_refl]. apply fold_ext. intros. apply nearby_step_ext.
  Qed.
  Lemma siblings_one_ext : forall st i, ext st (siblings_one dist eqp st i).
  Proof.
    intros st i. unfold siblings_one. eapply ext_trans; [|apply upd_ext; intros; apply add_all_incl]. destruct i; [apply ext_refl|]. apply upd_ext. intros. apply add_all_incl.
  Qed.

  Lemma index_values_In : forall (st : @state P) k j q c, In (j, q, c) (index_values k st) <-> exists i s, j = k + i /\ nth_error st i = Some (q, s) /\ In c s /\ adopted c = false.
  Proof.
    induction st as [|[p s] st IH]; intros k j q c; cbn.
    - split; [tauto|]. intros [i [s [_ [H _]]]]. destruct i; discriminate.
    - rewrite in_app_iff, IH, in_map_iff. split.
      + intros [[x [E H]]|[i [s' [E [H1 H2]]]]].
        * injection E as <- <- <-. apply filter_In in H. destruct H as [H A]. exists 0, s. rewrite negb_true_iff in A. repeat split; auto.
        * exists (S i), s'. split; [lia|]. auto.
      + intros [[|i] [s' [E [H1 [H2 H3]]]]]; cbn in H1.
        * injection H1 as <- <-. left. exists c. split; [f_equal; f_equal; lia|]. apply filter_In. rewrite H3. auto.
        * right. exists i, s'. split; [lia|]. auto.
  Qed.

  (** near: within the distance of the farthest candidate the measurement has of its own *)
  Definition near (st0 : @state P) (i j : nat) (c : @candidate P) : Prop :=
    exists p s l q sj, nth_error st0 i = Some (p, s) /\ hd_error (List.rev s) = Some l /\ (0 < distance l)%Q /\ nth_error st0 j = Some (q, sj) /\ In c sj /\ (seg_dist p q (projection c) <= distance l)%Q.
  Definition allowed (st0 : @state P) (use_nearby reverse use_siblings : bool) (i j : nat) (c : @candidate P) : Prop :=
    use_siblings = true /\ (j = S i \/ i = S j) \/ use_nearby = true /\ (reverse = true \/ near st0 i j c).

  Section Flags.
    Variable st0 : @state P.
    Hypothesis F0 : fresh st0.
    Variable use_nearby reverse use_siblings : bool.
    Let R := allowed st0 use_nearby reverse use_siblings.
    Let vs := index_values 0 st0.

    Lemma reach_nearby_one : forall st i, use_nearby = true -> reach st0 R st -> (reverse = true \/ nth_error st i = nth_error st0 i) ->
      reach st0 R (nearby_one dist eqp seg_dist query reverse vs st i) /\
      (reverse = false -> forall k, k <> i -> nth_error (nearby_one dist eqp seg_dist query reverse vs st i) k = nth_error st k).
    Proof.
      intros st i Hu H Hi. unfold nearby_one. destruct (nth_error st i) as [[p s]|] eqn:E; [|auto]. destruct (hd_error (List.rev s)) as [l|] eqn:El; [|auto].
      destruct (lessQ 0 (distance l)) eqn:E0; [|auto]. apply lessQ_true in E0.
      set (L := filter _ _).
      assert (forall j q c, In (j, q, c) L -> exists sj, nth_error st0 j = Some (q, sj) /\ In c sj /\ (i <> j -> R i j c /\ (reverse = true -> forall d, R j i d))) as HL.
      { intros j q c Hx. apply filter_In in Hx. destruct Hx as [Hx Hd]. apply query_sound in Hx. apply Qle_bool_iff in Hd.
        apply index_values_In in Hx. destruct Hx as [j' [sj [Ej [Hj [Hc A]]]]]. cbn in Ej. subst j'. exists sj. split; auto. split; auto. intros Hij.
        split; [|intros Hr d; right; auto]. right. split; auto. destruct Hi as [Hi|Hi]; auto. right. exists p, s, l, q, sj. rewrite <- Hi. auto 10. }
      clearbody L. clear E El Hi E0 l. revert st H HL. induction L as [|[[j q] c] L IH]; intros st H HL; cbn; [auto|].
      destruct (HL j q c (or_introl eq_refl)) as [sj [Hj [Hc Hr]]].
      assert (reach st0 R (nearby_step dist eqp reverse i st (j, q, c)) /\ (reverse = false -> forall k, k <> i -> nth_error (nearby_step dist eqp reverse i st (j, q, c)) k = nth_error st k)) as [H1 H2].
      { unfold nearby_step. destruct (i =? j) eqn:Eij; [auto|]. apply Nat.eqb_neq in Eij. destruct (Hr Eij) as [Hr1 Hr2].
        assert (reach st0 R (upd i (fun p s => CandAdopt.add_candidate dist eqp p c s) st)) as H1 by (eapply reach_step; eauto).
        destruct reverse.
        - split; [|discriminate]. destruct (nth_error st0 i) as [[p0 s0]|] eqn:Ei0.
          + eapply (reach_add_all st0 R _ j i p0 s0); auto. intros d Hd A. split; [|auto].
            destruct (reach_own st0 F0 R _ _ _ H1 Hd A) as [q' [s' [E' I']]]. assert (s' = s0) by congruence. subst s'. auto.
          + (* not reached: the set exists *)
            assert (set_of (upd i (fun p s => CandAdopt.add_candidate dist eqp p c s) st) i = []) as ->.
            { unfold set_of. destruct (nth_error (upd i _ st) i) as [[p1 s1]|] eqn:E1; auto. exfalso.
              assert (i < length (upd i (fun p s => CandAdopt.add_candidate dist eqp p c s) st)) as Hl by (apply nth_error_Some; congruence).
              rewrite (proj1 (reach_good st0 F0 R _ H1)) in Hl. apply nth_error_None in Ei0. lia. }
            rewrite (upd_fun j (CandAdopt.add_all dist eqp []) (fun _ s => s)); [rewrite upd_id; auto|reflexivity].
        - split; auto. intros _ k Hk. rewrite upd_nth. apply Nat.eqb_neq in Hk. rewrite Hk. reflexivity. }
      destruct (IH _ H1 (fun j q c Hx => HL j q c (or_intror Hx))) as [I1 I2]. split; auto. intros Hr' k Hk. rewrite I2; auto.
    Qed.

    Lemma reach_nearby : use_nearby = true -> reach st0 R (nearby dist eqp seg_dist query reverse st0).
    Proof.
      intros Hu. unfold nearby. fold vs.
      assert (forall n k st, reach st0 R st -> (reverse = false -> forall i, k <= i -> nth_error st i = nth_error st0 i) ->
        reach st0 R (fold_left (nearby_one dist eqp seg_dist query reverse vs) (seq k n) st)) as G.
      { induction n as [|n IH]; intros k st H K; cbn [seq fold_left]; auto.
        destruct (reach_nearby_one st k Hu H) as [H1 H2]; [destruct reverse; [auto|right; apply K; auto]|].
        apply IH; auto. intros Hr i Hi. rewrite H2; auto; [apply K; auto; lia|lia]. }
      apply G; [constructor|auto].
    Qed.

    Lemma reach_siblings : forall st, use_siblings = true -> reach st0 R st -> reach st0 R (siblings dist eqp st).
    Proof.
      intros st Hu H. unfold siblings. generalize (seq 0 (length st)). intros l. revert st H. induction l as [|i l IH]; intros st H; cbn; auto. apply IH.
      assert (forall st i j, reach st0 R st -> (j = S i \/ i = S j) -> reach st0 R (upd i (CandAdopt.add_all dist eqp (set_of st j)) st)) as G.
      { intros st1 i1 j H1 Hn. destruct (nth_error st0 j) as [[q sj]|] eqn:Ej.
        - eapply (reach_add_all st0 R _ i1 j q sj); auto; [lia|]. intros c Hc A. split; [|left; auto].
          destruct (reach_own st0 F0 R _ _ _ H1 Hc A) as [q' [s' [E' I']]]. assert (s' = sj) by congruence. subst s'. auto.
        - assert (set_of st1 j = []) as ->.
          { unfold set_of. destruct (nth_error st1 j) as [[p1 s1]|] eqn:E1; auto. exfalso. assert (j < length st1) as Hl by (apply nth_error_Some; congruence).
            rewrite (proj1 (reach_good st0 F0 R _ H1)) in Hl. apply nth_error_None in Ej. lia. }
          rewrite (upd_fun i1 (CandAdopt.add_all dist eqp []) (fun _ s => s)); [rewrite upd_id; auto|reflexivity]. }
      unfold siblings_one. apply G; [|auto]. destruct i as [|i]; auto.
    Qed.

  End Flags.

  Lemma reach_adoptions : forall st0, fresh st0 -> forall n r u, reach st0 (allowed st0 n r u) (adoptions n r u st0).
  Proof.
    intros st0 F0 n r u. unfold adoptions, CandAdopt.adoptions.
    assert (reach st0 (allowed st0 n r u) (if n then nearby dist eqp seg_dist query r st0 else st0)) as H by (destruct n; [apply reach_nearby; auto|constructor]).
    destruct u; auto. apply reach_siblings; auto.
  Qed.

  Lemma finals_nth : forall st k i, nth_error (finals dist eqp source target vertex_point k st) i =
    match nth_error st i with Some (p, s) => Some (mkF (k + i) (match nth_error st (S i) with Some (q, _) => eqp p q | None => false end) (nodes_of dist source target vertex_point p s) s) | None => None end.
  Proof.
    induction st as [|[p s] st IH]; intros k [|i]; cbn [finals nth_error]; auto.
    - rewrite Nat.add_0_r. destruct st as [|[q s'] st]; reflexivity.
    - rewrite IH. rewrite Nat.add_succ_comm. reflexivity.
  Qed.

  (** Every measurement yields one result with its index and whether the next point is equal. In it: the candidates the measurement had
      itself are kept, in order; all are ordered by distance and no two are equal; all others are adopted and stem from a candidate that another measurement
      had itself: a direct neighbour with sibling adoption, one near with nearby adoption (any with reverse adoption), with the distance measured anew. *)
  Theorem C58_result : forall st use_nearby reverse use_siblings, fresh st ->
    length (finalize use_nearby reverse use_siblings st) = length st /\
    forall i p s, nth_error st i = Some (p, s) -> exists f, nth_error (finalize use_nearby reverse use_siblings st) i = Some f /\
      at_index f = i /\ next_equal f = match nth_error st (S i) with Some (q, _) => eqp p q | None => false end /\
      filter (fun c => negb (adopted c)) (edges f) = s /\ StronglySorted nearer (edges f) /\ ForallOrdPairs (fun a b => same a b = false) (edges f) /\
      (forall c, In c (edges f) -> distance c == dist p (projection c)) /\
      (forall x, In x (edges f) -> adopted x = true -> exists j q sj c, j <> i /\ nth_error st j = Some (q, sj) /\ In c sj /\
         edge x = edge c /\ projection x = projection c /\ before x = before c /\ after x = after c /\ allowed st use_nearby reverse use_siblings i j c).
  Proof.
    intros st n r u F. pose proof (reach_adoptions st F n r u) as H. destruct (reach_good st F _ _ H) as [L G].
    assert (forall i, nth_error (finalize n r u st) i = _) as N by (intros i; exact (finals_nth (adoptions n r u st) 0 i)).
    split.
    - rewrite <- L. unfold finalize, CandAdopt.finalize. fold adoptions. generalize 0. generalize (adoptions n r u st). induction s as [|[p s] st' IH]; intros k; cbn; auto.
    - intros i p s E. destruct (G _ _ _ E) as [s' [E' [G1 [G2 [G3 [G4 G5]]]]]]. eexists. rewrite N, E'. split; [reflexivity|]. cbn [at_index next_equal edges]. split; auto. split.
      + destruct (nth_error st (S i)) as [[q sq]|] eqn:Eq.
        * destruct (G _ _ _ Eq) as [s2 [E2 _]]. rewrite E2. reflexivity.
        * apply nth_error_None in Eq. rewrite <- L in Eq. apply nth_error_None in Eq. rewrite Eq. reflexivity.
      + split; auto. split; auto. split; auto. split; auto. intros x Hx A. destruct (G5 x Hx A) as [j [q [sj [c [H1 [H2 [H3 [H4 ->]]]]]]]]. exists j, q, sj, c. cbn. auto 12.
  Qed.

  (** Without adoption the sets stay as they are. *)
  Theorem C58_off : forall st reverse, map edges (finalize false reverse false st) = map snd st.
  Proof.
    intros st r. unfold finalize, CandAdopt.finalize, CandAdopt.adoptions. generalize 0. induction st as [|[p s] st IH]; intros k; cbn; auto. rewrite IH. auto.
  Qed.

  Lemma holds_final : forall st n r u i c, holds (adoptions n r u st) i c -> exists f x, nth_error (finalize n r u st) i = Some f /\ In x (edges f) /\ same x c = true.
  Proof.
    intros st n r u i c [p [s [x [E [I S]]]]]. do 2 eexists. split; [unfold finalize, CandAdopt.finalize; rewrite finals_nth; unfold adoptions in E; rewrite E; reflexivity|]. cbn. eauto.
  Qed.
  Lemma fold_split : forall {A} (f : @state P -> A -> @state P) x l st, In x l -> exists l1 l2, l = l1 ++ x :: l2 /\ fold_left f l st = fold_left f l2 (f (fold_left f l1 st) x).
  Proof. intros A f x l st H. apply in_split in H. destruct H as [l1 [l2 ->]]. exists l1, l2. split; auto. rewrite fold_left_app. reflexivity. Qed.

  (** With sibling adoption every measurement has all candidates of its direct neighbours. *)
  Theorem C58_siblings : forall st use_nearby reverse i j q sj c p s, fresh st -> nth_error st i = Some (p, s) -> nth_error st j = Some (q, sj) -> In c sj -> (j = S i \/ i = S j) ->
    exists f x, nth_error (finalize use_nearby reverse true st) i = Some f /\ In x (edges f) /\ same x c = true.
  Proof.
    intros st n r i j q sj c p s F Ei Ej Hc Hn. apply holds_final. unfold adoptions, CandAdopt.adoptions.
    set (st1 := if n then nearby dist eqp seg_dist query r st else st).
    set (R := allowed st n r true).
    assert (reach st R st1) as H1.
    { unfold st1. destruct n; [|constructor]. apply reach_nearby; auto. }
    assert (length st1 = length st) as L1 by exact (proj1 (reach_good st F _ _ H1)).
    unfold siblings. assert (In i (seq 0 (length st1))) as Hi by (apply in_seq; rewrite L1; split; [lia|]; apply nth_error_Some; congruence).
    apply in_split in Hi. destruct Hi as [l1 [l2 El]]. rewrite El, fold_left_app. cbn [fold_left].
    eapply holds_ext; [apply fold_ext; intros; apply siblings_one_ext|].
    set (st2 := fold_left (siblings_one dist eqp) l1 st1).
    assert (ext st1 st2) as E12 by (apply fold_ext; intros; apply siblings_one_ext).
    destruct (reach_own' st F R st1 j q sj c H1 Ej Hc) as [Hin A].
    assert (In c (set_of st2 j)) as Hin2.
    { unfold set_of in Hin |- *. destruct (nth_error st1 j) as [[pj s1]|] eqn:E1; [|destruct Hin]. destruct (E12 _ _ _ E1) as [s2 [E2 I2]]. rewrite E2. auto. }
    assert (exists pi si, nth_error st2 i = Some (pi, si)) as [pi [si Esi]].
    { destruct (proj2 (reach_good st F _ _ H1) _ _ _ Ei) as [s1 [E1 _]]. destruct (E12 _ _ _ E1) as [s2 [E2 _]]. eauto. }
    assert (forall st3 pi si, nth_error st3 i = Some (pi, si) -> In c (set_of st3 j) -> holds (upd i (CandAdopt.add_all dist eqp (set_of st3 j)) st3) i c) as G.
    { intros st3 pi3 si3 E3 I3. destruct (add_all_has (set_of st3 j) pi3 si3 c I3 A) as [x [Hx Hs]]. exists pi3, (add_all (set_of st3 j) pi3 si3), x. rewrite upd_nth, E3, Nat.eqb_refl. auto. }
    unfold siblings_one. destruct Hn as [->| ->].
    - destruct i as [|i]; [eapply G; eauto|].
      assert (nth_error (upd (S i) (CandAdopt.add_all dist eqp (set_of st2 i)) st2) (S i) = Some (pi, add_all (set_of st2 i) pi si)) as E3 by (rewrite upd_nth, Esi, Nat.eqb_refl; auto).
      eapply G; [exact E3|]. unfold set_of. rewrite upd_nth. assert (S (S i) =? S i = false) as -> by (apply Nat.eqb_neq; lia). exact Hin2.
    - eapply holds_ext; [apply upd_ext; intros; apply add_all_incl|]. eapply G; eauto.
  Qed.

  (** With nearby adoption a measurement has every candidate of another one that is near; with reverse adoption the other one has all of its own candidates. *)
  Theorem C58_nearby : forall st reverse use_siblings i j c, fresh st -> near st i j c -> i <> j ->
    (exists f x, nth_error (finalize true reverse use_siblings st) i = Some f /\ In x (edges f) /\ same x c = true) /\
    (reverse = true -> forall p s d, nth_error st i = Some (p, s) -> In d s ->
      exists f x, nth_error (finalize true reverse use_siblings st) j = Some f /\ In x (edges f) /\ same x d = true).
  Proof.
    intros st r u i j c F [p [s [l [q [sj [Ei [El [E0 [Ej [Hc Hd]]]]]]]]]] Hij.
    assert (holds (nearby dist eqp seg_dist query r st) i c /\ (r = true -> forall d, In d s -> holds (nearby dist eqp seg_dist query r st) j d)) as [G1 G2].
    2:{ assert (ext (nearby dist eqp seg_dist query r st) (adoptions true r u st)) as E.
        { unfold adoptions, CandAdopt.adoptions. destruct u; [|apply ext_refl]. unfold siblings. apply fold_ext. intros. apply siblings_one_ext. }
        split; [apply holds_final; eapply holds_ext; eauto|]. intros Hr p' s' d E' Hd'. assert (s' = s) by congruence. subst s'. apply holds_final. eapply holds_ext; eauto. }
    set (R := allowed st true r u).
    unfold nearby. assert (i < length st) as Hi by (apply nth_error_Some; congruence).
    assert (seq 0 (length st) = seq 0 i ++ i :: seq (S i) (length st - S i)) as Es.
    { replace (length st) with (i + S (length st - S i)) at 1 by lia. rewrite seq_app. reflexivity. }
    rewrite Es, fold_left_app. cbn [fold_left]. set (vs := index_values 0 st). set (st1 := fold_left _ (seq 0 i) st).
    assert (reach st R st1 /\ (r = false -> forall k, i <= k -> nth_error st1 k = nth_error st k)) as [H1 Hsame].
    { assert (forall n k st', reach st R st' -> (r = false -> forall i, k <= i -> nth_error st' i = nth_error st i) ->
        reach st R (fold_left (nearby_one dist eqp seg_dist query r vs) (seq k n) st') /\ (r = false -> forall i, k + n <= i -> nth_error (fold_left (nearby_one dist eqp seg_dist query r vs) (seq k n) st') i = nth_error st i)) as G.
      { induction n as [|n IH]; intros k st' H K; cbn [seq fold_left]; [split; auto; intros Hr i' Hi'; apply K; auto; lia|].
        destruct (reach_nearby_one st F true r u st' k eq_refl H) as [H1 H2]; [destruct r; [auto|right; apply K; auto]|].
        replace (k + S n) with (S k + n) by lia. apply IH; auto. intros Hr i' Hi'. rewrite H2; auto; [apply K; auto; lia|lia]. }
      apply (G i 0 st); [constructor|auto]. }
    assert (forall x, ext x (fold_left (nearby_one dist eqp seg_dist query r vs) (seq (S i) (length st - S i)) x)) as Eext by (intros x; apply fold_ext; intros; apply nearby_one_ext).
    assert (forall k d, holds (nearby_one dist eqp seg_dist query r vs st1 i) k d -> holds (fold_left (nearby_one dist eqp seg_dist query r vs) (seq (S i) (length st - S i)) (nearby_one dist eqp seg_dist query r vs st1 i)) k d) as Hext by (intros k d; apply holds_ext; apply Eext).
    assert (holds (nearby_one dist eqp seg_dist query r vs st1 i) i c /\ (r = true -> forall d, In d s -> holds (nearby_one dist eqp seg_dist query r vs st1 i) j d)) as [K1 K2]; [|auto].
    clear Hext Eext Es Hsame.
    destruct (proj2 (reach_good st F _ _ H1) _ _ _ Ei) as [s1 [E1 [Gf [Gs _]]]].
    assert (In l s1) as Hl1.
    { apply last_In in El. rewrite <- Gf in El. apply filter_In in El. tauto. }
    unfold nearby_one. rewrite E1. destruct (hd_error (List.rev s1)) as [l1|] eqn:El1.
    2:{ assert (s1 = []) as En. { rewrite <- (rev_involutive s1). destruct (List.rev s1); [reflexivity|discriminate]. } rewrite En in Hl1. destruct Hl1. }
    pose proof (sorted_last _ _ _ Gs El1 Hl1) as Hle. assert (lessQ 0 (distance l1) = true) as -> by (apply lessQ_true; lra).
    set (L := filter _ _). assert (In (j, q, c) L) as HL.
    { apply filter_In. split; [|apply Qle_bool_iff; lra]. apply query_complete; [lra| |lra]. apply index_values_In. exists j, sj. repeat split; auto. eapply F; eauto. }
    assert (forall j q c, In (j, q, c) L -> exists sj, nth_error st j = Some (q, sj) /\ In c sj) as HLs.
    { intros j' q' c' Hx. apply filter_In in Hx. destruct Hx as [Hx _]. apply query_sound in Hx. apply index_values_In in Hx. destruct Hx as [j2 [s2 [E2 [H2 [H3 _]]]]]. cbn in E2. subst j2. eauto. }
    clearbody L. apply in_split in HL. destruct HL as [la [lb ->]]. rewrite fold_left_app. cbn [fold_left].
    set (st2 := fold_left (nearby_step dist eqp r i) la st1).
    assert (ext st1 st2) as E12 by (apply fold_ext; intros; apply nearby_step_ext).
    assert (forall k d, holds (nearby_step dist eqp r i st2 (j, q, c)) k d -> holds (fold_left (nearby_step dist eqp r i) lb (nearby_step dist eqp r i st2 (j, q, c))) k d) as Hext.
    { intros k d. apply holds_ext. apply fold_ext. intros. apply nearby_step_ext. }
    assert (holds (nearby_step dist eqp r i st2 (j, q, c)) i c /\ (r = true -> forall d, In d s -> holds (nearby_step dist eqp r i st2 (j, q, c)) j d)) as [K1 K2]; [|auto].
    destruct (E12 _ _ _ E1) as [s2 [E2 I2]]. unfold nearby_step. assert (i =? j = false) as -> by (apply Nat.eqb_neq; auto).
    set (st3 := upd i (fun p s => CandAdopt.add_candidate dist eqp p c s) st2).
    assert (nth_error st3 i = Some (p, add_candidate p c s2)) as E3 by (unfold st3; rewrite upd_nth, E2, Nat.eqb_refl; reflexivity).
    assert (holds st3 i c) as K1.
    { destruct (add_has p c s2) as [x [Hx Hs]]. exists p, (add_candidate p c s2), x. auto. }
    destruct r; [|split; [exact K1|discriminate]]. split.
    - eapply holds_ext; [apply upd_ext; intros; apply add_all_incl|exact K1].
    - intros _ d Hd'. destruct (proj2 (reach_good st F _ _ H1) _ _ _ Ej) as [sj1 [Ej1 _]]. destruct (E12 _ _ _ Ej1) as [sj2 [Ej2 _]].
      assert (nth_error st3 j = Some (q, sj2)) as Ej3 by (unfold st3; rewrite upd_nth, Ej2; assert (j =? i = false) as -> by (apply Nat.eqb_neq; auto); reflexivity).
      assert (In d (set_of st3 i) /\ adopted d = false) as [Hd3 A].
      { destruct (reach_own' st F R st1 i p s d H1 Ei Hd') as [Hin A]. split; auto. unfold set_of in Hin |- *. rewrite E3. rewrite E1 in Hin. apply add_incl. auto. }
      destruct (add_all_has (set_of st3 i) q sj2 d Hd3 A) as [x [Hx Hs]]. exists q, (add_all (set_of st3 i) q sj2), x. rewrite upd_nth, Ej3, Nat.eqb_refl. auto.
  Qed.

  (** *** nodes *)
  Lemma insert_node_In : forall n s x, In x (insert_node n s) <-> x = n \/ In x s.
  Proof.
    induction s as [|a s IH]; intros x; cbn; [intuition|]. destruct (lessQ (snd n) (snd a)); cbn; [intuition|]. rewrite IH. intuition.
  Qed.
  Definition node_sorted : list (nat * Q) -> Prop := StronglySorted (fun a b => (snd a <= snd b)%Q).
  Lemma insert_node_sorted : forall n s, node_sorted s -> node_sorted (insert_node n s).
  Proof.
    induction s as [|x s IH]; cbn; intros H; [repeat constructor|]. inversion H as [|? ? Hs Hx]; subst. destruct (lessQ (snd n) (snd x)) eqn:E.
    - apply lessQ_true in E. constructor; auto. constructor; [apply Qlt_le_weak; auto|]. eapply Forall_impl; [|exact Hx]. cbn. intros y Hy. lra.
    - apply lessQ_false in E. constructor; [apply IH; auto|]. apply Forall_forall. intros y Hy. apply insert_node_In in Hy. rewrite Forall_forall in Hx. destruct Hy as [->|Hy]; auto.
  Qed.
  Lemma insert_node_NoDup : forall n s, NoDup (map fst s) -> ~ In (fst n) (map fst s) -> NoDup (map fst (insert_node n s)).
  Proof.
    induction s as [|x s IH]; cbn; intros H K; [repeat constructor; auto|]. inversion H as [|? ? Hx Hs]; subst. destruct (lessQ (snd n) (snd x)); cbn.
    - constructor; auto.
    - constructor; [|apply IH; auto]. intros Hi. apply in_map_iff in Hi. destruct Hi as [y [Ey Hy]]. apply insert_node_In in Hy. destruct Hy as [->|Hy]; [apply K; auto|].
      apply Hx. rewrite <- Ey. apply in_map. auto.
  Qed.

  (** The nodes are the ends of the edges, each one once, ordered by distance, with the distance to the measurement. *)
  Theorem C58_nodes : forall p s, let ns := nodes_of dist source target vertex_point p s in
    NoDup (map fst ns) /\ node_sorted ns /\
    forall v d, In (v, d) ns <-> d = dist p (vertex_point v) /\ exists c, In c s /\ (v = source (edge c) \/ v = target (edge c)).
  Proof.
    intros p s. unfold nodes_of.
    pose (Inv := fun (done : nat -> Prop) (x : list (nat * Q) * list nat) => NoDup (map fst (fst x)) /\ node_sorted (fst x) /\
      (forall v, In v (snd x) <-> done v) /\ forall v d, In (v, d) (fst x) <-> d = dist p (vertex_point v) /\ done v).
    assert (forall done v x, Inv done x -> Inv (fun w => done w \/ w = v) (add_node dist vertex_point p v x)) as A.
    { intros done v [ns ck] [I1 [I2 [I3 I4]]]. cbn [fst snd] in *. unfold add_node. destruct (existsb (Nat.eqb v) ck) eqn:E.
      - apply existsb_eqb_In in E. apply I3 in E. split; auto. split; auto. split; intros; cbn [fst snd].
        + rewrite I3. split; auto. intros [H|H]; subst; auto.
        + rewrite I4. split; [tauto|]. intros [H [K|K]]; subst; auto.
      - assert (~ In v ck) as Hn by (intros H; apply existsb_eqb_In in H; congruence).
        assert (~ In v (map fst ns)) as Hn' by (intros H; apply in_map_iff in H; destruct H as [[w d] [Ew H]]; cbn in Ew; subst w; apply I4 in H; apply Hn, I3; tauto).
        unfold Inv; cbn [fst snd]. split; [apply insert_node_NoDup; auto|]. split; [apply insert_node_sorted; auto|]. split.
        + intros w. cbn. rewrite I3. split; intros [H|H]; auto.
        + intros w d. rewrite insert_node_In, I4. split.
          * intros [H|[H1 H2]]; [injection H as -> ->; auto|auto].
          * intros [H1 [H2|H2]]; [auto|subst; auto]. }
    assert (forall (s : list (@candidate P)) done x, Inv done x -> Inv (fun w => done w \/ exists c : @candidate P, In c s /\ (w = source (edge c) \/ w = target (edge c)))
      (fold_left (fun acc (c : @candidate P) => add_node dist vertex_point p (target (edge c)) (add_node dist vertex_point p (source (edge c)) acc)) s x)) as G.
    { assert (forall D D' x, (forall w, D w <-> D' w) -> Inv D x -> Inv D' x) as Ext.
      { intros D D' x H [I1 [I2 [I3 I4]]]. split; auto. split; auto. split; intros; [rewrite I3; auto|rewrite I4, H; tauto]. }
      induction s0 as [|c s0 IH]; intros done x H; cbn [fold_left].
      - eapply Ext; [|exact H]. intros w. split; auto. intros [K|[c [[] _]]]; auto.
      - apply (A _ (source (edge c))), (A _ (target (edge c))), IH in H. eapply Ext; [|exact H]. intros w. cbn. split.
        + intros [[[K|K]|K]|[c' [K1 K2]]]; auto; right; [exists c|exists c|exists c']; auto.
        + intros [K|[c' [[->|K1] [K2|K2]]]]; auto; right; exists c'; auto. }
    assert (Inv (fun _ => False) ([], [])) as H0.
    { split; [constructor|]. split; [constructor|]. split; cbn; intros; tauto. }
    apply (G s) in H0. destruct H0 as [I1 [I2 [_ I4]]]. split; auto. split; auto. intros v d. rewrite I4. tauto.
  Qed.
End C58.

(** *** a track of three points on a line; the second one has a candidate far off *)
Definition whole (p : Q) (d : Q) (vs : list (nat * Q * @candidate Q)) := vs.
Definition seg_away (p a b : Q) : Q := if lessQ p (Qmin a b) then (Qmin a b - p)%Q else if lessQ (Qmax a b) p then (p - Qmax a b)%Q else 0%Q.
Definition cand (e : nat) (p q : Q) : @candidate Q := mkC false e q (away p q) [] [].
Definition walk : @state Q := [(0, [cand 0 0 2]); (1, [cand 1 1 10]); (20, [cand 2 20 21])]%Q.
Definition summary (x : list (@final Q)) : list (list (bool * nat)) := map (fun f => map (fun c => (adopted c, edge c)) (edges f)) x.

Example C58_contract :
  (forall p d vs x, In x (whole p d vs) -> In x vs) /\
  (forall p d vs i q c, In (i, q, c) vs -> (seg_away p q (projection c) <= d)%Q -> In (i, q, c) (whole p d vs)) /\
  (forall p, equalQ p p = true) /\ (forall p q, equalQ p q = equalQ q p) /\ (forall p a b, equalQ a b = true -> away p a == away p b).
Proof.
  split; [auto|]. split; [auto|]. unfold equalQ. split; [intros p; apply Qeq_bool_iff; reflexivity|]. split.
  - intros p q. apply eq_true_iff_eq. rewrite !Qeq_bool_iff. split; intros H; symmetry; exact H.
  - intros p a b H. apply Qeq_bool_iff in H. unfold away. rewrite H. reflexivity.
Qed.
Example C58_fresh : fresh away equalQ walk.
Proof.
  intros [|[|[|i]]] p s H; cbn in H; try (injection H as <- <-; split; [repeat constructor|]; split; [repeat constructor|]; intros c [<-|[]]; split; reflexivity).
  destruct i; discriminate.
Qed.
(** the first point has the candidate of the second one, which is near, but not that of the third *)
Example C58_near : near seg_away walk 0 1 (cand 1 1 10) /\ ~ near seg_away walk 0 2 (cand 2 20 21).
Proof.
  split; [exists 0%Q, [cand 0 0 2], (cand 0 0 2), 1%Q, [cand 1 1 10]; repeat split; cbn; auto; discriminate|].
  intros [p [s [l [q [sj [H1 [H2 [H3 [H4 [_ H5]]]]]]]]]]. cbn in H1, H4. injection H1 as <- <-. injection H4 as <- <-. cbn in H2. injection H2 as <-. vm_compute in H5. apply H5. reflexivity.
Qed.
Definition world (n r u : bool) (st : @state Q) := finalize away equalQ seg_away whole (fun e => e) S (fun v => inject_Z (Z.of_nat v)) n r u st.
Example C58_demo :
  summary (world true false false walk) = [[(false, 0); (true, 1)]; [(true, 0); (false, 1)]; [(false, 2)]] /\
  summary (world false false true walk) = [[(false, 0); (true, 1)]; [(true, 0); (false, 1); (true, 2)]; [(false, 2); (true, 1)]] /\
  map nodes (world false false false walk) = [[(0, 0%Q); (1, 1%Q)]; [(1, 0%Q); (2, 1%Q)]; [(3, 17%Q); (2, 18%Q)]].
Proof. vm_compute. repeat split. Qed.

(** With reverse adoption it matters in which direction the track is passed: adopting for an earlier point enlarges the search
    around a later one, but not the other way round. *)
Definition bent : @state Q := [(0, [cand 0 0 5]); (4, [cand 1 4 (9 # 2)]); (11, [cand 2 11 (19 # 4)])]%Q.
Theorem C58_direction_refuted : exists st, fresh away equalQ st /\ summary (world true true false (rev st)) <> rev (summary (world true true false st)).
Proof.
  exists bent. split.
  - intros [|[|[|i]]] p s H; cbn in H; try (injection H as <- <-; split; [repeat constructor|]; split; [repeat constructor|]; intros c [<-|[]]; split; reflexivity).
    destruct i; discriminate.
  - vm_compute. discriminate.
Qed.

Print Assumptions C58_result.
Print Assumptions C58_off.
Print Assumptions C58_siblings.
Print Assumptions C58_nearby.
Print Assumptions C58_nodes.
Print Assumptions C58_direction_refuted.
