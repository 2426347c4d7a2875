(** C85: the comparison of points is a total order in accord with equality and hashes, as long as no coordinate is NaN. *)
From Coq Require Import NArith ZArith QArith Lia.
From Verif Require Import Base Points.
Local Open Scope nat_scope.

Section C85.
  Variable C : Type.
  Variable ltc eqc : C -> C -> bool.
  Variable combine : N -> C -> N.
  (** *** The coordinates that are numbers, on which the processor's comparisons are an order.  Two different values may
      be equal (the two zeroes). *)
  Variable num : C -> Prop.
  Record ordered : Prop := {
    eqc_refl : forall x, num x -> eqc x x = true;
    eqc_sym : forall x y, num x -> num y -> eqc x y = true -> eqc y x = true;
    eqc_trans : forall x y z, num x -> num y -> num z -> eqc x y = true -> eqc y z = true -> eqc x z = true;
    ltc_trans : forall x y z, num x -> num y -> num z -> ltc x y = true -> ltc y z = true -> ltc x z = true;
    ltc_tri : forall x y, num x -> num y ->
      (ltc x y = true /\ eqc x y = false /\ ltc y x = false)
      \/ (ltc x y = false /\ eqc x y = true /\ ltc y x = false)
      \/ (ltc x y = false /\ eqc x y = false /\ ltc y x = true);
    ltc_eq_l : forall x y z, num x -> num y -> num z -> eqc x y = true -> ltc y z = true -> ltc x z = true;
    ltc_eq_r : forall x y z, num x -> num y -> num z -> ltc x y = true -> eqc y z = true -> ltc x z = true
  }.
  Hypothesis O : ordered.
  (** *** Equal coordinates are hashed alike: boost adds 0.0 before hashing a floating point number. *)
  Hypothesis combine_eq : forall h x y, num x -> num y -> eqc x y = true -> combine h x = combine h y.

  Notation point := (point C).
  Notation eq_point := (eq_point C eqc).
  Notation ne_point := (ne_point C eqc).
  Notation lt_point := (lt_point C ltc eqc).
  Notation le_point := (le_point C ltc eqc).
  Notation gt_point := (gt_point C ltc eqc).
  Notation ge_point := (ge_point C ltc eqc).
  Notation hash_point := (hash_point C combine).
  Notation set_insert := (set_insert C ltc eqc).
  Notation points_set := (points_set C ltc eqc).
  Notation table_find := (table_find C eqc combine).
  Notation table_emplace := (table_emplace C eqc combine).

  (** A point of [n] dimensions without NaN. *)
  Definition pt (n : nat) (a : point) : Prop := length a = n /\ Forall num a.

  Lemma pt_0 a : pt 0 a -> a = [].
  Proof. intros [L _]. destruct a; [reflexivity | discriminate L]. Qed.
  Lemma pt_S n a : pt (S n) a -> exists x a', a = x :: a' /\ num x /\ pt n a'.
  Proof.
    intros [L F]. destruct a as [|x a]; [discriminate L|]. inversion F; subst.
    exists x, a. repeat split; auto.
  Qed.

  (** Exactly one of smaller, equal, larger. *)
  Theorem C85_trichotomy n a b : pt n a -> pt n b ->
    (lt_point a b = true /\ eq_point a b = false /\ lt_point b a = false)
    \/ (lt_point a b = false /\ eq_point a b = true /\ lt_point b a = false)
    \/ (lt_point a b = false /\ eq_point a b = false /\ lt_point b a = true).
  Proof.
    revert a b. induction n as [|n IH]; intros a b A B.
    - apply pt_0 in A, B. subst. right. left. repeat split.
    - apply pt_S in A, B. destruct A as (x & a' & -> & X & A). destruct B as (y & b' & -> & Y & B).
      cbn. specialize (IH a' b' A B).
      destruct (ltc_tri O x y X Y) as [(E1 & E2 & E3) | [(E1 & E2 & E3) | (E1 & E2 & E3)]].
      + left. rewrite E1, E2, E3. cbn.
        destruct (eqc y x) eqn:E; [|auto]. apply (eqc_sym O) in E; auto. congruence.
      + rewrite E1, E2, E3. rewrite (eqc_sym O _ _ X Y E2). cbn. exact IH.
      + right. right. rewrite E1, E2, E3. cbn. auto.
  Qed.

  Theorem C85_irreflexive n a : pt n a -> lt_point a a = false /\ eq_point a a = true.
  Proof.
    revert a. induction n as [|n IH]; intros a A.
    - apply pt_0 in A. subst. auto.
    - apply pt_S in A. destruct A as (x & a' & -> & X & A). cbn. destruct (IH a' A) as [-> ->].
      rewrite (eqc_refl O x X). destruct (ltc x x) eqn:E; [|auto].
      destruct (ltc_tri O x x X X) as [(_ & _ & F) | [(F & _ & _) | (F & _ & _)]]; congruence.
  Qed.

  (** Equality of points is an equivalence. *)
  Theorem C85_equal n a b c : pt n a -> pt n b -> pt n c ->
    (eq_point a b = true -> eq_point b a = true)
    /\ (eq_point a b = true -> eq_point b c = true -> eq_point a c = true).
  Proof.
    revert a b c. induction n as [|n IH]; intros a b c A B D.
    - apply pt_0 in A, B, D. subst. auto.
    - apply pt_S in A, B, D. destruct A as (x & a' & -> & X & A). destruct B as (y & b' & -> & Y & B).
      destruct D as (z & c' & -> & Z' & D). cbn. destruct (IH a' b' c' A B D) as [H1 H2].
      rewrite !andb_true_iff. split.
      + intros [E1 E2]. split; [apply (eqc_sym O); auto | auto].
      + intros [E1 E2] [E3 E4]. split; [apply (eqc_trans O x y z); auto | auto].
  Qed.

  (** The order is transitive and does not distinguish equal points. *)
  Theorem C85_transitive n a b c : pt n a -> pt n b -> pt n c ->
    (lt_point a b = true -> lt_point b c = true -> lt_point a c = true)
    /\ (eq_point a b = true -> lt_point b c = true -> lt_point a c = true)
    /\ (lt_point a b = true -> eq_point b c = true -> lt_point a c = true).
  Proof.
    revert a b c. induction n as [|n IH]; intros a b c A B D.
    - apply pt_0 in A, B, D. subst. cbn. auto.
    - apply pt_S in A, B, D. destruct A as (x & a' & -> & X & A). destruct B as (y & b' & -> & Y & B).
      destruct D as (z & c' & -> & Z' & D). cbn. destruct (IH a' b' c' A B D) as (H1 & H2 & H3).
      rewrite !orb_true_iff, !andb_true_iff. repeat split.
      + intros [E1|[E1 E2]] [E3|[E3 E4]].
        * left. apply (ltc_trans O x y z); auto.
        * left. apply (ltc_eq_r O x y z); auto.
        * left. apply (ltc_eq_l O x y z); auto.
        * right. split; [apply (eqc_trans O x y z); auto | auto].
      + intros [E1 E2] [E3|[E3 E4]].
        * left. apply (ltc_eq_l O x y z); auto.
        * right. split; [apply (eqc_trans O x y z); auto | auto].
      + intros [E1|[E1 E2]] [E3 E4].
        * left. apply (ltc_eq_r O x y z); auto.
        * right. split; [apply (eqc_trans O x y z); auto | auto].
  Qed.

  (** The six operators mean what they say. *)
  Theorem C85_operators n a b : pt n a -> pt n b ->
    (le_point a b = true <-> lt_point a b = true \/ eq_point a b = true)
    /\ (ge_point a b = true <-> lt_point b a = true \/ eq_point a b = true)
    /\ (gt_point a b = true <-> lt_point b a = true)
    /\ (ne_point a b = true <-> lt_point a b = true \/ lt_point b a = true)
    /\ (le_point a b = true \/ le_point b a = true)
    /\ (le_point a b = true -> le_point b a = true -> eq_point a b = true).
  Proof.
    intros A B. unfold Points.le_point, Points.ge_point, Points.gt_point, Points.ne_point.
    destruct (C85_trichotomy n a b A B) as [(-> & -> & ->) | [(-> & -> & ->) | (-> & -> & ->)]];
      cbn; intuition congruence.
  Qed.

  (** The order is the lexicographic one: at the first coordinate that differs the smaller one wins. *)
  Theorem C85_lexicographic n a b : pt n a -> pt n b ->
    (lt_point a b = true <->
     exists i x y, nth_error a i = Some x /\ nth_error b i = Some y /\ ltc x y = true
       /\ forall j u v, j < i -> nth_error a j = Some u -> nth_error b j = Some v -> eqc u v = true).
  Proof.
    revert a b. induction n as [|n IH]; intros a b A B.
    - apply pt_0 in A, B. subst. split; [discriminate|].
      intros (i & x & y & H & _). destruct i; discriminate H.
    - apply pt_S in A, B. destruct A as (x & a' & -> & X & A). destruct B as (y & b' & -> & Y & B).
      cbn [Points.lt_point]. rewrite orb_true_iff, andb_true_iff, (IH a' b' A B). split.
      + intros [E|[E (i & u & v & H1 & H2 & H3 & H4)]].
        * exists 0, x, y. repeat split; auto. intros j u v Hj. lia.
        * exists (S i), u, v. repeat split; auto.
          intros [|j] u' v' Hj; cbn; [intros [= <-] [= <-]; exact E | apply H4; lia].
      + intros ([|i] & u & v & H1 & H2 & H3 & H4); cbn in H1, H2.
        * left. congruence.
        * right. split; [apply (H4 0 x y); auto; lia|].
          exists i, u, v. repeat split; auto. intros j u' v' Hj. apply (H4 (S j)). lia.
  Qed.

  (** Equal points have equal hashes. *)
  Theorem C85_hash n a b : pt n a -> pt n b -> eq_point a b = true -> hash_point a = hash_point b.
  Proof.
    unfold Points.hash_point. generalize 0%N. revert a b. induction n as [|n IH]; intros a b h A B.
    - apply pt_0 in A, B. subst. auto.
    - apply pt_S in A, B. destruct A as (x & a' & -> & X & A). destruct B as (y & b' & -> & Y & B).
      cbn. rewrite andb_true_iff. intros [E1 E2]. rewrite (combine_eq h x y X Y E1). apply IH; auto.
  Qed.

  (** The separate function for the equality of points agrees with the operator up to three dimensions. *)
  Theorem C85_equals_points n a b : 1 <= n <= 3 -> length a = n -> length b = n ->
    equals_points C eqc a b = Some (eq_point a b).
  Proof.
    intros N LA LB.
    destruct a as [|x1 [|x2 [|x3 [|x4 a]]]]; destruct b as [|y1 [|y2 [|y3 [|y4 b]]]]; cbn in LA, LB; try lia;
      cbn; f_equal; rewrite ?andb_true_r, ?andb_assoc; reflexivity.
  Qed.

  (** *** The set of points *)
  Inductive increasing : list point -> Prop :=
  | inc_nil : increasing []
  | inc_cons p s : (forall q, In q s -> lt_point p q = true) -> increasing s -> increasing (p :: s).

  Definition held (p : point) (s : list point) : Prop := exists q, In q s /\ eq_point p q = true.

  Lemma insert_in p s q : In q (set_insert p s) -> q = p \/ In q s.
  Proof.
    induction s as [|r s IH]; cbn; [intuition|].
    destruct (lt_point r p); [cbn; intuition|]. destruct (lt_point p r); cbn; intuition.
  Qed.
  Lemma insert_keeps p s q : In q s -> In q (set_insert p s).
  Proof.
    induction s as [|r s IH]; cbn; [intuition|].
    destruct (lt_point r p); [cbn; intuition|]. destruct (lt_point p r); cbn; intuition.
  Qed.
  Lemma insert_held n p s : pt n p -> Forall (pt n) s -> held p (set_insert p s).
  Proof.
    intros P F. induction s as [|r s IH]; cbn.
    - exists p. split; [left; reflexivity | apply (C85_irreflexive n p P)].
    - inversion F as [|? ? R F']; subst. specialize (IH F').
      destruct (lt_point r p) eqn:E1.
      { destruct IH as (q & I & E). exists q. split; [right; exact I | exact E]. }
      destruct (lt_point p r) eqn:E2.
      { exists p. split; [left; reflexivity | apply (C85_irreflexive n p P)]. }
      exists r. split; [left; reflexivity|].
      destruct (C85_trichotomy n p r P R) as [(? & ? & ?) | [(? & ? & ?) | (? & ? & ?)]]; congruence.
  Qed.
  Lemma insert_pt n p s : pt n p -> Forall (pt n) s -> Forall (pt n) (set_insert p s).
  Proof.
    intros P F. apply Forall_forall. intros q I. apply insert_in in I. rewrite Forall_forall in F.
    destruct I as [-> | I]; auto.
  Qed.
  Lemma insert_increasing n p s : pt n p -> Forall (pt n) s -> increasing s -> increasing (set_insert p s).
  Proof.
    intros P F I. induction I as [|r s H I IH]; cbn.
    - constructor; [intros q [] | constructor].
    - inversion F as [|? ? R F']; subst. specialize (IH F').
      destruct (lt_point r p) eqn:E1.
      { constructor; [|exact IH]. intros q Q. apply insert_in in Q. destruct Q as [-> | Q]; auto. }
      destruct (lt_point p r) eqn:E2; [|constructor; auto].
      constructor; [|constructor; auto]. intros q [<- | Q]; [exact E2|].
      rewrite Forall_forall in F'.
      destruct (C85_transitive n p r q P R (F' q Q)) as (T & _). auto.
  Qed.

  (** Inserting a point leaves the set in increasing order, keeps what is there, adds at most this point, and the point
      or an equal one is then in the set. *)
  Theorem C85_set_insert n p s : pt n p -> Forall (pt n) s -> increasing s ->
    increasing (set_insert p s)
    /\ held p (set_insert p s)
    /\ (forall q, In q s -> In q (set_insert p s))
    /\ (forall q, In q (set_insert p s) -> q = p \/ In q s)
    /\ (held p s -> set_insert p s = s).
  Proof.
    intros P F I. repeat split.
    - apply insert_increasing with n; auto.
    - apply insert_held with n; auto.
    - apply insert_keeps.
    - apply insert_in.
    - intros (q & Q & E). revert F Q E. induction I as [|r s H I IH]; intros F Q E; [destruct Q|].
      inversion F as [|? ? R F']; subst. cbn. destruct Q as [<- | Q].
      + destruct (C85_trichotomy n p r P R) as [(? & ? & ?) | [(-> & ? & ->) | (? & ? & ?)]]; congruence.
      + pose proof (proj1 (Forall_forall _ _) F' q Q) as PQ.
        assert (L : lt_point r p = true).
        { destruct (C85_transitive n r q p R PQ P) as (_ & _ & T). apply T; [auto|].
          apply (C85_equal n p q p P PQ P); exact E. }
        rewrite L. f_equal. auto.
  Qed.

  Definition ends (segments : list (point * point)) : list point :=
    flat_map (fun seg => [fst seg; snd seg]) segments.

  Lemma points_set_ends segments : points_set segments = fold_left (fun s p => set_insert p s) (ends segments) [].
  Proof.
    enough (G : forall s, fold_left (fun s seg => set_insert (snd seg) (set_insert (fst seg) s)) segments s
                          = fold_left (fun s p => set_insert p s) (ends segments) s) by apply G.
    induction segments as [|seg l IH]; intros s; [reflexivity|]. cbn. apply IH.
  Qed.

  (** The points of the segments: increasing, hence without two equal ones; all of them from the segments; every end of
      every segment in it up to equality. *)
  Theorem C85_points_set n segments :
    Forall (fun seg => pt n (fst seg) /\ pt n (snd seg)) segments ->
    increasing (points_set segments)
    /\ (forall p, In p (points_set segments) -> In p (ends segments))
    /\ (forall p, In p (ends segments) -> held p (points_set segments)).
  Proof.
    intros F. rewrite points_set_ends.
    assert (FE : Forall (pt n) (ends segments)).
    { induction F as [|seg l [H1 H2] F IH]; cbn; [constructor|]. constructor; [exact H1|]. constructor; auto. }
    assert (G : forall l s, Forall (pt n) l -> Forall (pt n) s -> increasing s ->
      let r := fold_left (fun s p => set_insert p s) l s in
      increasing r /\ (forall p, In p r -> In p l \/ In p s)
      /\ (forall p, In p l \/ held p s -> held p r)).
    { induction l as [|p l IH]; intros s Fl Fs I; cbn.
      - repeat split; auto. intros p [[] | H]; exact H.
      - inversion Fl as [|? ? P Fl']; subst.
        destruct (C85_set_insert n p s P Fs I) as (I1 & I2 & I3 & I4 & _).
        destruct (IH (set_insert p s) Fl' (insert_pt n p s P Fs) I1) as (J1 & J2 & J3).
        repeat split; auto.
        + intros q Q. apply J2 in Q. destruct Q as [Q|Q]; [auto|]. apply I4 in Q. intuition.
        + intros q [[<- | Q] | (r & R & E)]; apply J3.
          * right. exact I2.
          * left. exact Q.
          * right. exists r. auto. }
    destruct (G (ends segments) [] FE (Forall_nil _) inc_nil) as (G1 & G2 & G3).
    repeat split; auto. intros p H. apply G2 in H. destruct H as [H|[]]; exact H.
  Qed.

  (** An increasing list has no two equal points. *)
  Theorem C85_no_equal n s i j p q : Forall (pt n) s -> increasing s ->
    nth_error s i = Some p -> nth_error s j = Some q -> eq_point p q = true -> i = j.
  Proof.
    intros F I. revert i j. induction I as [|r s H I IH]; intros i j Hi Hj E; [destruct i; discriminate Hi|].
    inversion F as [|? ? R F']; subst.
    assert (K : forall k x, nth_error s k = Some x -> eq_point r x = false).
    { intros k x Hk. apply nth_error_In in Hk. pose proof (proj1 (Forall_forall _ _) F' x Hk) as X.
      specialize (H x Hk). destruct (C85_trichotomy n r x R X) as [(? & ? & ?) | [(? & ? & ?) | (? & ? & ?)]]; congruence. }
    destruct i as [|i], j as [|j]; cbn in Hi, Hj; [reflexivity | | |].
    - injection Hi as ->. specialize (K j q Hj). congruence.
    - injection Hj as ->. specialize (K i p Hi).
      apply nth_error_In in Hi. pose proof (proj1 (Forall_forall _ _) F' p Hi) as X.
      apply (proj1 (C85_equal n p q p X R X)) in E. congruence.
    - f_equal. eapply IH; eauto.
  Qed.

  (** Two increasing lists with the same points up to equality agree place by place: the set does not depend on the
      order in which points are inserted. *)
  Theorem C85_canonical n s t : Forall (pt n) s -> Forall (pt n) t -> increasing s -> increasing t ->
    (forall p, pt n p -> (held p s <-> held p t)) ->
    Forall2 (fun p q => eq_point p q = true) s t.
  Proof.
    intros Fs Ft Is. revert t Ft. induction Is as [|p s Hp Is IH]; intros t Ft It E.
    - destruct t as [|q t]; [constructor|]. inversion Ft; subst.
      destruct (proj2 (E q ltac:(auto))) as (r & [] & _). exists q. split; [left; reflexivity|].
      eapply C85_irreflexive; eauto.
    - inversion Fs as [|? ? P Fs']; subst.
      assert (Hpt : held p t).
      { apply E; auto. exists p. split; [left; reflexivity | eapply C85_irreflexive; eauto]. }
      destruct It as [|q t Hq It]; [destruct Hpt as (r & [] & _)|].
      inversion Ft as [|? ? Q Ft']; subst.
      assert (Hqs : held q (p :: s)).
      { apply E; auto. exists q. split; [left; reflexivity | eapply C85_irreflexive; eauto]. }
      assert (Min : forall r l x, pt n r -> Forall (pt n) l -> (forall y, In y l -> lt_point r y = true) -> pt n x ->
                held x (r :: l) -> eq_point r x = true \/ lt_point r x = true).
      { intros r l x R L Lt X (y & [<- | Y] & Eq).
        - left. apply (proj1 (C85_equal n x r x X R X)). exact Eq.
        - right. pose proof (proj1 (Forall_forall _ _) L y Y) as PY.
          destruct (C85_transitive n r y x R PY X) as (_ & _ & T). apply T; auto.
          apply (proj1 (C85_equal n x y x X PY X)). exact Eq. }
      assert (EQ : eq_point p q = true).
      { destruct (Min p s q P Fs' Hp Q Hqs) as [H|H]; [exact H|].
        destruct (Min q t p Q Ft' Hq P Hpt) as [H'|H'].
        - apply (proj1 (C85_equal n q p q Q P Q)). exact H'.
        - destruct (C85_trichotomy n p q P Q) as [(? & ? & ?) | [(? & ? & ?) | (? & ? & ?)]]; congruence. }
      constructor; [exact EQ|].
      apply IH; auto.
      intros r R.
      assert (Step : forall x l y l' , pt n x -> pt n y -> Forall (pt n) l -> Forall (pt n) l' ->
                (forall z, In z l -> lt_point x z = true) -> eq_point x y = true ->
                (held r (x :: l) -> held r (y :: l')) -> held r l -> held r l').
      { intros x l y l' X Y L L' Lt Exy Imp (z & Z1 & Z2).
        destruct Imp as (w & [<- | W] & Ew); [exists z; split; [right; exact Z1 | exact Z2] | | exists w; auto].
        exfalso. pose proof (proj1 (Forall_forall _ _) L z Z1) as PZ. specialize (Lt z Z1).
        assert (Exz : eq_point x z = true).
        { apply (proj2 (C85_equal n x r z X R PZ)); [|exact Z2].
          apply (proj2 (C85_equal n x y r X Y R)); [exact Exy|].
          apply (proj1 (C85_equal n r y r R Y R)). exact Ew. }
        destruct (C85_trichotomy n x z X PZ) as [(? & ? & ?) | [(? & ? & ?) | (? & ? & ?)]]; congruence. }
      split; intros H.
      + apply (Step p s q t); auto. apply E; auto.
      + apply (Step q t p s); auto.
        * apply (proj1 (C85_equal n p q p P Q P)). exact EQ.
        * apply E; auto.
  Qed.

  (** *** The table from points to vertices: an entry is found exactly if a point equal to the key was entered, and it is
      the one that was entered first. *)
  Definition enter {V} (l : list (point * V)) : list (point * V) :=
    fold_left (fun t e => table_emplace (fst e) (snd e) t) l [].

  Lemma find_spec {V} n (p : point) (t : list (point * V)) : pt n p -> Forall (fun e => pt n (fst e)) t ->
    table_find p t = option_map snd (find (fun e => eq_point p (fst e)) t).
  Proof.
    intros P F. unfold Points.table_find. f_equal. induction F as [|e t H F IH]; [reflexivity|].
    cbn. unfold same_key. destruct (eq_point p (fst e)) eqn:E.
    - rewrite (C85_hash n p (fst e) P H E), N.eqb_refl. reflexivity.
    - rewrite andb_false_r. exact IH.
  Qed.

  Lemma find_app {V} (f : point * V -> bool) l m :
    find f (l ++ m) = match find f l with Some e => Some e | None => find f m end.
  Proof. induction l as [|e l IH]; cbn; [reflexivity|]. destruct (f e); auto. Qed.

  Theorem C85_table {V} n (l : list (point * V)) p : Forall (fun e => pt n (fst e)) l -> pt n p ->
    table_find p (enter l) = option_map snd (find (fun e => eq_point p (fst e)) l).
  Proof.
    intros F P. unfold enter.
    assert (G : forall (l t : list (point * V)), Forall (fun e => pt n (fst e)) l -> Forall (fun e => pt n (fst e)) t ->
      let r := fold_left (fun t e => table_emplace (fst e) (snd e) t) l t in
      table_find p r = match option_map snd (find (fun e => eq_point p (fst e)) t) with
                       | Some v => Some v
                       | None => option_map snd (find (fun e => eq_point p (fst e)) l)
                       end).
    { clear l F. induction l as [|[q v] l IH]; intros t Fl Ft.
      - cbn. rewrite (find_spec n p t P Ft). destruct (option_map snd _); reflexivity.
      - cbn [fold_left]. inversion Fl as [|? ? Q Fl']; subst. cbn [fst] in Q.
        assert (Ft' : Forall (fun e => pt n (fst e)) (table_emplace q v t)).
        { unfold Points.table_emplace. destruct (table_find q t); auto. }
        cbv zeta. cbn [fst snd]. rewrite (IH _ Fl' Ft').
        unfold Points.table_emplace. rewrite (find_spec n q t Q Ft).
        destruct (find (fun e => eq_point q (fst e)) t) as [[q' v']|] eqn:Eq; cbn [option_map snd].
        + destruct (find (fun e => eq_point p (fst e)) t) as [e|] eqn:Ep; [reflexivity|].
          cbn [find fst option_map]. destruct (eq_point p q) eqn:Epq; [|reflexivity].
          exfalso. apply find_some in Eq. destruct Eq as [Iq Eq]. cbn [fst] in Eq.
          pose proof (find_none _ _ Ep _ Iq) as N. cbn [fst] in N.
          pose proof (proj1 (Forall_forall _ _) Ft _ Iq) as Q'. cbn [fst] in Q'.
          rewrite (proj2 (C85_equal n p q q' P Q Q') Epq Eq) in N. discriminate N.
        + cbn [find fst]. destruct (eq_point p q) eqn:Epq.
          * cbn [option_map snd]. destruct (find (fun e => eq_point p (fst e)) t) as [[p' v']|] eqn:Ep; [|reflexivity].
            exfalso. apply find_some in Ep. destruct Ep as [Ip Ep]. cbn [fst] in Ep.
            pose proof (find_none _ _ Eq _ Ip) as N. cbn [fst] in N.
            pose proof (proj1 (Forall_forall _ _) Ft _ Ip) as P'. cbn [fst] in P'.
            pose proof (proj1 (C85_equal n p q p P Q P) Epq) as Eqp.
            rewrite (proj2 (C85_equal n q p p' Q P P') Eqp Ep) in N. discriminate N.
          * destruct (find (fun e => eq_point p (fst e)) t) as [[p' v']|]; reflexivity. }
    specialize (G l [] F (Forall_nil _)). cbn in G. exact G.
  Qed.
End C85.

(** *** Coordinates that are equal only if they are the same: the set has exactly the points and is the same list for the
    same points, what C24 and C25 assume of it. *)
Section Exact.
  Variable C : Type.
  Variable ltc eqc : C -> C -> bool.
  Hypothesis O : ordered C ltc eqc (fun _ => True).
  Hypothesis exact : forall x y, eqc x y = true -> x = y.

  Definition as_set (l : list (point C)) : list (point C) := fold_left (fun s p => set_insert C ltc eqc p s) l [].

  Lemma exact_point n a b : pt C (fun _ => True) n a -> pt C (fun _ => True) n b -> eq_point C eqc a b = true -> a = b.
  Proof.
    revert a b. induction n as [|n IH]; intros a b A B.
    - apply pt_0 in A, B. subst. auto.
    - apply pt_S in A, B. destruct A as (x & a' & -> & X & A). destruct B as (y & b' & -> & Y & B).
      cbn. rewrite andb_true_iff. intros [E1 E2]. apply exact in E1. f_equal; auto.
  Qed.

  Lemma as_set_spec n l : Forall (pt C (fun _ => True) n) l ->
    increasing C ltc eqc (as_set l) /\ (forall p, In p (as_set l) <-> In p l).
  Proof.
    intros F. unfold as_set.
    assert (G : forall l s, Forall (pt C (fun _ => True) n) l -> Forall (pt C (fun _ => True) n) s ->
      increasing C ltc eqc s ->
      increasing C ltc eqc (fold_left (fun s p => set_insert C ltc eqc p s) l s)
      /\ forall p, In p (fold_left (fun s p => set_insert C ltc eqc p s) l s) <-> In p l \/ In p s).
    { clear l F. induction l as [|p l IH]; intros s Fl Fs I; cbn.
      - split; [exact I|]. intros q. intuition.
      - inversion Fl as [|? ? P Fl']; subst.
        destruct (C85_set_insert C ltc eqc _ O n p s P Fs I) as (I1 & (q & Iq & Eq) & I3 & I4 & _).
        pose proof (insert_pt C ltc eqc _ n p s P Fs) as Fi.
        destruct (IH _ Fl' Fi I1) as (J1 & J2). split; [exact J1|].
        assert (E : p = q).
        { apply (exact_point n); auto. apply (proj1 (Forall_forall _ _) Fi q Iq). }
        subst q. intros r. rewrite J2. split.
        + intros [R|R]; [intuition|]. apply I4 in R. destruct R as [-> | R]; auto.
        + intros [[<- | R] | R]; auto. }
    destruct (G l [] F (Forall_nil _) (inc_nil _ _ _)) as [G1 G2]. split; [exact G1|].
    intros p. rewrite G2. cbn. intuition.
  Qed.

  Theorem C85_as_set n l l' : Forall (pt C (fun _ => True) n) l -> Forall (pt C (fun _ => True) n) l' ->
    (forall p, In p (as_set l) <-> In p l)
    /\ ((forall p, In p l <-> In p l') -> as_set l = as_set l').
  Proof.
    intros F F'. destruct (as_set_spec n l F) as [I H]. destruct (as_set_spec n l' F') as [I' H'].
    split; [exact H|]. intros E.
    assert (Fa : Forall (pt C (fun _ => True) n) (as_set l)).
    { apply Forall_forall. intros p P. apply H in P. apply (proj1 (Forall_forall _ _) F p P). }
    assert (Fa' : Forall (pt C (fun _ => True) n) (as_set l')).
    { apply Forall_forall. intros p P. apply H' in P. apply (proj1 (Forall_forall _ _) F' p P). }
    assert (E2 : Forall2 (fun p q => eq_point C eqc p q = true) (as_set l) (as_set l')).
    { apply (C85_canonical C ltc eqc _ O n); auto.
      intros p P. unfold held. split; intros (q & Q & Eq); exists q; (split; [|exact Eq]);
        [apply H', E, H | apply H, E, H']; exact Q. }
    revert Fa Fa'. clear - E2 exact. induction E2 as [|p q s t Epq E2 IH]; intros Fa Fa'; [reflexivity|].
    inversion Fa; inversion Fa'; subst. f_equal; auto. apply (exact_point n); auto.
  Qed.
End Exact.

(** *** Coordinates with two zeroes and NaN, as the processor compares them. *)
Inductive coord := Nan | NegZero | Number (z : Z).
Definition cval (x : coord) : option Z :=
  match x with Nan => None | NegZero => Some 0%Z | Number z => Some z end.
Definition clt (x y : coord) : bool :=
  match cval x, cval y with Some a, Some b => Z.ltb a b | _, _ => false end.
Definition ceq (x y : coord) : bool :=
  match cval x, cval y with Some a, Some b => Z.eqb a b | _, _ => false end.
Definition cnum (x : coord) : Prop := x <> Nan.
Definition ccombine (h : N) (x : coord) : N :=
  (31 * h + match cval x with Some z => Z.to_N (z mod 1000) + 7 | None => 5 end)%N.

Lemma coord_ordered : ordered coord clt ceq cnum.
Proof.
  unfold cnum, clt, ceq.
  assert (V : forall x, x <> Nan -> exists a, cval x = Some a).
  { intros [| |z] H; [congruence | eexists; reflexivity | eexists; reflexivity]. }
  constructor; intros;
    repeat match goal with H : ?x <> Nan |- _ => destruct (V x H) as (? & ?); clear H end;
    repeat match goal with H : cval ?x = Some _ |- _ => rewrite H in *; clear H end;
    rewrite ?Z.eqb_eq, ?Z.ltb_lt, ?Z.eqb_neq, ?Z.ltb_ge in *; lia.
Qed.
Lemma ccombine_eq h x y : cnum x -> cnum y -> ceq x y = true -> ccombine h x = ccombine h y.
Proof.
  unfold ceq, ccombine. destruct (cval x), (cval y); try discriminate. rewrite Z.eqb_eq. intros _ _ ->. reflexivity.
Qed.

(** With NaN there is no order left: the point is not equal to itself, yet neither smaller nor larger than anything, both
    [<=] and [>=] hold against two points that differ. *)
Theorem C85_nan_refuted : exists a b c : point coord,
  eq_point coord ceq a a = false
  /\ le_point coord clt ceq a b = true /\ ge_point coord clt ceq a b = true /\ eq_point coord ceq a b = false
  /\ le_point coord clt ceq b a = true /\ le_point coord clt ceq a c = true /\ le_point coord clt ceq c a = true
  /\ lt_point coord clt ceq b c = true.
Proof. exists [Nan; Number 1], [Number 2; Number 1], [Number 3; Number 1]. repeat split. Qed.

(** So a set loses a point that comes after one with NaN, and a table keeps two entries for the same NaN point and finds
    neither. *)
Theorem C85_nan_containers_refuted : exists a b : point coord,
  (forall l, points_set coord clt ceq [(a, b)] = l -> ~ In b l)
  /\ table_find coord ceq ccombine a (enter coord ceq ccombine [(a, 1); (a, 2)]) = None
  /\ length (enter coord ceq ccombine [(a, 1); (a, 2)]) = 2.
Proof.
  exists [Nan; Number 1], [Number 2; Number 1]. repeat split.
  intros l <-. vm_compute. intros [H|[]]. discriminate H.
Qed.

(** The first coordinate alone decides when it differs, so a NaN behind it goes unnoticed. *)
Theorem C85_nan_behind : forall x y r s, clt x y = true ->
  lt_point coord clt ceq (x :: r) (y :: s) = true /\ lt_point coord clt ceq (y :: s) (x :: r) = false.
Proof.
  intros x y r s H. cbn. rewrite H. split; [reflexivity|]. revert H. unfold clt, ceq.
  destruct (cval x), (cval y); try discriminate. rewrite Z.ltb_lt. intros H.
  destruct (Z.ltb_spec z0 z); [lia|]. destruct (Z.eqb_spec z0 z); [lia|]. reflexivity.
Qed.

(** With four dimensions the separate function ignores the last one. *)
Theorem C85_four_dimensions_refuted : exists a b : point coord,
  length a = 4 /\ length b = 4 /\ equals_points coord ceq a b = Some true /\ eq_point coord ceq a b = false.
Proof. exists [Number 1; Number 2; Number 3; Number 4], [Number 1; Number 2; Number 3; Number 5]. repeat split. Qed.

(** *** Examples *)
Definition pA : point coord := [Number 1; Number 5].
Definition pB : point coord := [Number 1; NegZero].
Definition pC : point coord := [Number 1; Number 0].
Definition pD : point coord := [Number 2; Number (-7)].
Example ex_points_num : Forall (pt coord cnum 2) [pA; pB; pC; pD].
Proof. repeat constructor; discriminate. Qed.
Example ex_points_order :
  lt_point coord clt ceq pB pA = true /\ lt_point coord clt ceq pA pD = true /\ eq_point coord ceq pB pC = true
  /\ pB <> pC /\ hash_point coord ccombine pB = hash_point coord ccombine pC
  /\ hash_point coord ccombine pA <> hash_point coord ccombine pC.
Proof. repeat split; discriminate. Qed.
Example ex_points_set : points_set coord clt ceq [(pD, pB); (pC, pA); (pA, pD)] = [pB; pA; pD].
Proof. reflexivity. Qed.
Example ex_points_table :
  table_find coord ceq ccombine pC (enter coord ceq ccombine [(pA, 4); (pB, 7); (pC, 9)]) = Some 7
  /\ table_find coord ceq ccombine pD (enter coord ceq ccombine [(pA, 4); (pB, 7); (pC, 9)]) = None.
Proof. split; reflexivity. Qed.
Lemma z_ordered : ordered Z Z.ltb Z.eqb (fun _ => True).
Proof. constructor; intros; rewrite ?Z.eqb_eq, ?Z.ltb_lt, ?Z.eqb_neq, ?Z.ltb_ge in *; lia. Qed.
Example ex_as_set :
  as_set Z Z.ltb Z.eqb [[3; 1]; [2; 9]; [3; 1]; [2; 4]]%Z = [[2; 4]; [2; 9]; [3; 1]]%Z
  /\ (forall x y, Z.eqb x y = true -> x = y).
Proof. split; [reflexivity|]. intros x y. apply Z.eqb_eq. Qed.

Print Assumptions C85_trichotomy.
Print Assumptions C85_irreflexive.
Print Assumptions C85_equal.
Print Assumptions C85_transitive.
Print Assumptions C85_operators.
Print Assumptions C85_lexicographic.
Print Assumptions C85_hash.
Print Assumptions C85_equals_points.
Print Assumptions C85_set_insert.
Print Assumptions C85_points_set.
Print Assumptions C85_no_equal.
Print Assumptions C85_canonical.
Print Assumptions C85_table.
Print Assumptions C85_as_set.
Print Assumptions C85_nan_refuted.
Print Assumptions C85_nan_containers_refuted.
Print Assumptions C85_nan_behind.
Print Assumptions C85_four_dimensions_refuted.
