(** Proofs about the simplification pass: which vertices are removed, and the loop. *)
From Coq Require Import String.
From Verif Require Import Base ListAux AdjList AdjListSpec AdjListProofs AdjListProofs2 AdjListProofs3 Tags TagsProps RichLine NetImport NetImportSpec
  NetImportProofs NetImportProofs2 NetImportProofs3 NetImportProofs4 NetImportProofs5.

Section Loop.
  Context {P Str : Type}.
  Variable eqp : P -> P -> bool.
  Hypothesis eqp_refl : forall p, eqp p p = true.
  Notation graph := (graph (node P) (road P)).
  Notation edge := (@edge (road P)).
  Notation import := (import P Str).
  Notation close := (fun p q => eqp p q = true).

  Lemma Forall2_nth {A B} (Q : A -> B -> Prop) l l' : length l = length l' ->
    (forall m p q, m < length l -> nth_error l m = Some p -> nth_error l' m = Some q -> Q p q) -> Forall2 Q l l'.
  Proof.
    revert l'. induction l as [|a l IH]; intros [|b l'] L F; try discriminate; constructor.
    - apply (F 0); cbn; auto; lia.
    - apply IH; [cbn in L; lia|]. intros m p q Hm A1 A2. apply (F (S m)); cbn; auto; lia.
  Qed.
  Lemma Forall2_nth_inv {A B} (Q : A -> B -> Prop) l l' : Forall2 Q l l' -> forall m p q, nth_error l m = Some p -> nth_error l' m = Some q -> Q p q.
  Proof. induction 1; intros [|m] p q A1 A2; cbn in *; try discriminate; [congruence|eauto]. Qed.

  Lemma nth_error_rev {A} (l : list A) m : m < length l -> nth_error (rev l) m = nth_error l (length l - 1 - m).
  Proof.
    intros Hm. destruct l as [|d l0]; [cbn in Hm; lia|]. set (l := d :: l0) in *. clearbody l.
    rewrite (nth_error_nth' (rev l) d) by (rewrite rev_length; exact Hm). rewrite rev_nth by exact Hm.
    rewrite (nth_error_nth' l d) by lia. f_equal. f_equal. lia.
  Qed.

  Lemma reversed_iff (a b : list P) : a <> [] ->
    (lines_are_reversed eqp a b = Ok true <-> Forall2 close a (rev b)).
  Proof.
    intros Ne. destruct (lines_are_reversed_ok eqp a b) as (r & E & Q). rewrite E. split.
    - intros X. injection X as ->. destruct (proj1 Q eq_refl) as (_ & L & F). apply Forall2_nth; [rewrite rev_length; exact L|].
      intros m p q Hm A1 A2. rewrite nth_error_rev in A2 by lia. apply (F m); auto.
    - intros X. f_equal. apply (proj2 Q). split; [exact Ne|]. pose proof (Forall2_len _ _ _ X) as L. rewrite rev_length in L. split; [exact L|].
      intros m p q Hm A1 A2. apply (Forall2_nth_inv _ _ _ X m); auto. rewrite nth_error_rev by lia. exact A2.
  Qed.

  Lemma mate_iff (g : graph) i o : exact Bidirectional g -> drawn g -> In i (g_es g) -> In o (g_es g) -> (mate eqp i o <-> opposite eqp i o).
  Proof.
    intros H D Hi Ho. unfold mate, opposite. destruct (D i Hi) as (L & _).
    rewrite reversed_iff by (intros Q; rewrite Q in L; cbn in L; lia). split; intros (A & B & C & F); repeat split; auto.
    - intros ->. contradiction.
    - intros Q. apply A. apply (eid_inj _ _ _ _ H Hi Ho Q).
  Qed.

  (** joined lines of opposite roads are opposite *)
  Lemma join_reversed (x i o y : list P) : x <> [] -> i <> [] -> hd_error (rev x) = hd_error i -> Forall2 close x (rev y) -> Forall2 close i (rev o) ->
    Forall2 close (x ++ tl i) (rev (o ++ tl y)).
  Proof.
    intros Nx Ni E F1 F2. destruct i as [|p i]; [contradiction|]. cbn [hd_error tl] in *.
    rewrite (hd_rev_last _ p Nx) in E. injection E as E.
    destruct y as [|q m]; [inversion F1; subst; contradiction|]. cbn [rev tl] in *.
    rewrite (app_removelast_last p Nx), E in F1. apply Forall2_app_inv_l in F1 as (u & w & G1 & G2 & G3).
    inversion G2 as [|? ? ? ? G4 G5 Ea Eb]; subst. inversion G5; subst. apply app_inj_tail in G3 as [<- <-].
    rewrite (app_removelast_last p Nx), E, <- app_assoc. cbn [app]. rewrite rev_app_distr. apply Forall2_app; [exact G1|exact F2].
  Qed.

  (** *** the effect of one step on another vertex *)
  Section Other.
    Variables (g g' : graph) (t t' : tags_state Str) (a : nat) (d : nat -> list edge).
    Hypothesis H : exact Bidirectional g.
    Hypothesis D : drawn g.
    Hypothesis R : refines true g t g' t' [a] d.
    Hypothesis M : mergeable eqp g a.
    Hypothesis Fit : exists i o, In i (ins_of (g_es g) a) /\ In o (outs_of (g_es g) a) /\ e_src i <> e_tgt o.
    Hypothesis NL : noloop (g_es g) a.
    Hypothesis Gone : ~ In a (vertex_ids g').
    Hypothesis Loops : forall e, In e (g_es g') -> e_src e = e_tgt e -> In e (g_es g).

    Lemma chain_in e f : In e (g_es g') -> In f (d (e_id e)) -> In f (g_es g).
    Proof. intros He Hf. apply (origin_in true g t g' t' [a] d R e f He Hf). Qed.

    Lemma chain e : In e (g_es g') ->
      (exists f, d (e_id e) = [f] /\ In f (g_es g) /\ e_src e = e_src f /\ e_tgt e = e_tgt f /\ line_of e = line_of f) \/
      (exists x f, d (e_id e) = [x; f] /\ In x (g_es g) /\ In f (g_es g) /\ e_tgt x = a /\ e_src f = a /\
         e_src e = e_src x /\ e_tgt e = e_tgt f /\ line_of e = line_of x ++ tl (line_of f)).
    Proof.
      intros He. destruct (rf_course _ _ _ _ _ _ _ R e He) as (f & r & E & L & S1 & T1 & _ & El).
      assert (In0 : forall z, In z (d (e_id e)) -> In z (g_es g)) by (intros z Hz; eapply chain_in; eauto).
      rewrite E in *. destruct r as [|y r].
      - left. exists f. split; [reflexivity|]. split; [apply In0; left; reflexivity|]. cbn in T1, El. rewrite app_nil_r in El. auto.
      - right. cbn [linked] in L. destruct L as [[L1 [L2|[]]] [L3 L4]].
        destruct r as [|z r].
        + exists f, y. split; [reflexivity|]. cbn [last map join flat_map] in *. rewrite app_nil_r in El. repeat split; auto; try congruence; apply In0; cbn; auto.
        + exfalso. destruct L3 as [_ [L3|[]]]. apply (NL y); [apply In0; cbn; auto|congruence|congruence].
    Qed.

    Lemma off e : In e (g_es g') -> e_src e <> a /\ e_tgt e <> a.
    Proof. intros He. destruct (ex_end _ _ (rf_exact _ _ _ _ _ _ _ R) e He) as [A B]. split; intros Q; rewrite Q in *; contradiction. Qed.

    Variable v : nat.
    Hypothesis Nv : v <> a.

    Lemma into e' : In e' (ins_of (g_es g') v) -> exists i, In i (ins_of (g_es g) v) /\ last (d (e_id e')) e' = i /\
      ((e_src i <> a /\ d (e_id e') = [i] /\ e_src e' = e_src i /\ line_of e' = line_of i) \/
       (e_src i = a /\ exists x, In x (ins_of (g_es g) a) /\ d (e_id e') = [x; i] /\ e_src e' = e_src x /\ line_of e' = line_of x ++ tl (line_of i))).
    Proof.
      intros He. apply ins_of_in in He as [He Te]. destruct (off e' He) as [O1 O2].
      destruct (chain e' He) as [(f & E & Hf & S1 & T1 & L1)|(x & f & E & Hx & Hf & Tx & Sf & S1 & T1 & L1)]; exists f; rewrite E; cbn [last].
      - split; [apply ins_of_in; split; congruence|]. split; [reflexivity|]. left. split; [congruence|auto].
      - split; [apply ins_of_in; split; congruence|]. split; [reflexivity|]. right. split; [exact Sf|]. exists x. split; [apply ins_of_in; auto|auto].
    Qed.
    Lemma outof e' : In e' (outs_of (g_es g') v) -> exists o, In o (outs_of (g_es g) v) /\ hd e' (d (e_id e')) = o /\
      ((e_tgt o <> a /\ d (e_id e') = [o] /\ e_tgt e' = e_tgt o /\ line_of e' = line_of o) \/
       (e_tgt o = a /\ exists y, In y (outs_of (g_es g) a) /\ d (e_id e') = [o; y] /\ e_tgt e' = e_tgt y /\ line_of e' = line_of o ++ tl (line_of y))).
    Proof.
      intros He. apply outs_of_in in He as [He Te]. destruct (off e' He) as [O1 O2].
      destruct (chain e' He) as [(f & E & Hf & S1 & T1 & L1)|(x & f & E & Hx & Hf & Tx & Sf & S1 & T1 & L1)].
      - exists f. rewrite E. cbn [hd]. split; [apply outs_of_in; split; congruence|]. split; [reflexivity|]. left. split; [congruence|auto].
      - exists x. rewrite E. cbn [hd]. split; [apply outs_of_in; split; congruence|]. split; [reflexivity|]. right. split; [exact Tx|]. exists f. split; [apply outs_of_in; auto|auto].
    Qed.

    Lemma ins_perm : Permutation (map (fun e => last (d (e_id e)) e) (ins_of (g_es g') v)) (ins_of (g_es g) v).
    Proof. apply (origin_ins true g t g' t' [a] d R v). intros [Q|[]]. congruence. Qed.
    Lemma outs_perm : Permutation (map (fun e => hd e (d (e_id e))) (outs_of (g_es g') v)) (outs_of (g_es g) v).
    Proof. apply (origin_outs true g t g' t' [a] d R v). intros [Q|[]]. congruence. Qed.

    (** a road in from [a] and a road out to [a]: the other two roads of [a] are opposite *)
    Lemma passing i o : In i (ins_of (g_es g) v) -> In o (outs_of (g_es g) v) -> e_src i = a -> e_tgt o = a ->
      exists x y, In x (ins_of (g_es g) a) /\ In y (outs_of (g_es g) a) /\ x <> o /\ y <> i /\ opposite eqp x y /\
        (forall z, In z (ins_of (g_es g) a) -> z = o \/ z = x) /\ (forall z, In z (outs_of (g_es g) a) -> z = i \/ z = y).
    Proof.
      intros Hi Ho Si To. apply ins_of_in in Hi as [Hi Ti]. apply outs_of_in in Ho as [Ho So].
      destruct Fit as (fi & fo & Hfi & Hfo & F).
      assert (Ai : In i (outs_of (g_es g) a)) by (apply outs_of_in; auto). assert (Ao : In o (ins_of (g_es g) a)) by (apply ins_of_in; auto).
      assert (Ni : NoDup (ins_of (g_es g) a)) by (apply NoDup_filter, (NoDup_map_inv e_id), (ex_eid _ _ H)).
      assert (No : NoDup (outs_of (g_es g) a)) by (apply NoDup_filter, (NoDup_map_inv e_id), (ex_eid _ _ H)).
      destruct M as [(i1 & o1 & E1 & E2)|(i1 & i2 & o1 & o2 & E1 & E2 & M1 & M2)].
      - exfalso. rewrite E1 in *. rewrite E2 in *. destruct Hfi as [<-|[]], Hfo as [<-|[]], Ai as [<-|[]], Ao as [<-|[]]. congruence.
      - assert (B1 : In i1 (g_es g)) by (assert (Z : In i1 (ins_of (g_es g) a)) by (rewrite E1; cbn; auto); apply ins_of_in in Z; tauto).
        assert (B2 : In i2 (g_es g)) by (assert (Z : In i2 (ins_of (g_es g) a)) by (rewrite E1; cbn; auto); apply ins_of_in in Z; tauto).
        assert (C1 : In o1 (outs_of (g_es g) a)) by (apply (Permutation_in _ (Permutation_sym E2)); cbn; auto).
        assert (C2 : In o2 (outs_of (g_es g) a)) by (apply (Permutation_in _ (Permutation_sym E2)); cbn; auto).
        assert (G1 : In o1 (g_es g)) by (apply outs_of_in in C1; tauto). assert (G2 : In o2 (g_es g)) by (apply outs_of_in in C2; tauto).
        apply (mate_iff g i1 o1 H D B1 G1) in M1. apply (mate_iff g i2 o2 H D B2 G2) in M2.
        apply (Permutation_NoDup E2) in No. rewrite E1 in *.
        assert (Ni' : i1 <> i2) by (inversion Ni as [|? ? Z1 Z2]; subst; intros Q; apply Z1; left; auto).
        assert (No' : o1 <> o2) by (inversion No as [|? ? Z1 Z2]; subst; intros Q; apply Z1; left; auto).
        assert (Z : forall z, In z (outs_of (g_es g) a) -> z = o1 \/ z = o2) by (intros z Hz; apply (Permutation_in _ E2) in Hz; cbn in Hz; intuition).
        destruct M1 as (M11 & M12 & M13 & M14) eqn:X1, M2 as (M21 & M22 & M23 & M24) eqn:X2.
        assert (W : e_src i1 <> e_src i2).
        { intros Q. destruct (Z _ Hfo) as [-> | ->], Hfi as [<-|[<-|[]]]; congruence. }
        destruct Ao as [->|[->|[]]].
        + assert (i = o1) as -> by (destruct (Z _ Ai) as [->|Q]; [reflexivity|]; exfalso; apply W; congruence).
          exists i2, o2. split; [cbn; auto|]. split; [exact C2|]. split; [auto|]. split; [auto|]. split; [exact M2|]. split; [intros z [<-|[<-|[]]]; auto|exact Z].
        + assert (i = o2) as -> by (destruct (Z _ Ai) as [Q|Q]; [|exact Q]; exfalso; apply W; congruence).
          exists i1, o1. split; [cbn; auto|]. split; [exact C1|]. split; [auto|]. split; [auto|]. split; [exact M1|].
          split; [intros z [<-|[<-|[]]]; auto|]. intros z Hz. destruct (Z z Hz); auto.
    Qed.

    (** opposite roads stay opposite *)
    Lemma pair_stays i' o' i o : In i' (ins_of (g_es g') v) -> In o' (outs_of (g_es g') v) ->
      last (d (e_id i')) i' = i -> hd o' (d (e_id o')) = o -> In i (ins_of (g_es g) v) -> In o (outs_of (g_es g) v) -> opposite eqp i o ->
      (e_src i = a -> noloop (g_es g) v) -> opposite eqp i' o'.
    Proof.
      intros Hi' Ho' Li Lo Hi Ho (O1 & O2 & O3 & O4) NLv.
      destruct (into i' Hi') as (j & _ & Ej & Ci). rewrite Li in Ej. subst j.
      destruct (outof o' Ho') as (j & _ & Ej & Co). rewrite Lo in Ej. subst j.
      assert (Ti' : e_tgt i' = v) by (apply ins_of_in in Hi'; tauto). assert (So' : e_src o' = v) by (apply outs_of_in in Ho'; tauto).
      destruct Ci as [(Ns & Ei & Si & Lni)|(Sa & x & Hx & Ei & Si & Lni)]; destruct Co as [(Nt & Eo & To & Lno)|(Ta & y & Hy & Eo & To & Lno)]; try congruence.
      - split; [intros ->; apply O1; congruence|]. split; [congruence|]. split; [congruence|]. rewrite Lni, Lno. exact O4.
      - specialize (NLv Sa). destruct (passing i o Hi Ho Sa Ta) as (x0 & y0 & Hx0 & Hy0 & Nx & Ny & (P1 & P2 & P3 & P4) & Ax & Ay).
        assert (NL' : forall e, In e (g_es g') -> e_src e = v -> e_tgt e <> v).
        { intros e He Q1 Q2. apply (NLv e); auto. apply Loops; auto; congruence. }
        assert (Ge : In i' (g_es g')) by (apply ins_of_in in Hi'; tauto). assert (Gf : In o' (g_es g')) by (apply outs_of_in in Ho'; tauto).
        apply ins_of_in in Hi as [Gi Ti]. apply outs_of_in in Ho as [Go So].
        assert (x = x0) as -> by (destruct (Ax x Hx) as [->|Q]; [exfalso; apply (NL' i' Ge); congruence|exact Q]).
        assert (y = y0) as -> by (destruct (Ay y Hy) as [->|Q]; [exfalso; apply (NL' o' Gf); congruence|exact Q]).
        apply ins_of_in in Hx as [Gx Tx]. apply outs_of_in in Hy as [Gy Sy].
        split; [intros ->; apply (NL' o' Gf); congruence|]. split; [congruence|]. split; [congruence|]. rewrite Lni, Lno.
        destruct (D x0 Gx) as (D1 & D2 & D3). destruct (D i Gi) as (D4 & D5 & D6).
        apply join_reversed; auto; [intros Q; rewrite Q in D1; cbn in D1; lia|intros Q; rewrite Q in D4; cbn in D4; lia|].
        rewrite D3, D5, Tx, Sa. reflexivity.
    Qed.

    Lemma one_way_stays : on_one_way g v -> on_one_way g' v.
    Proof.
      intros (i & o & E1 & E2). pose proof ins_perm as P1. pose proof outs_perm as P2. rewrite E1 in P1. rewrite E2 in P2.
      apply Permutation_length in P1, P2. rewrite map_length in P1, P2. cbn in P1, P2.
      destruct (ins_of (g_es g') v) as [|i' [|? ?]] eqn:F1; try discriminate. destruct (outs_of (g_es g') v) as [|o' [|? ?]] eqn:F2; try discriminate.
      exists i', o'. auto.
    Qed.

    Lemma map_perm_2 {A B} (f : A -> B) l x y : Permutation (map f l) [x; y] -> exists a b, Permutation l [a; b] /\ f a = x /\ f b = y.
    Proof.
      intros Q. pose proof (Permutation_length Q) as L. rewrite map_length in L. destruct l as [|p [|q [|? ?]]]; try discriminate. cbn in Q.
      apply Permutation_sym, Permutation_length_2_inv in Q as [Q|Q]; injection Q as Q1 Q2; [exists p, q|exists q, p]; auto using perm_swap.
    Qed.

    Lemma two_way_loops i1 i2 o1 o2 : Permutation (ins_of (g_es g) v) [i1; i2] -> Permutation (outs_of (g_es g) v) [o1; o2] ->
      opposite eqp i1 o1 -> opposite eqp i2 o2 -> e_src i1 <> v \/ e_src i2 <> v -> noloop (g_es g) v.
    Proof.
      intros P1 P2 (A1 & A2 & A3 & _) (B1 & B2 & B3 & _) Q e He Hs Ht.
      assert (He1 : In e [i1; i2]) by (apply (Permutation_in _ P1), ins_of_in; auto).
      assert (Ho1 : e_src o1 = v) by (assert (Z : In o1 (outs_of (g_es g) v)) by (apply (Permutation_in _ (Permutation_sym P2)); cbn; auto); apply outs_of_in in Z; tauto).
      assert (Ho2 : e_src o2 = v) by (assert (Z : In o2 (outs_of (g_es g) v)) by (apply (Permutation_in _ (Permutation_sym P2)); cbn; auto); apply outs_of_in in Z; tauto).
      assert (G1 : In o1 (g_es g)) by (assert (Z : In o1 (outs_of (g_es g) v)) by (apply (Permutation_in _ (Permutation_sym P2)); cbn; auto); apply outs_of_in in Z; tauto).
      assert (G2 : In o2 (g_es g)) by (assert (Z : In o2 (outs_of (g_es g) v)) by (apply (Permutation_in _ (Permutation_sym P2)); cbn; auto); apply outs_of_in in Z; tauto).
      destruct He1 as [<-|[<-|[]]].
      - assert (Z : In o1 [i1; i2]) by (apply (Permutation_in _ P1), ins_of_in; split; congruence).
        destruct Z as [Z|[Z|[]]]; [congruence|]. destruct Q as [Q|Q]; apply Q; congruence.
      - assert (Z : In o2 [i1; i2]) by (apply (Permutation_in _ P1), ins_of_in; split; congruence).
        destruct Z as [Z|[Z|[]]]; [|congruence]. destruct Q as [Q|Q]; apply Q; congruence.
    Qed.

    Lemma two_way_stays : on_two_way eqp g v -> on_two_way eqp g' v.
    Proof.
      intros (i1 & i2 & o1 & o2 & E1 & E2 & O1 & O2). pose proof ins_perm as P1. pose proof outs_perm as P2.
      destruct (map_perm_2 _ _ _ _ (Permutation_trans P1 E1)) as (a1 & a2 & Q1 & L1 & L2).
      destruct (map_perm_2 _ _ _ _ (Permutation_trans P2 E2)) as (b1 & b2 & Q2 & K1 & K2).
      assert (Hi1 : In i1 (ins_of (g_es g) v)) by (apply (Permutation_in _ (Permutation_sym E1)); cbn; auto).
      assert (Hi2 : In i2 (ins_of (g_es g) v)) by (apply (Permutation_in _ (Permutation_sym E1)); cbn; auto).
      assert (Ho1 : In o1 (outs_of (g_es g) v)) by (apply (Permutation_in _ (Permutation_sym E2)); cbn; auto).
      assert (Ho2 : In o2 (outs_of (g_es g) v)) by (apply (Permutation_in _ (Permutation_sym E2)); cbn; auto).
      exists a1, a2, b1, b2. split; [exact Q1|]. split; [exact Q2|]. split.
      - apply (pair_stays a1 b1 i1 o1); auto; [apply (Permutation_in _ (Permutation_sym Q1)); cbn; auto|apply (Permutation_in _ (Permutation_sym Q2)); cbn; auto|].
        intros S1. apply (two_way_loops i1 i2 o1 o2); auto. left. congruence.
      - apply (pair_stays a2 b2 i2 o2); auto; [apply (Permutation_in _ (Permutation_sym Q1)); cbn; auto|apply (Permutation_in _ (Permutation_sym Q2)); cbn; auto|].
        intros S1. apply (two_way_loops i1 i2 o1 o2); auto. right. congruence.
    Qed.

    Lemma one_neighbour_stays : on_one_way g v \/ on_two_way eqp g v -> one_neighbour g v -> one_neighbour g' v.
    Proof.
      intros W N i' o' Hi' Ho'. destruct (into i' Hi') as (i & Hi & Li & Ci). destruct (outof o' Ho') as (o & Ho & Lo & Co).
      pose proof (N i o Hi Ho) as Q.
      destruct Ci as [(Ns & Ei & Si & Lni)|(Sa & x & Hx & Ei & Si & Lni)]; destruct Co as [(Nt & Eo & To & Lno)|(Ta & y & Hy & Eo & To & Lno)]; try congruence.
      destruct (passing i o Hi Ho Sa Ta) as (x0 & y0 & Hx0 & Hy0 & Nx & Ny & (P1 & P2 & P3 & P4) & Ax & Ay).
      assert (NLv : noloop (g_es g) v).
      { intros e He Q1 Q2. assert (A : In e (ins_of (g_es g) v)) by (apply ins_of_in; auto). pose proof (N e o A Ho). congruence. }
      assert (NL' : forall e, In e (g_es g') -> e_src e = v -> e_tgt e <> v).
      { intros e He Q1 Q2. apply (NLv e); auto. apply Loops; auto; congruence. }
      assert (Ge : In i' (g_es g') /\ e_tgt i' = v) by (apply ins_of_in in Hi'; tauto). assert (Gf : In o' (g_es g') /\ e_src o' = v) by (apply outs_of_in in Ho'; tauto).
      assert (Gi : e_tgt i = v) by (apply ins_of_in in Hi; tauto). assert (Go : e_src o = v) by (apply outs_of_in in Ho; tauto).
      assert (x = x0) as -> by (destruct (Ax x Hx) as [->|Z]; [exfalso; apply (NL' i' (proj1 Ge)); [congruence|tauto]|exact Z]).
      assert (y = y0) as -> by (destruct (Ay y Hy) as [->|Z]; [exfalso; apply (NL' o' (proj1 Gf)); [tauto|congruence]|exact Z]).
      congruence.
    Qed.
  End Other.
End Loop.
