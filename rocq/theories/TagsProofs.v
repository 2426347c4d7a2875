(** Proofs about the tag dictionary. *)
From Verif Require Import Base ListAux Tags.

Section Map.
  Context {K D : Type}.
  Variable keqb : K -> K -> bool.
  Hypothesis keqb_ok : forall a b, keqb a b = true <-> a = b.

  Lemma find_key_In k (m : list (K * D)) d : find_key keqb k m = Some d -> In (k, d) m.
  Proof.
    induction m as [|[k' d'] r IH]; cbn; [discriminate|]. destruct (keqb k k') eqn:E.
    - intros [= <-]. apply keqb_ok in E. subst. left. reflexivity.
    - intros H. right. apply IH. exact H.
  Qed.
  Lemma find_key_None k (m : list (K * D)) : find_key keqb k m = None <-> ~ In k (map fst m).
  Proof.
    induction m as [|[k' d'] r IH]; cbn; [tauto|]. destruct (keqb k k') eqn:E.
    - apply keqb_ok in E. subst. split; [discriminate|intros H; exfalso; apply H; left; reflexivity].
    - rewrite IH. split.
      + intros H [->|Q]; [|tauto]. assert (keqb k k = true) by (apply keqb_ok; reflexivity). congruence.
      + tauto.
  Qed.
  Lemma find_key_unique k (m : list (K * D)) d : NoDup (map fst m) -> In (k, d) m -> find_key keqb k m = Some d.
  Proof.
    induction m as [|[k' d'] r IH]; cbn; [intros _ []|]. intros N. inversion N as [|a l Na Nl]; subst. intros [[= -> ->]|H].
    - assert (E : keqb k k = true) by (apply keqb_ok; reflexivity). rewrite E. reflexivity.
    - destruct (keqb k k') eqn:E; [|apply IH; assumption]. apply keqb_ok in E. subst. exfalso. apply Na.
      apply (in_map fst) in H. exact H.
  Qed.
  Lemma find_key_iff k (m : list (K * D)) d : NoDup (map fst m) -> find_key keqb k m = Some d <-> In (k, d) m.
  Proof. intros N. split; [apply find_key_In|apply find_key_unique; exact N]. Qed.

  Lemma erase_absent k (m : list (K * D)) : ~ In k (map fst m) -> erase keqb k m = m.
  Proof.
    intros H. unfold erase. apply filter_true. intros [k' d] Hin. cbn.
    destruct (keqb k k') eqn:E; [|reflexivity]. apply keqb_ok in E. subst. exfalso. apply H. apply (in_map fst) in Hin. exact Hin.
  Qed.
  Lemma erase_snoc k d (m : list (K * D)) : ~ In k (map fst m) -> erase keqb k (m ++ [(k, d)]) = m.
  Proof.
    intros H. unfold erase. rewrite filter_app. cbn. assert (E : keqb k k = true) by (apply keqb_ok; reflexivity).
    rewrite E. cbn. rewrite app_nil_r. apply erase_absent. exact H.
  Qed.
  Lemma emplace_absent k d (m : list (K * D)) : ~ In k (map fst m) -> emplace keqb k d m = m ++ [(k, d)].
  Proof. intros H. unfold emplace. apply find_key_None in H. rewrite H. reflexivity. Qed.
End Map.

Lemma nat_eqb_ok a b : Nat.eqb a b = true <-> a = b.
Proof. apply Nat.eqb_eq. Qed.
Lemma peqb_ok a b : peqb a b = true <-> a = b.
Proof.
  destruct a as [a1 a2], b as [b1 b2]. unfold peqb. cbn. rewrite andb_true_iff, !Nat.eqb_eq. split.
  - intros [-> ->]. reflexivity.
  - intros [= -> ->]. split; reflexivity.
Qed.

(** two maps that are inverse to each other, with ids below the size *)
Record paired {A : Type} (m1 : list (A * nat)) (m2 : list (nat * A)) : Prop := {
  pr_nd1 : NoDup (map fst m1);
  pr_nd2 : NoDup (map fst m2);
  pr_iff : forall x i, In (x, i) m1 <-> In (i, x) m2;
  pr_range : forall x i, In (x, i) m1 -> i < length m1
}.

Lemma paired_nil {A} : paired ([] : list (A * nat)) [].
Proof. constructor; cbn; try constructor; tauto. Qed.

Lemma paired_fresh {A} (m1 : list (A * nat)) m2 : paired m1 m2 -> ~ In (length m1) (map fst m2).
Proof.
  intros P H. apply in_map_iff in H. destruct H as ([i x] & E & H). cbn in E. subst i.
  apply (pr_iff _ _ P) in H. apply (pr_range _ _ P) in H. lia.
Qed.

Section Intern.
  Variable oom : nat -> bool.
  Context {A : Type}.
  Variable aeqb : A -> A -> bool.
  Hypothesis aeqb_ok : forall a b, aeqb a b = true <-> a = b.
  Variable store : A -> A.

  Lemma intern_spec x m1 m2 c r m1' m2' c' : paired m1 m2 -> store x = x ->
    intern oom aeqb store x m1 m2 c = (r, (m1', m2'), c') ->
    paired m1' m2' /\ c <= c' /\
    match r with
    | None => m1' = m1 /\ m2' = m2 /\ exists n, c <= n < c' /\ oom n = true
    | Some i => In (x, i) m1' /\ (m1' = m1 /\ m2' = m2 \/ m1' = m1 ++ [(x, i)] /\ m2' = m2 ++ [(i, x)] /\ ~ In i (map fst m2))
    end.
  Proof.
    intros P S. unfold intern. destruct (find_key aeqb x m1) as [i|] eqn:F.
    - intros [= <- <- <- <-]. split; [exact P|]. split; [lia|]. split; [apply (find_key_In aeqb aeqb_ok); exact F|].
      left. split; reflexivity.
    - apply (find_key_None aeqb aeqb_ok) in F. assert (Fr := paired_fresh _ _ P).
      assert (E2 : erase Nat.eqb (length m1) m2 = m2) by (apply (erase_absent Nat.eqb nat_eqb_ok); exact Fr).
      destruct (oom c) eqn:O1.
      { intros [= <- <- <- <-]. rewrite (erase_absent aeqb aeqb_ok) by exact F. rewrite E2.
        split; [exact P|]. split; [lia|]. split; [reflexivity|]. split; [reflexivity|]. exists c. split; [lia|exact O1]. }
      rewrite S. rewrite (emplace_absent aeqb aeqb_ok) by exact F.
      destruct (oom (Datatypes.S c)) eqn:O2.
      { intros [= <- <- <- <-]. rewrite (erase_snoc aeqb aeqb_ok) by exact F. rewrite E2.
        split; [exact P|]. split; [lia|]. split; [reflexivity|]. split; [reflexivity|]. exists (Datatypes.S c). split; [lia|exact O2]. }
      intros [= <- <- <- <-]. rewrite (emplace_absent Nat.eqb nat_eqb_ok) by exact Fr.
      split; [|split; [lia|split; [apply in_or_app; right; left; reflexivity|right; split; [reflexivity|split; [reflexivity|exact Fr]]]]].
      destruct P as [P1 P2 P3 P4]. constructor.
      + rewrite map_app. cbn. apply (NoDup_app' (map fst m1) [x]); [exact P1|repeat constructor; intros []|].
        intros y Hy [<-|[]]. tauto.
      + rewrite map_app. cbn. apply (NoDup_app' (map fst m2) [length m1]); [exact P2|repeat constructor; intros []|].
        intros y Hy [<-|[]]. tauto.
      + intros y i. rewrite !in_app_iff. cbn. rewrite P3. split; intros [H|[[= <- <-]|[]]]; auto.
      + intros y i H. rewrite app_length. cbn. apply in_app_or in H. destruct H as [H|[[= <- <-]|[]]]; [|lia].
        apply P4 in H. lia.
  Qed.
End Intern.

Section Dict.
  Context {Str : Type}.
  Variable seqb : Str -> Str -> bool.
  Hypothesis seqb_ok : forall a b, seqb a b = true <-> a = b.
  Variable store : Str -> Str.
  Notation tags_state := (tags_state Str).

  Record good (s : tags_state) : Prop := {
    gd_keys : paired (key_id s) (id_key s);
    gd_values : paired (value_id s) (id_value s);
    gd_tags : paired (ids s) (tags s);
    gd_refs : forall t kid vid, In (t, (kid, vid)) (tags s) ->
                In kid (map fst (id_key s)) /\ In vid (map fst (id_value s))
  }.

  Lemma good_empty : good empty_tags.
  Proof. constructor; cbn; [apply paired_nil|apply paired_nil|apply paired_nil|intros t kid vid []]. Qed.

  Lemma tag_iff s i k v : good s ->
    tag s i = Some (k, v) <->
    exists kid vid, In (i, (kid, vid)) (tags s) /\ In (kid, k) (id_key s) /\ In (vid, v) (id_value s).
  Proof.
    intros G. unfold tag. split.
    - destruct (find_key Nat.eqb i (tags s)) as [[kid vid]|] eqn:E; [|discriminate].
      destruct (find_key Nat.eqb kid (id_key s)) as [k'|] eqn:Ek; [|discriminate].
      destruct (find_key Nat.eqb vid (id_value s)) as [v'|] eqn:Ev; [|discriminate]. intros [= -> ->].
      exists kid, vid. split; [|split]; apply (find_key_In Nat.eqb nat_eqb_ok); assumption.
    - intros (kid & vid & H1 & H2 & H3).
      rewrite (find_key_unique Nat.eqb nat_eqb_ok i _ (kid, vid) (pr_nd2 _ _ (gd_tags _ G)) H1).
      rewrite (find_key_unique Nat.eqb nat_eqb_ok kid _ k (pr_nd2 _ _ (gd_keys _ G)) H2).
      rewrite (find_key_unique Nat.eqb nat_eqb_ok vid _ v (pr_nd2 _ _ (gd_values _ G)) H3). reflexivity.
  Qed.

  (** tags are unique per id and ids per tag *)
  Lemma paired_fun {A} (m1 : list (A * nat)) m2 x i j : paired m1 m2 -> In (i, x) m2 -> In (j, x) m2 -> i = j.
  Proof.
    intros P Hi Hj. apply (pr_iff _ _ P) in Hi, Hj. assert (N := pr_nd1 _ _ P). clear P.
    induction m1 as [|[y k] r IH]; [destruct Hi|]. cbn in N. inversion N as [|a l Na Nl]; subst.
    destruct Hi as [[= -> ->]|Hi], Hj as [[= E]|Hj].
    - exact E.
    - exfalso. apply Na. apply (in_map fst) in Hj. exact Hj.
    - subst. exfalso. apply Na. apply (in_map fst) in Hi. exact Hi.
    - apply IH; assumption.
  Qed.

  Lemma tag_inj s i j t : good s -> tag s i = Some t -> tag s j = Some t -> i = j.
  Proof.
    intros G. destruct t as [k v]. rewrite !tag_iff by exact G.
    intros (k1 & v1 & A1 & A2 & A3) (k2 & v2 & B1 & B2 & B3).
    assert (k1 = k2) by (eapply paired_fun; [apply (gd_keys _ G)|exact A2|exact B2]).
    assert (v1 = v2) by (eapply paired_fun; [apply (gd_values _ G)|exact A3|exact B3]). subst.
    eapply paired_fun; [apply (gd_tags _ G)|exact A1|exact B1].
  Qed.

  (** growth of the dictionary: nothing is lost *)
  Definition extends (s s' : tags_state) : Prop :=
    (exists l, id_key s' = id_key s ++ l) /\ (exists l, id_value s' = id_value s ++ l) /\ (exists l, tags s' = tags s ++ l) /\
    nodes s' = nodes s /\ edges s' = edges s /\ finalized s' = finalized s /\ clock s <= clock s'.
  Lemma extends_refl s : extends s s.
  Proof. unfold extends. repeat split; try (exists []; rewrite app_nil_r; reflexivity); lia. Qed.
  Lemma extends_trans a b c : extends a b -> extends b c -> extends a c.
  Proof.
    intros ((k1 & A1) & (v1 & A2) & (t1 & A3) & A4 & A5 & A6 & A7) ((k2 & B1) & (v2 & B2) & (t2 & B3) & B4 & B5 & B6 & B7).
    split; [exists (k1 ++ k2); rewrite B1, A1, app_assoc; reflexivity|].
    split; [exists (v1 ++ v2); rewrite B2, A2, app_assoc; reflexivity|].
    split; [exists (t1 ++ t2); rewrite B3, A3, app_assoc; reflexivity|].
    split; [congruence|]. split; [congruence|]. split; [congruence|lia].
  Qed.
  Lemma extends_tag s s' i t : good s -> good s' -> extends s s' -> tag s i = Some t -> tag s' i = Some t.
  Proof.
    intros G G' ((k1 & A1) & (v1 & A2) & (t1 & A3) & _). destruct t as [k v]. rewrite !tag_iff by assumption.
    intros (kid & vid & H1 & H2 & H3). exists kid, vid. rewrite A1, A2, A3. rewrite !in_app_iff. auto.
  Qed.

  (** same tags: no new id, no lost id *)
  Lemma same_tags s s' : good s -> good s' -> extends s s' -> tags s' = tags s -> forall i, tag s' i = tag s i.
  Proof.
    intros G G' E T i. destruct (tag s i) as [t|] eqn:Q.
    - exact (extends_tag s s' i t G G' E Q).
    - unfold tag in *. rewrite T. destruct (find_key Nat.eqb i (tags s)) as [[kid vid]|] eqn:F; [|reflexivity]. exfalso.
      apply (find_key_In Nat.eqb nat_eqb_ok) in F. destruct (gd_refs _ G _ _ _ F) as [Rk Rv].
      apply in_map_iff in Rk, Rv. destruct Rk as ([a k] & Ea & Rk), Rv as ([b v] & Eb & Rv). cbn in Ea, Eb. subst a b.
      rewrite (find_key_unique Nat.eqb nat_eqb_ok kid _ k (pr_nd2 _ _ (gd_keys _ G)) Rk) in Q.
      rewrite (find_key_unique Nat.eqb nat_eqb_ok vid _ v (pr_nd2 _ _ (gd_values _ G)) Rv) in Q. discriminate.
  Qed.

  Variable oom : nat -> bool.

  Lemma id_once_spec k v s : good s -> store k = k -> store v = v ->
    (exists i s', id_once oom seqb store k v s = Ok (Some i, s') /\ good s' /\ extends s s' /\ tag s' i = Some (k, v) /\
       mapping s' = mapping s /\ (forall j, j <> i -> tag s' j = tag s j)) \/
    (exists s', id_once oom seqb store k v s = Throw (None, s') /\ good s' /\ extends s s' /\ tags s' = tags s /\
       mapping s' = mapping s /\ exists n, clock s <= n < clock s' /\ oom n = true).
  Proof.
    intros G Sk Sv. unfold id_once.
    destruct (intern oom seqb store k (key_id s) (id_key s) (clock s)) as [[rk [ki ik]] c1] eqn:Ek.
    destruct (intern_spec oom seqb seqb_ok store _ _ _ _ _ _ _ _ (gd_keys _ G) Sk Ek) as (Pk & C1 & Hk).
    destruct rk as [kid|].
    2:{ right. destruct Hk as (-> & -> & n & Hn & On). eexists. split; [reflexivity|].
        split; [destruct G as [G1 G2 G3 G4]; constructor; assumption|].
        split; [unfold extends; cbn; repeat split; try (exists []; rewrite app_nil_r; reflexivity); lia|].
        split; [reflexivity|]. split; [reflexivity|]. exists n. cbn. split; [lia|exact On]. }
    destruct Hk as (Ink & Hk).
    assert (Xk : exists l, ik = id_key s ++ l).
    { destruct Hk as [(_ & ->)|(_ & -> & _)]; [exists []; rewrite app_nil_r; reflexivity|eexists; reflexivity]. }
    cbn [value_id id_value ids tags].
    destruct (intern oom seqb store v (value_id s) (id_value s) c1) as [[rv [vi iv]] c2] eqn:Ev.
    destruct (intern_spec oom seqb seqb_ok store _ _ _ _ _ _ _ _ (gd_values _ G) Sv Ev) as (Pv & C2 & Hv).
    destruct rv as [vid|].
    2:{ right. destruct Hv as (-> & -> & n & Hn & On). eexists. split; [reflexivity|].
        split; [|split; [|split; [reflexivity|split; [reflexivity|exists n; cbn; split; [lia|exact On]]]]].
        - constructor; cbn; [exact Pk|apply (gd_values _ G)|apply (gd_tags _ G)|].
          intros t a b H. destruct (gd_refs _ G _ _ _ H) as [H1 H2]. split; [|exact H2].
          destruct Xk as (l & ->). rewrite map_app. apply in_or_app. left. exact H1.
        - unfold extends; cbn. split; [exact Xk|]. repeat split; try (exists []; rewrite app_nil_r; reflexivity); lia. }
    destruct Hv as (Inv & Hv).
    assert (Xv : exists l, iv = id_value s ++ l).
    { destruct Hv as [(_ & ->)|(_ & -> & _)]; [exists []; rewrite app_nil_r; reflexivity|eexists; reflexivity]. }
    cbn [ids tags].
    destruct (intern oom peqb (fun p => p) (kid, vid) (ids s) (tags s) c2) as [[rt [idm tm]] c3] eqn:Et.
    destruct (intern_spec oom peqb peqb_ok (fun p => p) _ _ _ _ _ _ _ _ (gd_tags _ G) eq_refl Et) as (Pt & C3 & Ht).
    assert (Rk : forall a, In a (map fst (id_key s)) -> In a (map fst ik)).
    { intros a H. destruct Xk as (l & ->). rewrite map_app. apply in_or_app. left. exact H. }
    assert (Rv : forall a, In a (map fst (id_value s)) -> In a (map fst iv)).
    { intros a H. destruct Xv as (l & ->). rewrite map_app. apply in_or_app. left. exact H. }
    destruct rt as [t|].
    2:{ right. destruct Ht as (-> & -> & n & Hn & On). eexists. split; [reflexivity|].
        split; [|split; [|split; [reflexivity|split; [reflexivity|exists n; cbn; split; [lia|exact On]]]]].
        - constructor; cbn; [exact Pk|exact Pv|apply (gd_tags _ G)|].
          intros t a b H. destruct (gd_refs _ G _ _ _ H) as [H1 H2]. auto.
        - unfold extends; cbn. split; [exact Xk|]. split; [exact Xv|]. repeat split; try (exists []; rewrite app_nil_r; reflexivity); lia. }
    left. destruct Ht as (Int & Ht).
    set (s' := mkTags ki ik vi iv idm tm (nodes s) (edges s) (finalized s) c3 (mapping s)).
    exists t, s'. split; [reflexivity|].
    assert (Kin : In (kid, k) ik) by (apply (pr_iff _ _ Pk); exact Ink).
    assert (Vin : In (vid, v) iv) by (apply (pr_iff _ _ Pv); exact Inv).
    assert (G' : good s').
    { constructor; cbn; [exact Pk|exact Pv|exact Pt|].
      intros t' a b H. destruct Ht as [(_ & ->)|(_ & -> & _)].
      - destruct (gd_refs _ G _ _ _ H) as [H1 H2]. auto.
      - apply in_app_or in H. destruct H as [H|[[= <- <- <-]|[]]].
        + destruct (gd_refs _ G _ _ _ H) as [H1 H2]. auto.
        + split; [apply (in_map fst) in Kin; exact Kin|apply (in_map fst) in Vin; exact Vin]. }
    assert (X : extends s s').
    { unfold extends; cbn. split; [exact Xk|]. split; [exact Xv|].
      split; [destruct Ht as [(_ & ->)|(_ & -> & _)]; [exists []; rewrite app_nil_r; reflexivity|eexists; reflexivity]|].
      repeat split; try lia. }
    split; [exact G'|]. split; [exact X|]. split.
    { apply tag_iff; [exact G'|]. exists kid, vid. split; [apply (pr_iff _ _ Pt); exact Int|]. split; assumption. }
    split; [reflexivity|].
    intros j Hj. destruct Ht as [(Em & Et')|(Em & Et' & Fr)].
    - apply same_tags; assumption.
    - destruct (tag s j) as [[a b]|] eqn:Q; [exact (extends_tag s s' j _ G G' X Q)|].
      destruct (tag s' j) as [[a b]|] eqn:Q'; [|reflexivity]. exfalso.
      apply tag_iff in Q'; [|exact G']. destruct Q' as (x & y & H1 & H2 & H3). cbn in H1. rewrite Et' in H1.
      apply in_app_or in H1. destruct H1 as [H1|[[= H1 _ _]|[]]]; [|congruence].
      unfold tag in Q. rewrite (find_key_unique Nat.eqb nat_eqb_ok j _ (x, y) (pr_nd2 _ _ (gd_tags _ G)) H1) in Q.
      destruct (gd_refs _ G _ _ _ H1) as [R1 R2]. apply in_map_iff in R1, R2.
      destruct R1 as ([x' a'] & E1 & R1), R2 as ([y' b'] & E2 & R2). cbn in E1, E2. subst x' y'.
      rewrite (find_key_unique Nat.eqb nat_eqb_ok x _ a' (pr_nd2 _ _ (gd_keys _ G)) R1) in Q.
      rewrite (find_key_unique Nat.eqb nat_eqb_ok y _ b' (pr_nd2 _ _ (gd_values _ G)) R2) in Q. discriminate.
  Qed.

  Lemma good_grow s : good s -> good (grow s).
  Proof. intros [G1 G2 G3 G4]. constructor; assumption. Qed.
  Lemma extends_grow s : extends s (grow s).
  Proof. exact (extends_refl s). Qed.

  (** everything about a call of [id]: success or failure, with or without retry *)
  Lemma id_spec mm re k v s : good s -> store k = k -> store v = v ->
    (exists i s', id oom seqb store mm re k v s = Ok (Some i, s') /\ good s' /\ extends s s' /\ tag s' i = Some (k, v) /\
       (forall j, j <> i -> tag s' j = tag s j)) \/
    (exists s', id oom seqb store mm re k v s = Throw (None, s') /\ good s' /\ extends s s' /\ tags s' = tags s /\
       (finalized s = true \/ exists n, clock s <= n < clock s' /\ oom n = true)).
  Proof.
    intros G Sk Sv. unfold id. destruct (finalized s) eqn:Fi.
    { right. exists s. split; [reflexivity|]. split; [exact G|]. split; [apply extends_refl|]. split; [reflexivity|].
      left. reflexivity. }
    destruct (mm && re).
    - unfold retry_alloc. destruct (id_once_spec k v s G Sk Sv) as [(i & s' & E & G' & X & T & _ & O)|(s' & E & G' & X & T & _ & n & Hn & On)].
      + rewrite E. left. exists i, s'. repeat (split; [assumption || reflexivity|]). exact O.
      + rewrite E. destruct (id_once_spec k v (grow s') (good_grow _ G') Sk Sv)
          as [(i & s2 & E2 & G2 & X2 & T2 & _ & O2)|(s2 & E2 & G2 & X2 & T2 & _ & _)]; rewrite E2.
        * left. exists i, s2. split; [reflexivity|]. split; [exact G2|].
          split; [eapply extends_trans; [exact X|]; eapply extends_trans; [apply extends_grow|exact X2]|].
          split; [exact T2|]. intros j Hj. rewrite (O2 j Hj).
          transitivity (tag s' j); [reflexivity|]. apply same_tags; assumption.
        * right. exists (grow s2). split; [reflexivity|]. split; [apply good_grow; exact G2|].
          assert (X3 : extends s s2) by (eapply extends_trans; [exact X|]; eapply extends_trans; [apply extends_grow|exact X2]).
          split; [exact X3|]. split; [cbn in *; congruence|]. right. exists n. split; [|exact On].
          destruct X2 as (_ & _ & _ & _ & _ & _ & C). cbn in *. lia.
    - destruct (id_once_spec k v s G Sk Sv) as [(i & s' & E & G' & X & T & _ & O)|(s' & E & G' & X & T & _ & n & Hn & On)].
      + rewrite E. left. exists i, s'. repeat (split; [assumption || reflexivity|]). exact O.
      + rewrite E. right. exists s'. repeat (split; [assumption || reflexivity|]). right. exists n. split; assumption.
  Qed.
End Dict.
