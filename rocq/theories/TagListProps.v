(** C28 for the tag lists of nodes: which tags a node gets, under any pattern of allocation failures. *)
From Verif Require Import Base ListAux Tags TagsProofs TagsProps.

Section Lists.
  Context {Str : Type}.
  Variable seqb : Str -> Str -> bool.
  Hypothesis OK : forall a b, seqb a b = true <-> a = b.
  Variable store : Str -> Str.
  Variable oom : nat -> bool.
  Notation tags_state := (tags_state Str).

  Definition intact (l : list (Str * Str)) : Prop := forall k v, In (k, v) l -> store k = k /\ store v = v.
  (** an allocation failed between the two states *)
  Definition hit (s s' : tags_state) : Prop := exists n, clock s <= n < clock s' /\ oom n = true.
  Lemma hit_trans_l s s1 s2 : hit s s1 -> clock s1 <= clock s2 -> hit s s2.
  Proof. intros (n & H & O) L. exists n. split; [lia|exact O]. Qed.
  Lemma hit_trans_r s s1 s2 : hit s1 s2 -> clock s <= clock s1 -> hit s s2.
  Proof. intros (n & H & O) L. exists n. split; [lia|exact O]. Qed.

  Lemma map_tag_extends s s' is (l : list (Str * Str)) : good s -> good s' -> extends s s' -> map (tag s) is = map Some l -> map (tag s') is = map Some l.
  Proof.
    intros G G' X E. rewrite <- E. apply map_ext_in. intros i Hi.
    assert (In (tag s i) (map Some l)) by (rewrite <- E; apply in_map; exact Hi). apply in_map_iff in H as (t & H & _). rewrite <- H.
    apply (extends_tag s s'); auto.
  Qed.
  Lemma extends_clock (s s' : tags_state) : extends s s' -> clock s <= clock s'.
  Proof. intros H. apply H. Qed.
  Lemma extends_final (s s' : tags_state) : extends s s' -> finalized s' = finalized s.
  Proof. intros H. apply H. Qed.
  Lemma extends_tick (s : tags_state) : extends s (tick s).
  Proof. unfold extends. cbn. repeat split; try (exists []; rewrite app_nil_r; reflexivity); lia. Qed.
  Lemma good_tick (s : tags_state) : good s -> good (tick s).
  Proof. intros [G1 G2 G3 G4]. constructor; assumption. Qed.

  Lemma ids_of_spec l : forall s, good s -> intact l -> finalized s = false ->
    (exists is s', ids_of oom seqb store l s = Ok (is, s') /\ good s' /\ extends s s' /\ mapping s' = mapping s /\ map (tag s') is = map Some l) \/
    (exists s', ids_of oom seqb store l s = Throw ([], s') /\ good s' /\ extends s s' /\ mapping s' = mapping s /\ hit s s').
  Proof.
    induction l as [|[k v] l IH]; intros s G I F; cbn [ids_of].
    - left. exists [], s. repeat (split; [auto using extends_refl|]). reflexivity.
    - destruct (I k v (or_introl eq_refl)) as [Sk Sv]. assert (I' : intact l) by (intros a b H; apply I; right; exact H).
      unfold id. rewrite F. cbn [andb].
      destruct (id_once_spec seqb OK store oom k v s G Sk Sv) as [(i & s1 & -> & G1 & X1 & T & M & _)|(s1 & -> & G1 & X1 & _ & M & n & Hn & On)].
      + assert (F1 : finalized s1 = false) by (rewrite (extends_final _ _ X1); exact F).
        destruct (IH s1 G1 I' F1) as [(is & s2 & -> & G2 & X2 & M2 & E)|(s2 & -> & G2 & X2 & M2 & Q)].
        * left. exists (i :: is), s2. split; [reflexivity|]. split; [exact G2|]. split; [eapply extends_trans; eassumption|]. split; [congruence|].
          cbn [map]. rewrite E, (extends_tag s1 s2 i _ G1 G2 X2 T). reflexivity.
        * right. exists s2. split; [reflexivity|]. split; [exact G2|]. split; [eapply extends_trans; eassumption|]. split; [congruence|].
          eapply hit_trans_r; [exact Q|apply extends_clock; exact X1].
      + right. exists s1. split; [reflexivity|]. split; [exact G1|]. split; [exact X1|]. split; [exact M|]. exists n. auto.
  Qed.
  Lemma mk_tags_once_spec l s : good s -> intact l -> finalized s = false ->
    (exists is s', mk_tags_once oom seqb store l s = Ok (is, s') /\ good s' /\ extends s s' /\ mapping s' = mapping s /\ map (tag s') is = map Some l) \/
    (exists s', mk_tags_once oom seqb store l s = Throw ([], s') /\ good s' /\ extends s s' /\ mapping s' = mapping s /\ hit s s').
  Proof.
    intros G I F. unfold mk_tags_once. destruct (oom (clock s)) eqn:O.
    - right. exists (tick s). split; [reflexivity|]. split; [apply good_tick; exact G|]. split; [apply extends_tick|]. split; [reflexivity|].
      exists (clock s). cbn. split; [lia|exact O].
    - destruct (ids_of_spec l (tick s) (good_tick _ G) I F) as [(is & s' & E & G' & X & M & T)|(s' & E & G' & X & M & Q)]; rewrite E.
      + left. exists is, s'. split; [reflexivity|]. split; [exact G'|]. split; [eapply extends_trans; [apply extends_tick|exact X]|]. auto.
      + right. exists s'. split; [reflexivity|]. split; [exact G'|]. split; [eapply extends_trans; [apply extends_tick|exact X]|]. split; [exact M|].
        eapply hit_trans_r; [exact Q|cbn; lia].
  Qed.
  Lemma mk_tags_spec mm l s : good s -> intact l -> finalized s = false ->
    (exists is s', mk_tags oom seqb store mm l s = Ok (is, s') /\ good s' /\ extends s s' /\ map (tag s') is = map Some l
       /\ (mapping s' = mapping s \/ (mm = true /\ hit s s'))) \/
    (exists s', mk_tags oom seqb store mm l s = Throw ([], s') /\ good s' /\ extends s s' /\ hit s s' /\ (mm = false -> mapping s' = mapping s)).
  Proof.
    intros G I F. unfold mk_tags. destruct mm.
    - unfold retry_alloc. destruct (mk_tags_once_spec l s G I F) as [(is & s' & E & G' & X & M & T)|(s' & E & G' & X & M & Q)]; rewrite E.
      + left. exists is, s'. auto 8.
      + assert (Xg : extends s (grow s')) by (eapply extends_trans; [exact X|apply extends_grow]).
        assert (Fg : finalized (grow s') = false) by (rewrite (extends_final _ _ Xg); exact F).
        destruct (mk_tags_once_spec l (grow s') (good_grow _ G') I Fg) as [(is & s2 & E2 & G2 & X2 & M2 & T2)|(s2 & E2 & G2 & X2 & M2 & Q2)]; rewrite E2.
        * left. exists is, s2. split; [reflexivity|]. split; [exact G2|]. split; [eapply extends_trans; eassumption|]. split; [exact T2|]. right. split; [reflexivity|].
          eapply hit_trans_l; [exact Q|]. apply extends_clock in X2. exact X2.
        * right. exists (grow s2). split; [reflexivity|]. split; [apply good_grow; exact G2|].
          split; [eapply extends_trans; [exact Xg|]; eapply extends_trans; [exact X2|apply extends_grow]|]. split; [|discriminate].
          eapply hit_trans_l; [exact Q|]. apply extends_clock in X2. exact X2.
    - destruct (mk_tags_once_spec l s G I F) as [(is & s' & E & G' & X & M & T)|(s' & E & G' & X & M & Q)]; rewrite E.
      + left. exists is, s'. auto 8.
      + right. exists s'. auto 8.
  Qed.

  (** C28: a list of tags is interned completely and in order, or an exception is raised and every id keeps its meaning *)
  Theorem C28_tag_list cs is0 s mm l : storable store cs -> history seqb store cs empty_tags = Some (is0, s) -> intact l -> finalized s = false ->
    (exists is s', mk_tags oom seqb store mm l s = Ok (is, s') /\ map (tag s') is = map Some l
       /\ (forall j t, tag s j = Some t -> tag s' j = Some t)) \/
    (exists s', mk_tags oom seqb store mm l s = Throw ([], s') /\ (exists n, clock s <= n /\ oom n = true)
       /\ (forall j t, tag s j = Some t -> tag s' j = Some t)).
  Proof.
    intros St H I F. destruct (history_ok seqb store OK cs empty_tags good_empty St) as (is' & s0 & H' & _ & G & _ & _).
    rewrite H in H'. injection H' as <- <-.
    destruct (mk_tags_spec mm l s G I F) as [(is & s' & E & G' & X & T & _)|(s' & E & G' & X & (n & Hn & On) & _)].
    - left. exists is, s'. split; [exact E|]. split; [exact T|]. intros j t Hj. apply (extends_tag s s'); auto.
    - right. exists s'. split; [exact E|]. split; [exists n; split; [lia|exact On]|]. intros j t Hj. apply (extends_tag s s'); auto.
  Qed.

  (** what a finished copy looks like *)
  Definition copied (n : nat) (l : list (Str * Str)) (s s' : tags_state) : Prop :=
    (forall j t, tag s j = Some t -> tag s' j = Some t)
    /\ (forall m, m <> n -> node_tags s' m = node_tags s m) /\ (forall e, edge_tags s' e = edge_tags s e)
    /\ (find_key Nat.eqb n (nodes s) = None -> map (tag s') (node_tags s' n) = map Some l)
    /\ (forall is, find_key Nat.eqb n (nodes s) = Some is -> node_tags s' n = is).
  Definition untouched (s s' : tags_state) : Prop :=
    (forall j t, tag s j = Some t -> tag s' j = Some t) /\ nodes s' = nodes s /\ edges s' = edges s.

  Lemma clone_node_once_spec mm n l s : good s -> intact l -> finalized s = false ->
    match clone_node_once oom seqb store mm n l s with
    | Ok (_, s') => copied n l s s' /\ (mm = false -> mapping s' = mapping s)
    | Throw (_, s') => good s' /\ extends s s' /\ hit s s' /\ (mm = false -> mapping s' = mapping s)
    | UB => mm = true /\ l <> [] /\ exists k, clock s <= k /\ oom k = true
    | Fuel => False
    end.
  Proof.
    intros G I F. unfold clone_node_once. destruct l as [|kv l].
    - split; [|reflexivity]. split; [auto|]. split; [auto|]. split; [auto|]. unfold node_tags. split; [intros ->; reflexivity|intros is ->; reflexivity].
    - destruct (mk_tags_spec mm (kv :: l) s G I F) as [(is & s' & -> & G' & X & T & M)|(s' & -> & G' & X & Q & M)]; [|split; [exact G'|auto]].
      destruct (mapping s' =? mapping s) eqn:Em.
      + apply Nat.eqb_eq in Em. destruct (oom (clock s')) eqn:O.
        * split; [apply good_tick; exact G'|]. split; [eapply extends_trans; [exact X|apply extends_tick]|]. split; [|auto].
          exists (clock s'). apply extends_clock in X. cbn. split; [lia|exact O].
        * split; [|cbn; auto]. assert (Ns : nodes s' = nodes s) by apply X.
          assert (Kn : forall m, node_tags (tick (set_nodes (emplace Nat.eqb n is (nodes s')) s')) m
                       = match find_key Nat.eqb m (nodes s) with Some t => t | None => if m =? n then is else [] end).
          { intros m. unfold node_tags. cbn [nodes tick set_nodes]. rewrite find_key_emplace, Ns. destruct (find_key Nat.eqb m (nodes s)); [reflexivity|].
            destruct (m =? n); reflexivity. }
          split; [intros j t Hj; change (tag s' j = Some t); apply (extends_tag s s'); auto|].
          split; [intros m Hm; rewrite Kn; apply Nat.eqb_neq in Hm; rewrite Hm; unfold node_tags; destruct (find_key Nat.eqb m (nodes s)); reflexivity|].
          split; [intros e; unfold edge_tags; cbn [edges tick set_nodes]; replace (edges s') with (edges s) by (symmetry; apply X); reflexivity|].
          split; [intros Nf; rewrite Kn, Nf, Nat.eqb_refl; exact T|]. intros is' Hf. rewrite Kn, Hf. reflexivity.
      + apply Nat.eqb_neq in Em. destruct M as [M|[-> (k & Hk & Ok)]]; [congruence|]. split; [reflexivity|]. split; [discriminate|]. exists k. split; [lia|exact Ok].
  Qed.

  (** C28: copying the tags of a node.  It gets all tags in order, or an exception is raised, an allocation has failed, and
      the lists and the meaning of all ids are as before; in memory nothing is re-mapped.  Only on a mapped file, and only after a
      failed allocation, is undefined behaviour possible. *)
  Theorem C28_clone_node cs is0 s mm n l : storable store cs -> history seqb store cs empty_tags = Some (is0, s) -> intact l -> finalized s = false ->
    match clone_node_tags oom seqb store mm n l s with
    | Ok (_, s') => copied n l s s' /\ (mm = false -> mapping s' = mapping s)
    | Throw (_, s') => untouched s s' /\ (exists k, clock s <= k /\ oom k = true) /\ (mm = false -> mapping s' = mapping s)
    | UB => mm = true /\ l <> [] /\ exists k, clock s <= k /\ oom k = true
    | Fuel => False
    end.
  Proof.
    intros St H I F. destruct (history_ok seqb store OK cs empty_tags good_empty St) as (is' & s0 & H' & _ & G & _ & _).
    rewrite H in H'. injection H' as <- <-.
    assert (U : forall s', good s' -> extends s s' -> untouched s s').
    { intros s' G' X. split; [intros j t Hj; apply (extends_tag s s'); auto|]. split; apply X. }
    unfold clone_node_tags. destruct mm; pose proof (clone_node_once_spec true n l s G I F) as C1; pose proof (clone_node_once_spec false n l s G I F) as C2.
    - clear C2. unfold retry_alloc. destruct (clone_node_once oom seqb store true n l s) as [[u s1]|[u s1]| |]; try exact C1.
      destruct C1 as (G1 & X1 & Q1 & _).
      assert (Xg : extends s (grow s1)) by (eapply extends_trans; [exact X1|apply extends_grow]).
      assert (Fg : finalized (grow s1) = false) by (rewrite (extends_final _ _ Xg); exact F).
      assert (Hk : exists k, clock s <= k /\ oom k = true) by (destruct Q1 as (k & Hk & Ok); exists k; split; [lia|exact Ok]).
      pose proof (clone_node_once_spec true n l (grow s1) (good_grow _ G1) I Fg) as C2.
      destruct (clone_node_once oom seqb store true n l (grow s1)) as [[u2 s2]|[u2 s2]| |].
      + destruct C2 as [(D1 & D2 & D3 & D4 & D5) _]. split; [|discriminate].
        assert (Ns : nodes (grow s1) = nodes s) by apply Xg. assert (Es : edges (grow s1) = edges s) by apply Xg.
        split; [intros j t Hj; apply D1; apply (extends_tag s (grow s1)); auto using good_grow|].
        unfold node_tags, edge_tags in *. rewrite Ns in *. rewrite Es in *. auto.
      + destruct C2 as (G2 & X2 & _ & _). split; [apply U; [apply good_grow; exact G2|]|].
        * eapply extends_trans; [exact Xg|]. eapply extends_trans; [exact X2|apply extends_grow].
        * split; [exact Hk|discriminate].
      + destruct C2 as (_ & N & _). auto.
      + exact C2.
    - clear C1. destruct (clone_node_once oom seqb store false n l s) as [[u s1]|[u s1]| |]; try exact C2.
      destruct C2 as (G1 & X1 & (k & Hk & Ok) & M). split; [apply U; assumption|]. split; [exists k; split; [lia|exact Ok]|exact M].
  Qed.

  (** C28: on a mapped file a failed attempt is repaired if the second one is not hit *)
  Theorem C28_clone_recovers cs is0 s n l s1 : storable store cs -> history seqb store cs empty_tags = Some (is0, s) -> intact l -> finalized s = false ->
    clone_node_once oom seqb store true n l s = Throw (tt, s1) -> (forall k, clock s1 <= k -> oom k = false) ->
    exists s', clone_node_tags oom seqb store true n l s = Ok (tt, s') /\ copied n l s s'.
  Proof.
    intros St H I F E Q. pose proof (C28_clone_node cs is0 s true n l St H I F) as C.
    destruct (history_ok seqb store OK cs empty_tags good_empty St) as (is' & s0 & H' & _ & G & _ & _).
    rewrite H in H'. injection H' as <- <-.
    pose proof (clone_node_once_spec true n l s G I F) as C1. rewrite E in C1. destruct C1 as (G1 & X1 & _ & _).
    assert (Xg : extends s (grow s1)) by (eapply extends_trans; [exact X1|apply extends_grow]).
    assert (Fg : finalized (grow s1) = false) by (rewrite (extends_final _ _ Xg); exact F).
    pose proof (clone_node_once_spec true n l (grow s1) (good_grow _ G1) I Fg) as C2.
    unfold clone_node_tags, retry_alloc in *. rewrite E in *.
    destruct (clone_node_once oom seqb store true n l (grow s1)) as [[[] s2]|[[] s2]| |].
    - exists s2. split; [reflexivity|apply C].
    - destruct C2 as (_ & _ & (k & Hk & Ok) & _). rewrite Q in Ok by (cbn in Hk; lia). discriminate.
    - destruct C2 as (_ & _ & k & Hk & Ok). rewrite Q in Ok by exact Hk. discriminate.
    - destruct C2.
  Qed.
End Lists.

(** the insertion of the list fails once; the second attempt succeeds *)
Example C28_clone_case :
  let l := [([1], [2]); ([1], [3])] in
  intact c_str l /\ (exists s1, clone_node_once (Nat.eqb 11) leqb c_str true 5 l empty_tags = Throw (tt, s1) /\ clock s1 = 12) /\
  exists s, clone_node_tags (Nat.eqb 11) leqb c_str true 5 l empty_tags = Ok (tt, s) /\ node_tags s 5 = [0; 1] /\ mapping s = 1.
Proof. cbv zeta. split; [intros k v [[= <- <-]|[[= <- <-]|[]]]; split; reflexivity|]. split; eexists; vm_compute; repeat split. Qed.

Print Assumptions C28_tag_list.
Print Assumptions C28_clone_node.
Print Assumptions C28_clone_recovers.
