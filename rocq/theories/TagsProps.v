(** Properties C27 (tag dictionary) and C28 (allocation failures). *)
From Verif Require Import Base ListAux Tags TagsProofs.

Section Props.
  Context {Str : Type}.
  Variable seqb : Str -> Str -> bool.
  Variable store : Str -> Str.
  Notation tags_state := (tags_state Str).

  (** One call of [id]: the oracle of allocation failures during this call, the storage kind, the flag [retry], the
      tag. *)
  Record call : Type := mkCall { c_oom : nat -> bool; c_mmap : bool; c_retry : bool; c_key : Str; c_value : Str }.

  (** a history of calls; failed ones have no result; callers go on with the state the failed call left *)
  Fixpoint history (cs : list call) (s : tags_state) : option (list (option nat) * tags_state) :=
    match cs with
    | [] => Some ([], s)
    | c :: r =>
        match id (c_oom c) seqb store (c_mmap c) (c_retry c) (c_key c) (c_value c) s with
        | Ok (i, s1) | Throw (i, s1) =>
            match history r s1 with
            | Some (is, s2) => Some (i :: is, s2)
            | None => None
            end
        | UB | Fuel => None
        end
    end.

  (** the strings survive being stored (no embedded NUL) *)
  Definition storable (cs : list call) : Prop := forall c, In c cs -> store (c_key c) = c_key c /\ store (c_value c) = c_value c.

  Lemma history_ok (OK : forall a b, seqb a b = true <-> a = b) cs : forall s, good s -> storable cs ->
    exists is s', history cs s = Some (is, s') /\ length is = length cs /\ good s' /\ extends s s' /\
      forall c i, In (c, Some i) (combine cs is) -> tag s' i = Some (c_key c, c_value c).
  Proof.
    induction cs as [|c r IH]; intros s G St.
    - exists [], s. cbn. split; [reflexivity|]. split; [reflexivity|]. split; [exact G|]. split; [apply extends_refl|]. intros c i [].
    - destruct (St c (or_introl eq_refl)) as [Sk Sv]. assert (St' : storable r) by (intros c' H; apply St; right; exact H).
      cbn [history].
      destruct (id_spec seqb OK store (c_oom c) (c_mmap c) (c_retry c) (c_key c) (c_value c) s G Sk Sv)
        as [(i & s1 & E & G1 & X & T & _)|(s1 & E & G1 & X & T & _)]; rewrite E;
        destruct (IH s1 G1 St') as (is & s2 & H & L & G2 & X2 & R); rewrite H.
      + exists (Some i :: is), s2. cbn [length combine]. split; [reflexivity|]. split; [lia|]. split; [exact G2|].
        split; [eapply extends_trans; eassumption|].
        intros c' i' [[= <- <-]|Hin]; [|apply R; exact Hin]. exact (extends_tag s1 s2 i _ G1 G2 X2 T).
      + exists (None :: is), s2. cbn [length combine]. split; [reflexivity|]. split; [lia|]. split; [exact G2|].
        split; [eapply extends_trans; eassumption|].
        intros c' i' [[=]|Hin]. apply R; exact Hin.
  Qed.

  (** C27.  After any history of calls (any of them may have failed), every id handed out still denotes the tag it was
      handed out for, and two ids handed out are equal exactly if the tags are equal. *)
  Theorem C27_dictionary (OK : forall a b, seqb a b = true <-> a = b) cs : storable cs ->
    exists is s', history cs empty_tags = Some (is, s') /\ length is = length cs /\
      (forall c i, In (c, Some i) (combine cs is) -> tag s' i = Some (c_key c, c_value c)) /\
      (forall c1 i1 c2 i2, In (c1, Some i1) (combine cs is) -> In (c2, Some i2) (combine cs is) ->
         (i1 = i2 <-> c_key c1 = c_key c2 /\ c_value c1 = c_value c2)).
  Proof.
    intros St. destruct (history_ok OK cs empty_tags good_empty St) as (is & s' & H & L & G & X & R).
    exists is, s'. split; [exact H|]. split; [exact L|]. split; [exact R|].
    intros c1 i1 c2 i2 H1 H2. apply R in H1, H2. split.
    - intros <-. rewrite H1 in H2. injection H2 as E1 E2. split; assumption.
    - intros [E1 E2]. eapply tag_inj; [exact G|exact H1|]. rewrite E1, E2. exact H2.
  Qed.

  (** C27: calls that can allocate always get an id. *)
  Theorem C27_total (OK : forall a b, seqb a b = true <-> a = b) mm re k v s : good s -> store k = k -> store v = v ->
    finalized s = false -> exists i s', id (fun _ => false) seqb store mm re k v s = Ok (Some i, s') /\ tag s' i = Some (k, v).
  Proof.
    intros G Sk Sv Fi. destruct (id_spec seqb OK store (fun _ => false) mm re k v s G Sk Sv)
      as [(i & s' & E & _ & _ & T & _)|(s' & _ & _ & _ & _ & [H|(n & _ & H)])]; [|congruence|discriminate].
    exists i, s'. split; assumption.
  Qed.

  (** C28.  Starting from the state reached by any history, one further call under any pattern of allocation failures
      either returns an id that denotes its tag, without touching any other id, or fails and then exactly the same ids
      denote exactly the same tags as before. *)
  Theorem C28_crash_consistent (OK : forall a b, seqb a b = true <-> a = b) cs is s oom mm re k v :
    storable cs -> history cs empty_tags = Some (is, s) -> store k = k -> store v = v ->
    (exists i s', id oom seqb store mm re k v s = Ok (Some i, s') /\ tag s' i = Some (k, v) /\
       (forall j, j <> i -> tag s' j = tag s j) /\ (forall t, tag s i = Some t -> t = (k, v))) \/
    (exists s', id oom seqb store mm re k v s = Throw (None, s') /\ (forall j, tag s' j = tag s j)).
  Proof.
    intros St H Sk Sv. destruct (history_ok OK cs empty_tags good_empty St) as (is' & s' & H' & _ & G & _ & _).
    rewrite H in H'. injection H' as <- <-.
    destruct (id_spec seqb OK store oom mm re k v s G Sk Sv) as [(i & s' & E & G1 & X & T & O)|(s' & E & G1 & X & T & _)].
    - left. exists i, s'. split; [exact E|]. split; [exact T|]. split; [exact O|].
      intros t Ht. assert (Q := extends_tag s s' i t G G1 X Ht). congruence.
    - right. exists s'. split; [exact E|]. intros j. apply same_tags; assumption.
  Qed.

  (** C28: on a mapped file one failing attempt is repaired: if the attempt after growing is not hit again, the call
      returns a correct id.  [n0] is the number of allocation points up to the failure. *)
  Theorem C28_retry_recovers (OK : forall a b, seqb a b = true <-> a = b) cs is s oom k v :
    storable cs -> history cs empty_tags = Some (is, s) -> store k = k -> store v = v -> finalized s = false ->
    (forall s1, id_once oom seqb store k v s = Throw (None, s1) -> forall n, clock s1 <= n -> oom n = false) ->
    exists i s', id oom seqb store true true k v s = Ok (Some i, s') /\ tag s' i = Some (k, v) /\
      (forall j, j <> i -> tag s' j = tag s j).
  Proof.
    intros St H Sk Sv Fi N. destruct (history_ok OK cs empty_tags good_empty St) as (is' & s' & H' & _ & G & _ & _).
    rewrite H in H'. injection H' as <- <-.
    unfold id. rewrite Fi. cbn [andb]. unfold retry_alloc.
    destruct (id_once_spec seqb OK store oom k v s G Sk Sv) as [(i & s1 & E & G1 & X & T & _ & O)|(s1 & E & G1 & X & T & _ & _)].
    - rewrite E. exists i, s1. split; [reflexivity|]. split; assumption.
    - rewrite E. destruct (id_once_spec seqb OK store oom k v (grow s1) (good_grow _ G1) Sk Sv)
        as [(i & s2 & E2 & G2 & X2 & T2 & _ & O2)|(s2 & E2 & _ & _ & _ & _ & n & Hn & On)].
      + rewrite E2. exists i, s2. split; [reflexivity|]. split; [exact T2|].
        intros j Hj. rewrite (O2 j Hj). transitivity (tag s1 j); [reflexivity|]. apply same_tags; assumption.
      + exfalso. rewrite (N s1 E n) in On by (cbn in Hn; lia). discriminate.
  Qed.
End Props.

(** Concrete strings: lists of character codes, [store] cuts at the first NUL. *)
Fixpoint leqb (a b : list nat) : bool :=
  match a, b with
  | [], [] => true
  | x :: a', y :: b' => (x =? y) && leqb a' b'
  | _, _ => false
  end.
Lemma leqb_ok a b : leqb a b = true <-> a = b.
Proof.
  revert b. induction a as [|x a IH]; intros [|y b]; cbn; try (split; [discriminate|discriminate]); [tauto|].
  rewrite andb_true_iff, Nat.eqb_eq, IH. split; [intros [-> ->]; reflexivity|intros [= -> ->]; auto].
Qed.
Fixpoint c_str (l : list nat) : list nat :=
  match l with
  | [] => []
  | 0 :: _ => []
  | c :: r => c :: c_str r
  end.

Definition quiet : nat -> bool := fun _ => false.
Definition ask (oom : nat -> bool) k v := mkCall (Str := list nat) oom true true k v.
(** four calls; the third fails twice (both attempts hit a failing allocation), the others succeed, one after a retry *)
Example C27_case : exists s,
  history leqb c_str [ask quiet [1; 2] [3]; ask (Nat.eqb 6) [1; 2] [4]; ask (fun _ => true) [5] [6]; ask quiet [1; 2] [3]; ask quiet [5] [6]]
    empty_tags = Some ([Some 0; Some 1; None; Some 0; Some 2], s) /\ tag s 2 = Some ([5], [6]).
Proof. eexists. split; vm_compute; reflexivity. Qed.
Example C27_case_storable : storable c_str [ask quiet [1; 2] [3]; ask (Nat.eqb 6) [1; 2] [4]; ask (fun _ => true) [5] [6]].
Proof. intros c [<-|[<-|[<-|[]]]]; split; reflexivity. Qed.

(** C27 fails for strings with an embedded NUL: the id of a later, ordinary tag denotes another tag. *)
Theorem C27_embedded_nul_refuted : exists cs is s i c,
  history leqb c_str cs empty_tags = Some (is, s) /\ In (c, Some i) (combine cs is) /\
  c_str (c_key c) = c_key c /\ c_str (c_value c) = c_value c /\ tag s i <> Some (c_key c, c_value c).
Proof.
  exists [ask quiet [1] [9]; ask quiet [1; 0; 1] [9]; ask quiet [2] [9]].
  eexists. eexists. exists 1, (ask quiet [2] [9]).
  split; [vm_compute; reflexivity|]. split; [right; right; left; reflexivity|]. split; [reflexivity|]. split; [reflexivity|].
  vm_compute. discriminate.
Qed.

(** C28 fails for the tag lists of nodes and edges on a mapped file: if copying the tags has to grow the file, the
    reference to the map taken before is dangling. *)
Theorem C28_clone_growth_refuted : exists oom (n : nat) l,
  clone_node_tags oom leqb c_str true n l empty_tags = UB /\
  (exists s, clone_node_tags quiet leqb c_str true n l empty_tags = Ok (tt, s) /\ node_tags s n = [0]).
Proof.
  exists (Nat.eqb 0), 5, [([1], [2])]. split; [vm_compute; reflexivity|]. eexists. split; vm_compute; reflexivity.
Qed.

(** C51.  Merging the tags of an edge into another: nothing is lost or invented, the order of the present tags is kept,
    a tag present in both is not repeated, and no other edge changes. *)
Lemma find_key_map_upd (f : nat -> list nat -> list nat) m e : 
  find_key Nat.eqb e (map (fun p : nat * list nat => (fst p, f (fst p) (snd p))) m) =
  match find_key Nat.eqb e m with Some t => Some (f e t) | None => None end.
Proof.
  induction m as [|[k t] r IH]; cbn; [reflexivity|]. destruct (e =? k) eqn:E; [|exact IH].
  apply Nat.eqb_eq in E. subst. reflexivity.
Qed.

Lemma find_key_emplace (e x : nat) (l : list nat) m :
  find_key Nat.eqb x (emplace Nat.eqb e l m) =
  match find_key Nat.eqb x m with Some t => Some t | None => if x =? e then Some l else None end.
Proof.
  unfold emplace. destruct (find_key Nat.eqb e m) as [t|] eqn:E.
  - destruct (find_key Nat.eqb x m) eqn:F; [reflexivity|]. destruct (x =? e) eqn:Q; [|reflexivity].
    apply Nat.eqb_eq in Q. subst. congruence.
  - clear E. induction m as [|[k t] r IH]; cbn; [reflexivity|]. destruct (x =? k); [reflexivity|exact IH].
Qed.

Theorem C51_merge_edge_tags {Str} (s : tags_state Str) e o :
  let s' := merge_edge_tags e o s in
  (exists l, edge_tags s' e = edge_tags s e ++ l /\
     (e <> o -> forall t, In t l <-> In t (edge_tags s o) /\ ~ In t (edge_tags s e)) /\
     (NoDup (edge_tags s e) -> NoDup (edge_tags s o) -> NoDup (edge_tags s' e))) /\
  (forall t, In t (edge_tags s' e) <-> In t (edge_tags s e) \/ In t (edge_tags s o)) /\
  (forall x, x <> e -> edge_tags s' x = edge_tags s x) /\
  (forall n, node_tags s' n = node_tags s n).
Proof.
  cbn zeta. unfold merge_edge_tags. destruct (e =? o) eqn:Eo.
  { apply Nat.eqb_eq in Eo. subst o. split; [exists []; rewrite app_nil_r; split; [reflexivity|split; [congruence|auto]]|].
    split; [tauto|]. split; reflexivity. }
  apply Nat.eqb_neq in Eo.
  destruct (find_key Nat.eqb o (edges s)) as [ot|] eqn:Fo.
  2:{ assert (Z : edge_tags s o = []) by (unfold edge_tags; rewrite Fo; reflexivity).
      rewrite Z. split; [exists []; rewrite app_nil_r; split; [reflexivity|split; [|auto]]|].
      - intros _ t. cbn. tauto.
      - split; [intros t; cbn; tauto|]. split; reflexivity. }
  assert (Zo : edge_tags s o = ot) by (unfold edge_tags; rewrite Fo; reflexivity).
  assert (F : forall l t, In t (filter (fun t => negb (existsb (Nat.eqb t) l)) ot) <-> In t ot /\ ~ In t l).
  { intros l t. rewrite filter_In. split.
    - intros [H Q]. split; [exact H|]. intros Hl. rewrite (proj2 (existsb_exists _ _)) in Q; [discriminate|].
      exists t. split; [exact Hl|apply Nat.eqb_refl].
    - intros [H Q]. split; [exact H|]. destruct (existsb (Nat.eqb t) l) eqn:X; [|reflexivity].
      apply existsb_exists in X. destruct X as (u & Hu & X). apply Nat.eqb_eq in X. subst. tauto. }
  destruct (find_key Nat.eqb e (edges s)) as [te|] eqn:Fe.
  - assert (Ze : edge_tags s e = te) by (unfold edge_tags; rewrite Fe; reflexivity).
    assert (K : forall x, edge_tags (set_edges (map (fun p => if fst p =? e then (fst p, merge_lists (snd p) ot) else p) (edges s)) s) x
                = if x =? e then merge_lists te ot else edge_tags s x).
    { intros x. unfold edge_tags at 1. cbn [edges set_edges].
      rewrite (map_ext _ (fun p : nat * list nat => (fst p, (fun k t => if k =? e then merge_lists t ot else t) (fst p) (snd p)))).
      2:{ intros [k t]. cbn. destruct (k =? e); reflexivity. }
      rewrite (find_key_map_upd (fun k t => if k =? e then merge_lists t ot else t)).
      destruct (x =? e) eqn:X.
      - apply Nat.eqb_eq in X. subst x. rewrite Fe. reflexivity.
      - unfold edge_tags. destruct (find_key Nat.eqb x (edges s)); reflexivity. }
    rewrite !K, Nat.eqb_refl, Zo, Ze. unfold merge_lists. split; [|split; [|split]].
    + eexists. split; [reflexivity|]. split; [intros _; apply F|]. intros N1 N2. apply NoDup_app'; [exact N1|apply NoDup_filter; exact N2|].
      intros t H1 H2. apply F in H2. tauto.
    + intros t. rewrite in_app_iff, F. destruct (in_dec Nat.eq_dec t te); tauto.
    + intros x Hx. rewrite K. apply Nat.eqb_neq in Hx. rewrite Hx. reflexivity.
    + reflexivity.
  - assert (Ze : edge_tags s e = []) by (unfold edge_tags; rewrite Fe; reflexivity).
    assert (K : forall x, edge_tags (set_edges (emplace Nat.eqb e ot (edges s)) s) x = if x =? e then ot else edge_tags s x).
    { intros x. unfold edge_tags at 1. cbn [edges set_edges]. rewrite find_key_emplace. unfold edge_tags.
      destruct (x =? e) eqn:X; [apply Nat.eqb_eq in X; subst x; rewrite Fe; reflexivity|].
      destruct (find_key Nat.eqb x (edges s)); reflexivity. }
    rewrite !K, Nat.eqb_refl, Zo, Ze. split; [|split; [|split]].
    + exists ot. split; [reflexivity|]. split; [intros _ t; cbn; tauto|]. auto.
    + intros t. cbn. tauto.
    + intros x Hx. rewrite K. apply Nat.eqb_neq in Hx. rewrite Hx. reflexivity.
    + reflexivity.
Qed.

Example C51_case : let s := set_edge_tags 1 [3; 4] (set_edge_tags 2 [4; 5] (empty_tags (Str := nat))) in
  edge_tags (merge_edge_tags 1 2 s) 1 = [3; 4; 5] /\ edge_tags (merge_edge_tags 1 2 s) 2 = [4; 5] /\
  edge_tags (merge_edge_tags 7 2 s) 7 = [4; 5].
Proof. repeat split. Qed.

Print Assumptions C27_dictionary.
Print Assumptions C27_total.
Print Assumptions C27_embedded_nul_refuted.
Print Assumptions C28_crash_consistent.
Print Assumptions C28_retry_recovers.
Print Assumptions C28_clone_growth_refuted.
Print Assumptions C51_merge_edge_tags.
