(** C73: the spatial indices of a network hold exactly its nodes and segments, and what the lookups find. *)
From Coq Require Import Sorting.
From Verif Require Import Base ListAux AdjList Csr SpatialIndex.

Section SpatialIndexProps.
  Context {P : Type}.
  Local Notation csr := (@csr (nat * P) (nat * list P)).
  Local Notation pvalue := (P * nat)%type.
  Local Notation svalue := ((P * P) * (nat * nat))%type.
  Local Notation indices := (@indices P).

  (** the node [v] of the network is at the point [p] *)
  Definition node_at (c : csr) (v : nat) (p : P) : Prop := exists start id, nth_error (c_vs c) v = Some (start, (id, p)).
  (** the [i]th segment of the edge [e] goes from [p] to [q] *)
  Definition segment_at (c : csr) (e i : nat) (p q : P) : Prop :=
    exists src tgt id line, nth_error (c_es c) e = Some (src, tgt, (id, line)) /\ nth_error line i = Some p /\ nth_error line (S i) = Some q.

  (** number of times the memory did not suffice *)
  Definition refusals (l : list bool) : nat := count_occ bool_dec l false.
  Definition contents (s : indices) := (b_points s, b_segs s, i_points s, i_segs s).

  (** [f] either does what [G] says, or fails after at least [m] refusals *)
  Definition spec (m : nat) (f : indices -> outcome indices) (G : indices -> indices -> Prop) : Prop :=
    forall s, match f s with
              | Ok s1 => G s s1 /\ refusals (answers s1) <= refusals (answers s)
              | Throw s1 => refusals (answers s1) + m <= refusals (answers s)
              | _ => False
              end.

  Lemma ask_spec s : match ask s with
    | (true, s1) => contents s1 = contents s /\ refusals (answers s1) <= refusals (answers s)
    | (false, s1) => contents s1 = contents s /\ refusals (answers s1) + 1 <= refusals (answers s) end.
  Proof.
    unfold ask, refusals. destruct (answers s) as [|[] r] eqn:E; cbn; rewrite ?E; cbn; split; try reflexivity; lia.
  Qed.

  (** one attempt: it works, or the contents are as before, once recovered *)
  Definition attempt (once : indices -> indices * bool) (recover : indices -> indices) (G : indices -> indices -> Prop) (I : indices -> Prop) : Prop :=
    forall s, I s -> match once s with
      | (s1, true) => G s s1 /\ refusals (answers s1) <= refusals (answers s)
      | (s1, false) => contents (recover s1) = contents s /\ answers (recover s1) = answers s1 /\ refusals (answers s1) + 1 <= refusals (answers s)
      end.

  Lemma allocate_spec mmap once recover retries (G : indices -> indices -> Prop) (I : indices -> Prop) :
    (forall s s' s1, contents s = contents s' -> G s s1 -> G s' s1) -> (forall s s', contents s = contents s' -> I s -> I s') ->
    attempt once recover G I ->
    forall s, I s -> match allocate mmap once recover retries s with
              | Ok s1 => G s s1 /\ refusals (answers s1) <= refusals (answers s)
              | Throw s1 => refusals (answers s1) + (if mmap then S retries else 1) <= refusals (answers s)
              | _ => False
              end.
  Proof.
    intros HG HI A s Is. unfold allocate. destruct mmap.
    - revert s Is. induction retries as [|r IH]; intros s Is; cbn [retry_alloc]; pose proof (A s Is) as B; destruct (once s) as [s1 []].
      + exact B.
      + destruct B as (C & E & R). rewrite E. lia.
      + exact B.
      + destruct B as (C & E & R). pose proof (IH (recover s1) (HI _ _ (eq_sym C) Is)) as D.
        destruct (retry_alloc once recover r (recover s1)) as [s2|s2| |]; try exact D; rewrite E in D.
        * destruct D as [D1 D2]. split; [apply (HG (recover s1)); [exact C|exact D1]|lia].
        * lia.
    - pose proof (A s Is) as B. destruct (once s) as [s1 []]; [exact B|]. lia.
  Qed.

  Lemma bind_spec m f g (G1 G2 G : indices -> indices -> Prop) : spec m f G1 -> spec m g G2 -> (forall s s1 s2, G1 s s1 -> G2 s1 s2 -> G s s2) ->
    spec m (fun s => bindO (f s) keep g) G.
  Proof.
    intros F H C s. pose proof (F s) as A. destruct (f s) as [s1|s1| |]; cbn [bindO]; try exact A.
    destruct A as [A1 A2]. pose proof (H s1) as B. destruct (g s1) as [s2|s2| |]; try exact B; [destruct B as [B1 B2]; split; [eapply C; eauto|lia]|lia].
  Qed.
  Lemma fold_spec {A} m (f : indices -> A -> outcome indices) (G : list A -> indices -> indices -> Prop) :
    (forall s, G [] s s) -> (forall x, spec m (fun s => f s x) (G [x])) -> (forall x l s s1 s2, G [x] s s1 -> G l s1 s2 -> G (x :: l) s s2) ->
    forall l, spec m (fun s => foldO f l s) (G l).
  Proof.
    intros Z X C. induction l as [|x l IH]; intros s; cbn [foldO]; [split; [apply Z|lia]|].
    exact (bind_spec m (fun s => f s x) (foldO f l) (G [x]) (G l) (G (x :: l)) (X x) IH (C x l) s).
  Qed.

  Definition least (bm : bool) : nat := if bm then 2 else 1.
  (** what the steps do to the contents *)
  Definition adds (ps : list pvalue) (ss : list svalue) (s s1 : indices) : Prop :=
    contents s1 = (b_points s ++ ps, b_segs s ++ ss, i_points s, i_segs s).

  Lemma adds_contents ps ss (s s' s1 : indices) : contents s = contents s' -> adds ps ss s s1 -> adds ps ss s' s1.
  Proof. unfold adds, contents. intros E A. injection E as E1 E2 E3 E4. now rewrite <- E1, <- E2, <- E3, <- E4. Qed.

  Lemma spec_weaken m m' f (G : indices -> indices -> Prop) : m' <= m -> spec m f G -> spec m' f G.
  Proof. intros L S s. pose proof (S s) as A. destruct (f s); try exact A. lia. Qed.

  Lemma reserve_spec bm r : (bm = true -> 1 <= r) -> spec (least bm) (reserve bm r) (adds [] []).
  Proof.
    intros R s. unfold reserve.
    pose proof (allocate_spec bm (fun s => let (a, s1) := ask s in (s1, a)) keep r (adds [] []) (fun _ => True)) as H.
    assert (A : attempt (fun s => let (a, s1) := ask s in (s1, a)) keep (adds [] []) (fun _ => True)).
    { intros x _. pose proof (ask_spec x) as A. destruct (ask x) as [[] x1]; cbn in *.
      - destruct A as [A B]. split; [|exact B]. unfold adds. rewrite A, !app_nil_r. reflexivity.
      - destruct A as [A B]. auto. }
    specialize (H (adds_contents [] []) (fun _ _ _ t => t) A s Logic.I).
    destruct (allocate bm _ keep r s) as [s1|s1| |]; try exact H. destruct bm; cbn in *; [specialize (R eq_refl)|]; lia.
  Qed.
  Lemma add_point_spec bm x : spec (least bm) (fun s => add_point bm s x) (adds [x] []).
  Proof.
    intros s. unfold add_point.
    match goal with |- context [allocate bm ?o keep 1 s] => set (once := o) end.
    assert (A : attempt once keep (adds [x] []) (fun _ => True)).
    { intros y _. unfold once. pose proof (ask_spec y) as A. destruct (ask y) as [[] y1]; cbn in *.
      - destruct A as [A B]. split; [|exact B]. unfold adds, contents in *. cbn. rewrite ?app_nil_r. injection A as A1 A2 A3 A4. now rewrite A1, A2, A3, A4.
      - destruct A as [A B]. auto. }
    pose proof (allocate_spec bm once keep 1 (adds [x] []) (fun _ => True) (adds_contents [x] []) (fun _ _ _ t => t) A s Logic.I) as H.
    destruct (allocate bm once keep 1 s) as [s1|s1| |]; exact H.
  Qed.
  Lemma add_segment_spec bm x : spec (least bm) (fun s => add_segment bm s x) (adds [] [x]).
  Proof.
    intros s. unfold add_segment.
    match goal with |- context [allocate bm ?o keep 1 s] => set (once := o) end.
    assert (A : attempt once keep (adds [] [x]) (fun _ => True)).
    { intros y _. unfold once. pose proof (ask_spec y) as A. destruct (ask y) as [[] y1]; cbn in *.
      - destruct A as [A B]. split; [|exact B]. unfold adds, contents in *. cbn. rewrite ?app_nil_r. injection A as A1 A2 A3 A4. now rewrite A1, A2, A3, A4.
      - destruct A as [A B]. auto. }
    pose proof (allocate_spec bm once keep 1 (adds [] [x]) (fun _ => True) (adds_contents [] [x]) (fun _ _ _ t => t) A s Logic.I) as H.
    destruct (allocate bm once keep 1 s) as [s1|s1| |]; exact H.
  Qed.
  Lemma adds_trans ps ss ps' ss' (s s1 s2 : indices) : adds ps ss s s1 -> adds ps' ss' s1 s2 -> adds (ps ++ ps') (ss ++ ss') s s2.
  Proof. unfold adds, contents. intros A B. injection A as A1 A2 A3 A4. rewrite A1, A2, A3, A4, <- !app_assoc in B. exact B. Qed.

  Definition points_of (c : csr) : list pvalue := map (fun v => (snd (snd (snd v)), fst v)) (numbered_from 0 (c_vs c)).
  Definition segs_of (c : csr) : list svalue :=
    flat_map (fun e => map (fun is => (snd is, (fst e, fst is))) (segments_from 0 (snd (snd (snd e))))) (numbered_from 0 (c_es c)).

  Lemma points_spec bm (l : list (nat * (nat * (nat * P)))) : spec (least bm) (fun s => foldO (fun s v => add_point bm s (snd (snd (snd v)), fst v)) l s)
    (adds (map (fun v => (snd (snd (snd v)), fst v)) l) []).
  Proof.
    apply (fold_spec (least bm) (fun s v => add_point bm s (snd (snd (snd v)), fst v)) (fun l => adds (map (fun v => (snd (snd (snd v)), fst v)) l) [])).
    - intros s. unfold adds. cbn. now rewrite !app_nil_r.
    - intros x. apply add_point_spec.
    - intros x l' s s1 s2 A B. exact (adds_trans [_] [] _ [] s s1 s2 A B).
  Qed.
  Lemma segs_spec bm (l : list (nat * (nat * nat * (nat * list P)))) : spec (least bm)
    (fun s => foldO (fun s e => foldO (fun s is => add_segment bm s (snd is, (fst e, fst is))) (segments_from 0 (snd (snd (snd e)))) s) l s)
    (adds [] (flat_map (fun e => map (fun is => (snd is, (fst e, fst is))) (segments_from 0 (snd (snd (snd e))))) l)).
  Proof.
    apply (fold_spec (least bm) (fun s e => foldO (fun s is => add_segment bm s (snd is, (fst e, fst is))) (segments_from 0 (snd (snd (snd e)))) s)
      (fun l => adds [] (flat_map (fun e => map (fun is => (snd is, (fst e, fst is))) (segments_from 0 (snd (snd (snd e))))) l))).
    - intros s. unfold adds. cbn. now rewrite !app_nil_r.
    - intros e. cbn [flat_map]. rewrite app_nil_r.
      apply (fold_spec (least bm) (fun s is => add_segment bm s (snd is, (fst e, fst is))) (fun l => adds [] (map (fun is => (snd is, (fst e, fst is))) l))).
      + intros s. unfold adds. cbn. now rewrite !app_nil_r.
      + intros x. apply add_segment_spec.
      + intros x l' s s1 s2 A B. exact (adds_trans [] [_] [] _ s s1 s2 A B).
    - intros x l' s s1 s2 A B. cbn [flat_map] in *. rewrite app_nil_r in A. exact (adds_trans [] _ [] _ s s1 s2 A B).
  Qed.

  Lemma build_once_spec : attempt build_once drop (fun s s1 => contents s1 = (b_points s, b_segs s, Some (b_points s), Some (b_segs s)))
    (fun s => i_points s = None /\ i_segs s = None).
  Proof.
    intros s [N1 N2]. unfold build_once. pose proof (ask_spec s) as A. destruct (ask s) as [[] s1].
    - destruct A as [A A']. unfold contents in A. injection A as A1 A2 A3 A4.
      pose proof (ask_spec (mkIx (b_points s1) (b_segs s1) (Some (b_points s1)) (i_segs s1) (answers s1))) as B.
      destruct (ask (mkIx (b_points s1) (b_segs s1) (Some (b_points s1)) (i_segs s1) (answers s1))) as [[] s3];
        destruct B as [B B']; unfold contents in B; cbn in B, B'; injection B as B1 B2 B3 B4.
      + cbn. unfold refusals in *. split; [|lia]. unfold contents. cbn. now rewrite B1, B2, B3, A1, A2.
      + cbn. unfold refusals in *. split; [|split; [reflexivity|lia]]. unfold contents. cbn. now rewrite B1, B2, A1, A2, N1, N2.
    - destruct A as [A A']. unfold contents in A. injection A as A1 A2 A3 A4. cbn. unfold refusals in *. split; [|split; [reflexivity|lia]].
      unfold contents. cbn. now rewrite A1, A2, N1, N2.
  Qed.

  Definition least2 (bm im : bool) : nat := if bm && im then 2 else 1.
  Lemma least2_l bm im : least2 bm im <= least bm. Proof. destruct bm, im; cbn; lia. Qed.

  Lemma build_ok bm im rp rs ri c ans : (bm = true -> 1 <= rp /\ 1 <= rs) -> (im = true -> 1 <= ri) ->
    match build_spatial_indices bm im rp rs ri c (fresh ans) with
    | Ok s => i_points s = Some (points_of c) /\ i_segs s = Some (segs_of c)
    | Throw _ => least2 bm im <= refusals ans
    | _ => False
    end.
  Proof.
    intros RB RI. unfold build_spatial_indices.
    set (f4 := fun s => build_indices im ri s).
    set (f3 := fun s => foldO (fun s e => foldO (fun s is => add_segment bm s (snd is, (fst e, fst is))) (segments_from 0 (snd (snd (snd e)))) s) (numbered_from 0 (c_es c)) s).
    pose proof (bind_spec (least bm) (reserve bm rs) f3 (adds [] []) (adds [] (segs_of c)) (adds [] (segs_of c))
      (reserve_spec bm rs (fun H => proj2 (RB H))) (segs_spec bm (numbered_from 0 (c_es c))) (fun s s1 s2 A B => adds_trans [] [] [] _ s s1 s2 A B)) as S3.
    pose proof (bind_spec (least bm) (fun s => foldO (fun s v => add_point bm s (snd (snd (snd v)), fst v)) (numbered_from 0 (c_vs c)) s) _ _ _
      (fun s s2 => adds (points_of c) (segs_of c) s s2) (points_spec bm (numbered_from 0 (c_vs c))) S3
      (fun s s1 s2 A B => eq_ind _ (fun l => adds l (segs_of c) s s2) (adds_trans _ [] [] _ s s1 s2 A B) _ (app_nil_r _))) as S2.
    pose proof (bind_spec (least bm) (reserve bm rp) _ (adds [] []) _ (fun s s2 => adds (points_of c) (segs_of c) s s2)
      (reserve_spec bm rp (fun H => proj1 (RB H))) S2 (fun s s1 s2 A B => adds_trans [] [] _ _ s s1 s2 A B)) as S1.
    specialize (S1 (fresh ans)). cbv beta in S1. unfold f3 in *. clear f3 S2 S3.
    (* the four steps before the last *)
    destruct (reserve bm rp (fresh ans)) as [s1|s1| |]; cbn [bindO] in *; try contradiction; [|unfold keep, fresh, refusals in *; cbn in *; pose proof (least2_l bm im); lia].
    destruct (foldO (fun s v => add_point bm s (snd (snd (snd v)), fst v)) (numbered_from 0 (c_vs c)) s1) as [s2|s2| |]; cbn [bindO] in *; try contradiction;
      [|unfold keep, fresh, refusals in *; cbn in *; pose proof (least2_l bm im); lia].
    destruct (reserve bm rs s2) as [s3|s3| |]; cbn [bindO] in *; try contradiction; [|unfold keep, fresh, refusals in *; cbn in *; pose proof (least2_l bm im); lia].
    match type of S1 with context [foldO ?F ?l s3] => destruct (foldO F l s3) as [s4|s4| |] end; cbn [bindO] in *; try contradiction;
      [|unfold keep, fresh, refusals in *; cbn in *; pose proof (least2_l bm im); lia].
    destruct S1 as [A R]. unfold adds, contents in A. cbn in A. injection A as A1 A2 A3 A4. unfold f4, build_indices.
    pose proof (allocate_spec im build_once drop ri (fun s s1 => contents s1 = (b_points s, b_segs s, Some (b_points s), Some (b_segs s)))
      (fun s => i_points s = None /\ i_segs s = None)) as B.
    specialize (B ltac:(intros s s' s5 E H; cbv beta in *; unfold contents in E; injection E as E1 E2 _ _; rewrite <- E1, <- E2; exact H)).
    specialize (B ltac:(intros s s' E H; cbv beta in *; unfold contents in E; injection E as _ _ E1 E2; rewrite <- E1, <- E2; exact H) build_once_spec s4 (conj A3 A4)).
    destruct (allocate im build_once drop ri s4) as [s5|s5| |]; try exact B.
    - destruct B as [B _]. unfold contents in B. injection B as _ _ B3 B4. rewrite B3, B4, A1, A2. auto.
    - cbn in R. unfold least2, refusals in *. destruct bm, im; cbn in *; try (specialize (RI eq_refl)); lia.
  Qed.

  Lemma in_numbered {A} (l : list A) k i x : In (i, x) (numbered_from k l) <-> exists j, i = k + j /\ nth_error l j = Some x.
  Proof.
    revert k. induction l as [|a l IH]; intros k; cbn.
    - split; [tauto|intros ([|] & _ & H); discriminate].
    - rewrite IH. split.
      + intros [E|(j & -> & E)]; [injection E as <- <-; exists 0; now rewrite Nat.add_0_r|exists (S j); split; [lia|exact E]].
      + intros ([|j] & -> & E); [left; cbn in E; injection E as ->; now rewrite Nat.add_0_r|right; exists j; split; [lia|exact E]].
  Qed.
  Lemma numbered_nodup {A} (l : list A) k : NoDup (map fst (numbered_from k l)).
  Proof.
    revert k. induction l as [|a l IH]; intros k; cbn; constructor; [|apply IH].
    intros H. apply in_map_iff in H as ([i x] & E & H). apply in_numbered in H as (j & -> & _). cbn in E. lia.
  Qed.
  Lemma in_segments (l : list P) : forall k i p q, In (i, (p, q)) (segments_from k l) <-> exists j, i = k + j /\ nth_error l j = Some p /\ nth_error l (S j) = Some q.
  Proof.
    induction l as [|a l IH]; intros k i p q; [cbn; split; [tauto|intros (j & _ & H & _); destruct j; discriminate]|].
    destruct l as [|b l]; [cbn; split; [tauto|intros (j & _ & _ & H); destruct j; discriminate]|].
    change (segments_from k (a :: b :: l)) with ((k, (a, b)) :: segments_from (S k) (b :: l)). cbn [In]. rewrite IH. split.
    - intros [E|(j & -> & E)]; [injection E as <- <- <-; exists 0; cbn; now rewrite Nat.add_0_r|exists (S j); split; [lia|exact E]].
    - intros ([|j] & -> & E1 & E2); [left; cbn in E1, E2; injection E1 as ->; injection E2 as ->; now rewrite Nat.add_0_r|
        right; exists j; split; [lia|split; [exact E1|exact E2]]].
  Qed.
  Lemma segments_nodup (l : list P) : forall k, NoDup (map fst (segments_from k l)).
  Proof.
    induction l as [|a l IH]; intros k; [constructor|]. destruct l as [|b l]; [constructor|].
    change (segments_from k (a :: b :: l)) with ((k, (a, b)) :: segments_from (S k) (b :: l)). cbn [map fst]. constructor; [|apply IH].
    intros H. apply in_map_iff in H as ([i [x y]] & E & H). apply in_segments in H as (j & -> & _). cbn in E. lia.
  Qed.
  Lemma in_points_of c p v : In (p, v) (points_of c) <-> node_at c v p.
  Proof.
    unfold points_of, node_at. rewrite in_map_iff. split.
    - intros ([i [st [id q]]] & E & H). cbn in E. injection E as -> ->. apply in_numbered in H as (j & -> & H). eauto.
    - intros (st & id & H). exists (v, (st, (id, p))). split; [reflexivity|]. apply in_numbered. now exists v.
  Qed.
  Lemma in_segs_of c p q e i : In ((p, q), (e, i)) (segs_of c) <-> segment_at c e i p q.
  Proof.
    unfold segs_of, segment_at. rewrite in_flat_map. split.
    - intros ([k [[src tgt] [id line]]] & H & X). cbn [fst snd] in X. apply in_map_iff in X as ([j [a b]] & E & X). cbn in E. injection E as -> -> -> ->.
      apply in_numbered in H as (k' & -> & H). apply in_segments in X as (j' & -> & X). cbn [Nat.add] in *. exists src, tgt, id, line. auto.
    - intros (src & tgt & id & line & H & X). exists (e, (src, tgt, (id, line))). split; [apply in_numbered; now exists e|].
      cbn [fst snd]. apply in_map_iff. exists (i, (p, q)). split; [reflexivity|]. apply in_segments. exists i. auto.
  Qed.
  Lemma segs_nodup c : NoDup (map snd (segs_of c)).
  Proof.
    unfold segs_of. pose proof (numbered_nodup (c_es c) 0) as N. induction (numbered_from 0 (c_es c)) as [|e l IH]; [constructor|].
    inversion_clear N as [|? ? H N']. cbn [flat_map]. rewrite map_app. apply NoDup_app'; [|apply IH, N'|].
    - rewrite map_map. cbn [snd]. pose proof (segments_nodup (snd (snd (snd e))) 0) as S. induction (segments_from 0 (snd (snd (snd e)))) as [|x m IHm]; cbn; [constructor|].
      cbn in S. inversion_clear S as [|? ? X S']. constructor; [|apply IHm, S']. intros Y. apply in_map_iff in Y as (y & E & Y). injection E as E.
      apply X. rewrite <- E. now apply in_map.
    - intros x X Y. rewrite map_map in X. apply in_map_iff in X as (y & <- & X). cbn [snd] in Y.
      apply in_map_iff in Y as ([[a b] [e' i']] & E & Y). cbn in E. injection E as -> ->. apply in_flat_map in Y as (f & F & Y).
      apply in_map_iff in Y as (z & E & _). injection E as _ E _. apply H. rewrite <- E. now apply in_map.
  Qed.

  (** Whatever the kinds of storage and however often memory does not suffice: when the building of the indices returns, the index of
      the points has every node of the network once, with its number, and the index of the segments every segment of every edge
      once, with the number of the edge and the position in its line; nothing else is in them.  It can only end in an exception after
      memory did not suffice, and after at least two refusals if all storages are in files, which are tried again at least once. *)
  Theorem C73_build : forall bm im rp rs ri c ans, (bm = true -> 1 <= rp /\ 1 <= rs) -> (im = true -> 1 <= ri) ->
    match build_spatial_indices bm im rp rs ri c (fresh ans) with
    | Ok s => exists points segs, i_points s = Some points /\ i_segs s = Some segs /\
        NoDup (map snd points) /\ (forall p v, In (p, v) points <-> node_at c v p) /\
        NoDup (map snd segs) /\ (forall p q e i, In ((p, q), (e, i)) segs <-> segment_at c e i p q)
    | Throw _ => In false ans /\ (bm = true -> im = true -> 2 <= refusals ans)
    | _ => False
    end.
  Proof.
    intros bm im rp rs ri c ans RB RI. pose proof (build_ok bm im rp rs ri c ans RB RI) as H.
    destruct (build_spatial_indices bm im rp rs ri c (fresh ans)) as [s|s| |]; try exact H.
    - destruct H as [H1 H2]. exists (points_of c), (segs_of c). split; [exact H1|split; [exact H2|split; [|split; [apply in_points_of|split; [apply segs_nodup|intros; apply in_segs_of]]]]].
      unfold points_of. rewrite map_map. apply numbered_nodup.
    - unfold refusals in *. split; [|intros -> ->; exact H]. apply (count_occ_In bool_dec). destruct bm, im; cbn in H; lia.
  Qed.

  (** *** Lookups *)
  (** a query returns the values that satisfy it, in some order *)
  Definition query_contract (query : (svalue -> bool) -> list svalue -> list svalue) : Prop := forall f l, Permutation (query f l) (filter f l).
  (** the [k] nearest values, all of them if there are fewer *)
  Context {D : Type}.
  Variable le : D -> D -> Prop.
  Definition nearest_contract {V} (dist : P -> V -> D) (nearest : P -> nat -> list V -> list V) : Prop := forall p k l,
    exists rest, Permutation l (nearest p k l ++ rest) /\ length (nearest p k l) = Nat.min k (length l) /\
      forall a b, In a (nearest p k l) -> In b rest -> le (dist p a) (dist p b).

  Definition indexes (c : csr) (s : indices) : Prop := exists points segs, i_points s = Some points /\ i_segs s = Some segs /\
        (forall p v, In (p, v) points <-> node_at c v p) /\ (forall p q e i, In ((p, q), (e, i)) segs <-> segment_at c e i p q).

  Lemma set_insert_in e l x : In x (set_insert e l) <-> x = e \/ In x l.
  Proof.
    assert (Sy : x = e <-> e = x) by (split; congruence). rewrite Sy. clear Sy.
    induction l as [|y l IH]; cbn [set_insert In]; [tauto|].
    destruct (e <? y); [cbn [In]; tauto|]. destruct (Nat.eqb_spec e y) as [->|N]; cbn [In]; [tauto|]. rewrite IH. tauto.
  Qed.
  Lemma set_insert_sorted e l : StronglySorted lt l -> StronglySorted lt (set_insert e l).
  Proof.
    induction 1 as [|y l S IH F]; cbn [set_insert]; [repeat constructor|].
    destruct (Nat.ltb_spec e y) as [L|L].
    - constructor; [now constructor|]. constructor; [exact L|]. eapply Forall_impl; [|exact F]. intros z Z. cbn in Z. lia.
    - destruct (Nat.eqb_spec e y) as [->|N]; [now constructor|]. constructor; [exact IH|].
      apply Forall_forall. intros z Z. apply set_insert_in in Z as [->|Z]; [lia|]. rewrite Forall_forall in F. now apply F.
  Qed.
  Lemma unique_edges_ok (xs : list svalue) : StronglySorted lt (unique_edges xs) /\ forall e, In e (unique_edges xs) <-> exists x, In x xs /\ fst (snd x) = e.
  Proof.
    unfold unique_edges.
    assert (G : forall xs set, StronglySorted lt set -> let r := fold_left (fun set (x : svalue) => set_insert (fst (snd x)) set) xs set in
      StronglySorted lt r /\ forall e, In e r <-> In e set \/ exists x, In x xs /\ fst (snd x) = e).
    { clear xs. induction xs as [|x xs IH]; intros set S; cbn; [split; [exact S|]; intros e; split; [auto|intros [H|(x & [] & _)]; exact H]|].
      destruct (IH (set_insert (fst (snd x)) set) (set_insert_sorted _ _ S)) as [I1 I2]. split; [exact I1|]. intros e. rewrite I2, set_insert_in.
      split; [intros [[->|H]|(y & Y & E)]; eauto 6|intros [H|(y & [->|Y] & E)]; eauto 6]. }
    destruct (G xs [] (SSorted_nil _)) as [G1 G2]. split; [exact G1|]. intros e. rewrite G2. cbn. intuition.
  Qed.

  (** The edges found by a query are those with a segment that satisfies it, each once, in the order of their numbers. *)
  Theorem C73_query : forall query c s pred, query_contract query -> indexes c s -> exists es,
    query_unique query s pred = Ok es /\ StronglySorted lt es /\ forall e, In e es <-> exists i p q, segment_at c e i p q /\ pred (p, q) = true.
  Proof.
    intros query c s pred Q (points & segs & _ & Is & _ & Seg). unfold query_unique. rewrite Is. cbn [derefO]. eexists. split; [reflexivity|].
    destruct (unique_edges_ok (query (fun x => pred (fst x)) segs)) as [U1 U2]. split; [exact U1|]. intros e. rewrite U2. split.
    - intros ([[p q] [e' i]] & H & E). cbn in E. subst e'. apply (Permutation_in _ (Q _ _)), filter_In in H as [H1 H2].
      exists i, p, q. split; [now apply Seg|exact H2].
    - intros (i & p & q & H & E). exists ((p, q), (e, i)). split; [|reflexivity]. apply (Permutation_in _ (Permutation_sym (Q _ _))), filter_In.
      split; [now apply Seg|exact E].
  Qed.

  (** The edges found among the [k] nearest segments: not more than [k], at least one if there is any segment, and no edge that is not
      found has a segment nearer than some segment of each edge that is found. *)
  Theorem C73_nearest : forall (dist : P -> svalue -> D) nearest c s p k, nearest_contract dist nearest -> indexes c s -> exists es,
    nearest_unique nearest s p k = Ok es /\ StronglySorted lt es /\ length es <= k /\
    (0 < k -> (exists e i a b, segment_at c e i a b) -> es <> []) /\
    (forall e, In e es -> exists i a b, segment_at c e i a b /\
       forall e' i' a' b', segment_at c e' i' a' b' -> ~ In e' es -> le (dist p ((a, b), (e, i))) (dist p ((a', b'), (e', i')))).
  Proof.
    intros dist nearest c s p k N (points & segs & _ & Is & _ & Seg). unfold nearest_unique. rewrite Is. cbn [derefO]. eexists. split; [reflexivity|].
    destruct (unique_edges_ok (nearest p k segs)) as [U1 U2]. destruct (N p k segs) as (rest & Pm & L & Near).
    assert (NL : forall l m : list nat, NoDup l -> (forall x, In x l -> In x m) -> length l <= length m) by (intros l m ND I; apply NoDup_incl_length; assumption).
    assert (SN : forall l, StronglySorted lt l -> NoDup l).
    { induction 1 as [|a l S IH F]; constructor; [|exact IH]. intros H. rewrite Forall_forall in F. specialize (F a H). lia. }
    split; [exact U1|]. split; [|split].
    - transitivity (length (map (fun x => fst (snd x)) (nearest p k segs))).
      + apply NL; [now apply SN|]. intros x X. apply U2 in X as (y & Y & <-). exact (in_map (fun x : svalue => fst (snd x)) _ _ Y).
      + rewrite map_length, L. lia.
    - intros K (e & i & a & b & H). apply Seg in H. destruct (nearest p k segs) as [|y ys] eqn:E.
      + cbn in L. destruct segs; [destruct H|cbn in L; lia].
      + intros Z. assert (In (fst (snd y)) (unique_edges (y :: ys))) by (apply U2; exists y; split; [now left|reflexivity]). rewrite Z in H0. exact H0.
    - intros e H. apply U2 in H as ([[a b] [e0 i]] & Y & E). cbn in E. subst e0. exists i, a, b.
      split; [apply Seg, (Permutation_in _ (Permutation_sym Pm)), in_or_app; now left|].
      intros e' i' a' b' H' NI. apply Near; [exact Y|]. apply Seg in H'. apply (Permutation_in _ Pm), in_app_or in H' as [H'|H']; [|exact H'].
      elim NI. apply U2. eexists. split; [exact H'|reflexivity].
  Qed.

  Variable eqp : P -> P -> bool.
  (** A point is found in the nodes exactly if a node is there, and then such a node is returned. *)
  Theorem C73_point_in_nodes : forall (dist : P -> pvalue -> D) nearest c s p, nearest_contract dist nearest ->
    (forall a b, eqp a b = true <-> a = b) -> (forall q v w, le (dist p (q, v)) (dist p (p, w)) -> q = p) -> indexes c s ->
    exists found v, point_in_nodes nearest eqp s p = Ok (found, v) /\ (found = true -> node_at c v p) /\ (found = false -> forall w, ~ node_at c w p).
  Proof.
    intros dist nearest c s p N Eq Zero (points & segs & Ip & _ & Pt & _). unfold point_in_nodes. rewrite Ip. cbn [derefO].
    destruct (N p 1 points) as (rest & Pm & L & Near). destruct (nearest p 1 points) as [|[q v] m] eqn:E.
    - exists false, 0. split; [reflexivity|split; [discriminate|]]. intros _ w W. apply Pt in W. destruct points; [destruct W|cbn in L; lia].
    - exists (eqp q p), v. split; [reflexivity|]. assert (In (q, v) points) by (apply (Permutation_in _ (Permutation_sym Pm)); now left). split.
      + intros X. apply Eq in X. subst q. now apply Pt.
      + intros X w W. apply Pt in W. apply (Permutation_in _ Pm) in W. cbn in W. assert (m = []) by (destruct m; [reflexivity|cbn [length] in L; lia]). subst m. cbn in W.
        assert (q = p) as ->; [|rewrite (proj2 (Eq p p) eq_refl) in X; discriminate].
        destruct W as [W|W]; [now injection W|]. apply (Zero q v w). apply Near; [now left|exact W].
  Qed.
  (** A point that is found in the edges is an end of the segment returned.  If no segment passes through the point between its ends, then
      a point that is not found is on no edge as an end of a segment. *)
  Theorem C73_point_in_edges : forall (dist : P -> svalue -> D) nearest c s p, nearest_contract dist nearest ->
    (forall a b, eqp a b = true <-> a = b) -> indexes c s ->
    exists found e i, point_in_edges nearest eqp s p = Ok (found, (e, i)) /\
      (found = true -> exists a b, segment_at c e i a b /\ (a = p \/ b = p)) /\
      (found = false -> (forall a b e i a' b' e' i', segment_at c e i a b -> segment_at c e' i' a' b' -> (a' = p \/ b' = p) ->
                           le (dist p ((a, b), (e, i))) (dist p ((a', b'), (e', i'))) -> a = p \/ b = p) ->
        forall e' i' a' b', segment_at c e' i' a' b' -> a' <> p /\ b' <> p).
  Proof.
    intros dist nearest c s p N Eq (points & segs & _ & Is & _ & Seg). unfold point_in_edges. rewrite Is. cbn [derefO].
    destruct (N p 1 segs) as (rest & Pm & L & Near). destruct (nearest p 1 segs) as [|[[a b] [e i]] m] eqn:E.
    - exists false, 0, 0. split; [reflexivity|split; [discriminate|]]. intros _ _ e' i' a' b' W. apply Seg in W. destruct segs; [destruct W|cbn [length] in L; lia].
    - exists (eqp a p || eqp b p), e, i. split; [reflexivity|]. assert (In ((a, b), (e, i)) segs) as H by (apply (Permutation_in _ (Permutation_sym Pm)); now left).
      apply Seg in H. split.
      + intros X. exists a, b. split; [exact H|]. apply orb_true_iff in X as [X|X]; apply Eq in X; auto.
      + intros X Pass e' i' a' b' W. apply orb_false_iff in X as [X1 X2].
        assert (Na : ~ (a = p \/ b = p)) by (intros [-> | ->]; rewrite (proj2 (Eq p p) eq_refl) in *; discriminate).
        assert (B : ~ (a' = p \/ b' = p)).
        { intros Z. apply Na. pose proof W as W'. apply Seg, (Permutation_in _ Pm) in W'. assert (m = []) by (destruct m; [reflexivity|cbn [length] in L; lia]). subst m. cbn in W'.
          destruct W' as [W'|W']; [injection W' as -> -> -> ->; exact Z|]. apply (Pass a b e i a' b' e' i' H W Z). apply Near; [now left|exact W']. }
        split; intros ->; apply B; auto.
  Qed.
  (** The nodes and edges with an id, in order. *)
  Theorem C73_find : forall (c : csr) id,
    StronglySorted lt (find_node c id) /\ (forall v, In v (find_node c id) <-> exists start p, nth_error (c_vs c) v = Some (start, (id, p))) /\
    StronglySorted lt (find_edge c id) /\ (forall e, In e (find_edge c id) <-> exists src tgt line, nth_error (c_es c) e = Some (src, tgt, (id, line))).
  Proof.
    intros c id. unfold find_node, find_edge.
    assert (G : forall {A} (f : nat * A -> bool) (l : list A) k, StronglySorted lt (flat_map (fun x => if f x then [fst x] else []) (numbered_from k l))).
    { intros A f. induction l as [|a l IH]; intros k; cbn; [constructor|]. destruct (f (k, a)); cbn; [|apply IH]. constructor; [apply IH|].
      apply Forall_forall. intros z Z. apply in_flat_map in Z as ([i x] & I & Z). apply in_numbered in I as (j & -> & _).
      destruct (f (S k + j, x)); [|destruct Z]. destruct Z as [<-|[]]. cbn. lia. }
    split; [apply (G _ (fun v => fst (snd (snd v)) =? id))|split; [|split; [apply (G _ (fun e => fst (snd (snd e)) =? id))|]]].
    - intros v. rewrite in_flat_map. split.
      + intros ([i [st [id' p]]] & I & H). cbn in H. destruct (Nat.eqb_spec id' id) as [->|]; [|destruct H]. destruct H as [<-|[]].
        apply in_numbered in I as (j & -> & I). eauto.
      + intros (st & p & H). exists (v, (st, (id, p))). split; [apply in_numbered; now exists v|]. cbn. rewrite Nat.eqb_refl. now left.
    - intros e. rewrite in_flat_map. split.
      + intros ([i [[src tgt] [id' line]]] & I & H). cbn in H. destruct (Nat.eqb_spec id' id) as [->|]; [|destruct H]. destruct H as [<-|[]].
        apply in_numbered in I as (j & -> & I). eauto.
      + intros (src & tgt & line & H). exists (e, (src, tgt, (id, line))). split; [apply in_numbered; now exists e|]. cbn. rewrite Nat.eqb_refl. now left.
  Qed.
End SpatialIndexProps.

(** *** Points on a line, for the examples *)
From Coq Require Import ZArith.
Section Near.
  Context {V : Type}.
  Variable dist : Z -> V -> Z.
  Fixpoint put (p : Z) (x : V) (l : list V) : list V :=
    match l with [] => [x] | y :: r => if (dist p x <=? dist p y)%Z then x :: l else y :: put p x r end.
  Definition near (p : Z) (k : nat) (l : list V) : list V := firstn k (fold_right (put p) [] l).
  Lemma put_perm p x l : Permutation (put p x l) (x :: l).
  Proof. induction l as [|y l IH]; cbn; [apply Permutation_refl|]. destruct (dist p x <=? dist p y)%Z; [apply Permutation_refl|]. rewrite IH. apply perm_swap. Qed.
  Lemma put_sorted p x l : StronglySorted (fun a b => (dist p a <= dist p b)%Z) l -> StronglySorted (fun a b => (dist p a <= dist p b)%Z) (put p x l).
  Proof.
    induction 1 as [|y l S IH F]; cbn; [repeat constructor|]. destruct (Z.leb_spec (dist p x) (dist p y)) as [L|L].
    - constructor; [now constructor|]. constructor; [exact L|]. eapply Forall_impl; [|exact F]. intros z Z. cbn in Z. lia.
    - constructor; [exact IH|]. apply Forall_forall. intros z Z. apply (Permutation_in _ (put_perm p x l)) in Z as [<-|Z]; [lia|]. rewrite Forall_forall in F. now apply F.
  Qed.
  Lemma near_contract : nearest_contract Z.le dist near.
  Proof.
    intros p k l. unfold near. set (m := fold_right (put p) [] l).
    assert (Pm : Permutation m l) by (unfold m; induction l as [|x l IH]; cbn; [constructor|]; rewrite put_perm; now constructor).
    assert (S : StronglySorted (fun a b => (dist p a <= dist p b)%Z) m).
    { unfold m. clear. induction l as [|x l IH]; cbn; [constructor|]. now apply put_sorted. }
    exists (skipn k m). split; [rewrite firstn_skipn; now apply Permutation_sym|]. split; [rewrite firstn_length, (Permutation_length Pm); reflexivity|].
    intros a b A B. clear Pm. revert k A B. induction S as [|y m' S IH F]; intros k A B; [destruct k; destruct A|].
    destruct k; cbn in A, B; [destruct A|]. destruct A as [<-|A]; [|now apply (IH k)].
    rewrite Forall_forall in F. apply F. rewrite <- (firstn_skipn k m'). apply in_or_app. now right.
  Qed.
End Near.

Definition to_point (p : Z) (x : Z * nat) : Z := Z.abs (p - fst x).
Definition to_segment (p : Z) (x : (Z * Z) * (nat * nat)) : Z :=
  Z.max 0 (Z.max (Z.min (fst (fst x)) (snd (fst x)) - p) (p - Z.max (fst (fst x)) (snd (fst x)))).

Local Open Scope Z_scope.
(** three nodes at 0, 5 and 9, an edge with two segments and one with a single segment *)
Definition line_net : @csr (nat * Z) (nat * list Z) := mkC [(0%nat, (10%nat, 0)); (1%nat, (11%nat, 5)); (2%nat, (12%nat, 9))]
  [(0%nat, 1%nat, (20%nat, [0; 2; 5])); (1%nat, 2%nat, (21%nat, [5; 9]))].
Definition line_index : @indices Z := mkIx [] [] (Some [(0, 0%nat); (5, 1%nat); (9, 2%nat)]) (Some [((0, 2), (0, 0)%nat); ((2, 5), (0, 1)%nat); ((5, 9), (1, 0)%nat)]) [].
Lemma line_indexes : indexes line_net line_index.
Proof.
  exists (points_of line_net), (segs_of line_net). split; [reflexivity|split; [reflexivity|split; [apply in_points_of|intros; apply in_segs_of]]].
Qed.

(** in files, the first attempt to build both indices fails after the first of them *)
Example C73_build_ex : build_spatial_indices true true 1 1 1 line_net (fresh [true; true; true; true; true; true; true; true; true; false])
  = Ok (mkIx [(0, 0%nat); (5, 1%nat); (9, 2%nat)] [((0, 2), (0, 0)%nat); ((2, 5), (0, 1)%nat); ((5, 9), (1, 0)%nat)]
     (Some [(0, 0%nat); (5, 1%nat); (9, 2%nat)]) (Some [((0, 2), (0, 0)%nat); ((2, 5), (0, 1)%nat); ((5, 9), (1, 0)%nat)]) []).
Proof. vm_compute. reflexivity. Qed.
Example C73_build_refused_ex : exists s, build_spatial_indices true true 1 1 1 line_net (fresh [true; false; false]) = Throw s.
Proof. eexists. vm_compute. reflexivity. Qed.
(** the edges with a segment that reaches beyond 4 *)
Example C73_query_ex : query_contract (fun f l => filter f (l : list ((Z * Z) * (nat * nat)))) /\ indexes line_net line_index /\
  query_unique (@filter _) line_index (fun s => 4 <? snd s) = Ok [0; 1]%nat.
Proof. split; [intros f l; apply Permutation_refl|]. split; [apply line_indexes|]. vm_compute. reflexivity. Qed.
Example C73_nearest_ex : nearest_contract Z.le to_segment (near to_segment) /\ nearest_unique (near to_segment) line_index 1 1 = Ok [0]%nat /\
  nearest_unique (near to_segment) line_index 5 2 = Ok [0; 1]%nat.
Proof. split; [apply near_contract|]. vm_compute. auto. Qed.
Example C73_point_in_nodes_ex : nearest_contract Z.le to_point (near to_point) /\ (forall a b, (a =? b) = true <-> a = b) /\
  (forall p q v w, to_point p (q, v) <= to_point p (p, w) -> q = p) /\
  point_in_nodes (near to_point) Z.eqb line_index 9 = Ok (true, 2%nat) /\ point_in_nodes (near to_point) Z.eqb line_index 8 = Ok (false, 2%nat).
Proof. split; [apply near_contract|]. split; [apply Z.eqb_eq|]. split; [unfold to_point; cbn; intros; lia|]. vm_compute. auto. Qed.
Example C73_point_in_edges_ex : point_in_edges (near to_segment) Z.eqb line_index 2 = Ok (true, (0, 0)%nat) /\
  point_in_edges (near to_segment) Z.eqb line_index 3 = Ok (false, (0, 1)%nat).
Proof. vm_compute. auto. Qed.
Example C73_find_ex : find_node line_net 11 = [1]%nat /\ find_edge line_net 21 = [1]%nat /\ find_edge line_net 22 = [].
Proof. vm_compute. auto. Qed.

(** A point at which an edge starts is reported as on no edge if another edge passes there. *)
Theorem C73_point_in_edges_refuted : exists (c : @csr (nat * Z) (nat * list Z)) s e p, indexes c s /\ nearest_contract Z.le to_segment (near to_segment) /\
  segment_at c 1 0 p e /\ exists x, point_in_edges (near to_segment) Z.eqb s p = Ok (false, x).
Proof.
  set (c := mkC [(0%nat, (10%nat, 0)); (1%nat, (11%nat, 9))] [(0%nat, 1%nat, (20%nat, [0; 9])); (0%nat, 1%nat, (21%nat, [5; 7]))] : @csr (nat * Z) (nat * list Z)).
  exists c, (mkIx [] [] (Some (points_of c)) (Some (segs_of c)) []), 7, 5. split.
  { exists (points_of c), (segs_of c). split; [reflexivity|split; [reflexivity|split; [apply in_points_of|intros; apply in_segs_of]]]. }
  split; [apply near_contract|]. split; [exists 0%nat, 1%nat, 21%nat, [5; 7]; auto|]. eexists. vm_compute. reflexivity.
Qed.
(** The [k] nearest segments may be of fewer than [k] edges, although there are [k]. *)
Theorem C73_nearest_fewer_refuted : exists c s p k, indexes c s /\ nearest_contract Z.le to_segment (near to_segment) /\ length (c_es c) = k /\
  exists es, nearest_unique (near to_segment) s p k = Ok es /\ (length es < k)%nat.
Proof.
  exists line_net, line_index, 1, 2%nat. split; [apply line_indexes|]. split; [apply near_contract|]. split; [reflexivity|]. eexists. split; [vm_compute; reflexivity|cbn; lia].
Qed.
(** Building the indices a second time enters everything twice: the vectors they are built from are not cleared. *)
Theorem C73_build_twice_refuted : exists (c : @csr (nat * Z) (nat * list Z)) s1 s2, build_spatial_indices false false 0 0 0 c (fresh []) = Ok s1 /\
  build_spatial_indices false false 0 0 0 c s1 = Ok s2 /\ exists points, i_points s2 = Some points /\ ~ NoDup (map snd points).
Proof.
  exists line_net. eexists. eexists. split; [vm_compute; reflexivity|]. split; [vm_compute; reflexivity|]. eexists. split; [reflexivity|].
  cbn. intros N. inversion_clear N as [|? ? H _]. apply H. cbn. auto.
Qed.
(** before they are built, looking anything up follows a null pointer *)
Example C73_not_built_ex : forall p, point_in_nodes (near to_point) Z.eqb (fresh []) p = UB /\ point_in_edges (near to_segment) Z.eqb (fresh []) p = UB.
Proof. intros p. split; reflexivity. Qed.

Print Assumptions C73_build.
Print Assumptions C73_query.
Print Assumptions C73_nearest.
Print Assumptions C73_point_in_nodes.
Print Assumptions C73_point_in_edges.
Print Assumptions C73_find.
Print Assumptions C73_point_in_edges_refuted.
Print Assumptions C73_nearest_fewer_refuted.
Print Assumptions C73_build_twice_refuted.
