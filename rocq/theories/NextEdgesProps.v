(** C56: which edges the candidate search NEXT adds. *)
From Coq Require Import QArith Sorted.
From Verif Require Import Base ListAux NextEdges.
Local Open Scope nat_scope.

Lemma set_add_in : forall x s y, In y (set_add x s) <-> y = x \/ In y s.
Proof.
  induction s as [|z s IH]; cbn [set_add In]; intros y; [intuition|]. destruct (x <? z) eqn:E; [cbn [In]; intuition|].
  destruct (z <? x) eqn:F; cbn [In]; [rewrite IH; intuition|]. apply Nat.ltb_ge in E, F. assert (x = z) as -> by lia. intuition.
Qed.
Lemma set_add_sorted : forall x s, StronglySorted lt s -> StronglySorted lt (set_add x s).
Proof.
  induction s as [|z s IH]; cbn [set_add]; intros H; [repeat constructor|]. inversion H as [|? ? Hs Hz]; subst.
  destruct (x <? z) eqn:E.
  - apply Nat.ltb_lt in E. constructor; auto. constructor; auto. eapply Forall_impl; [|exact Hz]. cbn. intros; lia.
  - destruct (z <? x) eqn:F; auto. apply Nat.ltb_lt in F. constructor; auto. apply Forall_forall. intros y Hy. apply set_add_in in Hy.
    destruct Hy as [->|Hy]; auto. rewrite Forall_forall in Hz. auto.
Qed.
Lemma set_add_all_in : forall a s y, In y (set_add_all s a) <-> In y s \/ In y a.
Proof. unfold set_add_all. induction a as [|x a IH]; cbn; intros s y; [tauto|]. rewrite IH, set_add_in. intuition. Qed.
Lemma set_add_all_sorted : forall a s, StronglySorted lt s -> StronglySorted lt (set_add_all s a).
Proof. unfold set_add_all. induction a as [|x a IH]; cbn; intros s H; auto using set_add_sorted. Qed.

Section C56.
  Variable source target : nat -> nat.
  Variable out_edges : nat -> list nat.
  Variable distance : nat -> Q.

  (** an edge going out of an end of [e] *)
  Definition touches (e x : nat) : Prop := In x (out_edges (source e)) \/ In x (out_edges (target e)).
  (** an edge going back from the end of [e] to its begin *)
  Definition goes_back (e x : nat) : Prop := In x (out_edges (target e)) /\ target x = source e.

  (** The result is a set; it has the edges found, all edges out of their ends, and all edges going back along one of these; and no others. *)
  Theorem C56_additions : forall s, StronglySorted lt s ->
    StronglySorted lt (additions_next source target out_edges distance s) /\
    forall x, In x (additions_next source target out_edges distance s) <->
      (In x s \/ exists e, In e s /\ touches e x) \/
      exists y, (In y s \/ exists e, In e s /\ touches e y) /\ goes_back y x.
  Proof.
    intros s H. unfold additions_next. split; [auto using set_add_all_sorted|].
    assert (forall x, In x (set_add_all s (adjacent_additions source target out_edges distance s)) <-> In x s \/ exists e, In e s /\ touches e x) as A.
    { intros x. rewrite set_add_all_in. unfold adjacent_additions. rewrite in_flat_map. split.
      - intros [Hx|[e [He Hx]]]; auto. right. exists e. split; auto. apply in_flat_map in Hx. destruct Hx as [v [Hv Hx]].
        apply filter_In in Hx. destruct Hx as [Hx _]. unfold touches. destruct Hv as [<-|[<-|[]]]; auto.
      - intros [Hx|[e [He Hx]]]; auto. right. exists e. split; auto. apply in_flat_map.
        assert (Qle_bool (distance e) (distance e) = true) as Q by (apply Qle_bool_iff, Qle_refl).
        destruct Hx as [Hx|Hx]; [exists (source e)|exists (target e)]; (split; [cbn; auto|]); apply filter_In; auto. }
    intros x. rewrite set_add_all_in, A. unfold reverse_additions. rewrite in_flat_map. split.
    - intros [Hx|[y [Hy Hx]]]; auto. right. exists y. split; [apply A; auto|]. apply filter_In in Hx. rewrite Nat.eqb_eq in Hx. split; tauto.
    - intros [Hx|[y [Hy [Hx Ht]]]]; auto. right. exists y. split; [apply A; auto|]. apply filter_In. rewrite Nat.eqb_eq. auto.
  Qed.

  (** The measurement does not matter for which edges are added. *)
  Theorem C56_distance_unused : forall d2 s, additions_next source target out_edges distance s = additions_next source target out_edges d2 s.
  Proof.
    intros d2 s. unfold additions_next. assert (adjacent_additions source target out_edges distance s = adjacent_additions source target out_edges d2 s) as ->; auto.
    unfold adjacent_additions. apply flat_map_ext. intros e. apply flat_map_ext. intros v. apply filter_ext. intros _.
    rewrite (proj2 (Qle_bool_iff _ _) (Qle_refl (distance e))), (proj2 (Qle_bool_iff _ _) (Qle_refl (d2 e))). reflexivity.
  Qed.
End C56.

(** two one-way streets: edge 0 from 0 to 1, edge 1 from 1 to 2, edge 2 back from 1 to 0, edge 3 from 2 to 1 *)
Definition street_source (e : nat) : nat := nth e [0; 1; 1; 2] 0.
Definition street_target (e : nat) : nat := nth e [1; 2; 0; 1] 0.
Definition street_out (v : nat) : list nat := nth v [[0]; [1; 2]; [3]] [].
Example C56_demo : StronglySorted lt [0] /\ additions_next street_source street_target street_out (fun _ => 1%Q) [0] = [0; 1; 2; 3].
Proof. split; [repeat constructor|reflexivity]. Qed.

(** Meant is: an adjacent edge is added only if it is not farther than the edge it is adjacent to. But an edge of any distance is added. *)
Theorem C56_not_farther_refuted : exists source target out_edges distance s x,
  In x (additions_next source target out_edges distance s) /\ ~ In x s /\
  (forall e, In e s -> ~ goes_back source target out_edges e x) /\ (forall e, In e s -> (distance e < distance x)%Q).
Proof.
  exists street_source, street_target, street_out, (fun e => if e =? 1 then 100%Q else 1%Q), [0], 1.
  split; [vm_compute; auto|]. split; [cbn; lia|]. split; intros e [<-|[]]; [unfold goes_back; cbn; lia|reflexivity].
Qed.

Print Assumptions C56_additions.
Print Assumptions C56_distance_unused.
Print Assumptions C56_not_farther_refuted.
