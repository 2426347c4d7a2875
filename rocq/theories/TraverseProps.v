(** Properties C07 (breadth-first search) and C08 (depth-first search).

    [out] is the graph, [vs] any finite list of vertices containing the start and all edge targets,
    [v0] the visited set passed in by the caller (empty for a single search; remove_unconnected_components
    shares it between searches). *)
From Verif Require Import Base ListAux AdjList AdjListSpec AdjListProofs AdjListProofs3 AdjListProps Csr CsrProofs Traverse TraverseSpec TraverseProofs.

Definition never (_ _ : list nat) : bool := false.

Section Props.
  Variable out : nat -> list nat.

  (** C07: a breadth-first search terminates after at most one step per vertex, discovers exactly the
      vertices reachable without entering [v0], each exactly once, finishes them in discovery order, and
      discovers them in non-decreasing hop distance. *)
  Theorem C07_bfs_exact vs v0 s : closed_in out vs -> In s vs ->
    exists r, bfs out never (S (length vs)) v0 s = Ok r /\
      NoDup (t_disc r) /\
      (forall v, In v (t_disc r) <-> reachable out v0 s v) /\
      t_fin r = t_disc r /\
      (forall i j a b k l, i <= j -> nth_error (t_disc r) i = Some a -> nth_error (t_disc r) j = Some b ->
         hops out v0 s a k -> hops out v0 s b l -> k <= l) /\
      (forall v, In v (t_disc r) -> exists k, hops out v0 s v k).
  Proof.
    intros Hc Hs.
    destruct (bfs_loop_ok out never v0 s vs Hc Hs (S (length vs)) (mkT [s] [] [s]) (fun _ => 0)
                (inv_init out v0 s) (levels_init out v0 s)) as (r & L & E & I & LV & W).
    { cbn. lia. }
    exists r. destruct W as [W|W]; [|discriminate W].
    assert (HL := levels_hops out never v0 s L r LV W (inv_start _ _ _ _ I)).
    split; [exact E|]. split; [apply (inv_nd _ _ _ _ I)|]. split; [|split; [|split]].
    - intros v; split; [apply (inv_sound _ _ _ _ I)|]. apply (inv_complete out v0 s r I W).
    - rewrite (lv_order _ _ _ _ _ LV), W, app_nil_r. reflexivity.
    - intros i j a b k l Hij Ha Hb [Wk Mk] [Wl Ml].
      destruct (HL a (nth_error_In _ _ Ha)) as [W1 M1]. destruct (HL b (nth_error_In _ _ Hb)) as [W2 M2].
      pose proof (lv_mono _ _ _ _ _ LV i j a b Hij Ha Hb). specialize (Mk _ W1). specialize (M2 _ Wl). lia.
    - intros v Hv. exists (L v). auto.
  Qed.

  (** C07, a visitor may stop the search at any time: what was discovered up to then is reachable,
      distinct, and in discovery order; only queued vertices are unfinished. *)
  Theorem C07_bfs_stopped stop vs v0 s : closed_in out vs -> In s vs ->
    exists r, bfs out stop (S (length vs)) v0 s = Ok r /\
      NoDup (t_disc r) /\
      (forall v, In v (t_disc r) -> reachable out v0 s v) /\
      t_disc r = t_fin r ++ t_work r /\
      (t_work r = [] \/ stop (t_disc r) (t_fin r) = true) /\
      (forall u v, In u (t_fin r) -> In v (out u) -> ~ In v v0 -> In v (t_disc r)).
  Proof.
    intros Hc Hs.
    destruct (bfs_loop_ok out stop v0 s vs Hc Hs (S (length vs)) (mkT [s] [] [s]) (fun _ => 0)
                (inv_init out v0 s) (levels_init out v0 s)) as (r & L & E & I & LV & W).
    { cbn. lia. }
    exists r. split; [exact E|]. split; [apply (inv_nd _ _ _ _ I)|].
    split; [apply (inv_sound _ _ _ _ I)|]. split; [apply (lv_order _ _ _ _ _ LV)|].
    split; [exact W|apply (inv_closed _ _ _ _ I)].
  Qed.

  (** C08: a depth-first search terminates after at most one step per vertex and discovers and finishes
      exactly the reachable vertices, each exactly once. *)
  Theorem C08_dfs_exact vs v0 s : closed_in out vs -> In s vs ->
    exists r, dfs out never (S (length vs)) v0 s = Ok r /\
      NoDup (t_disc r) /\ NoDup (t_fin r) /\
      (forall v, In v (t_disc r) <-> reachable out v0 s v) /\
      (forall v, In v (t_fin r) <-> reachable out v0 s v).
  Proof.
    intros Hc Hs.
    destruct (dfs_loop_ok out never v0 s vs Hc Hs (S (length vs)) (mkT [s] [] [s]) (inv_init out v0 s))
      as (r & E & I & W). { cbn. lia. }
    exists r. destruct W as [W|W]; [|discriminate W].
    pose proof (inv_perm _ _ _ _ I) as P. rewrite W, app_nil_r in P.
    assert (D : forall v, In v (t_disc r) <-> reachable out v0 s v).
    { intros v; split; [apply (inv_sound _ _ _ _ I)|]. apply (inv_complete out v0 s r I W). }
    split; [exact E|]. split; [apply (inv_nd _ _ _ _ I)|].
    split; [apply (Permutation_NoDup P), (inv_nd _ _ _ _ I)|]. split; [exact D|].
    intros v. rewrite <- D. split; apply Permutation_in; [symmetry|]; exact P.
  Qed.

  (** C08, arbitrary stopping visitor *)
  Theorem C08_dfs_stopped stop vs v0 s : closed_in out vs -> In s vs ->
    exists r, dfs out stop (S (length vs)) v0 s = Ok r /\
      NoDup (t_disc r) /\
      (forall v, In v (t_disc r) -> reachable out v0 s v) /\
      Permutation (t_disc r) (t_fin r ++ t_work r) /\
      (t_work r = [] \/ stop (t_disc r) (t_fin r) = true).
  Proof.
    intros Hc Hs.
    destruct (dfs_loop_ok out stop v0 s vs Hc Hs (S (length vs)) (mkT [s] [] [s]) (inv_init out v0 s))
      as (r & E & I & W). { cbn. lia. }
    exists r. split; [exact E|]. split; [apply (inv_nd _ _ _ _ I)|].
    split; [apply (inv_sound _ _ _ _ I)|]. split; [apply (inv_perm _ _ _ _ I)|exact W].
  Qed.
End Props.

(** C08: the search marks vertices when they are pushed, so the order in which it finishes them is not the
    order of a recursive depth-first search: on 0 -> 1, 0 -> 2, 1 -> 2, 1 -> 3 the vertex 2, which a
    recursive search reaches through 1 before 3, is visited after 3. *)
Fixpoint rec_dfs (out : nat -> list nat) (fuel : nat) (seen : list nat) (v : nat) : list nat :=
  match fuel with
  | O => seen
  | S f => if mem v seen then seen else fold_left (rec_dfs out f) (out v) (seen ++ [v])
  end.

Theorem C08_dfs_preorder_refuted : exists (out : nat -> list nat) (vs : list nat) (r : tstate),
  closed_in out vs /\ In 0 vs /\ dfs out never (S (length vs)) [] 0 = Ok r /\
  t_fin r <> rec_dfs out 10 [] 0.
Proof.
  exists (fun v => match v with 0 => [1; 2] | 1 => [2; 3] | _ => [] end), [0; 1; 2; 3], (mkT [0; 2; 1; 3] [0; 1; 3; 2] []).
  split; [|split; [left; reflexivity|split; [vm_compute; reflexivity|vm_compute; discriminate]]].
  intros [|[|u]] v H; cbn in H; intuition (subst; cbn; tauto).
Qed.

(** *** the compressed graph as an instance *)
From Coq Require Import Relations.
Section Instances.
  Context {VD ED : Type}.
  Implicit Types (g : graph VD ED).

  (** an edge of [g] from the vertex at position [u] to the vertex at position [v] *)
  Definition joined g (u v : nat) : Prop :=
    exists e, In e (g_es g) /\ position g (e_src e) = Some u /\ position g (e_tgt e) = Some v.

  Lemma csr_targets_joined dir g c u v : exact dir g -> indexed g -> from_adjacency_list dir g = Ok c ->
    u < length (g_vs g) -> (In v (csr_targets c u) <-> joined g u v).
  Proof.
    intros H Hi E Hu. destruct (nth_error (g_vs g) u) as [x|] eqn:En; [|apply nth_error_None in En; lia].
    unfold csr_targets. rewrite (csr_outs_effect dir g c u x H Hi E En), map_map. cbn.
    assert (Px : position g (v_id x) = Some u).
    { assert (Hx : In x (g_vs g)) by (eapply nth_error_In; eauto).
      destruct (position_nth g (v_id x) x (ex_vid _ _ H) (get_vertex_unique dir g x H Hx)) as (j & P & N).
      rewrite P. f_equal. rewrite <- (position_indexed g x j Hi N). apply (position_indexed g x u Hi En). }
    assert (Pp : forall e, In e (g_es g) -> position g (e_tgt e) = Some (pos g (e_tgt e))).
    { intros e He. destruct (ex_end _ _ H e He) as [_ Ht]. destruct (get_vertex_some g _ Ht) as [y Ey].
      destruct (position_nth g _ y (ex_vid _ _ H) Ey) as (j & P & _). unfold pos. rewrite P. reflexivity. }
    rewrite in_map_iff. unfold joined. split.
    - intros (e & <- & He). apply filter_In in He as [He Es]. apply Nat.eqb_eq in Es. exists e. rewrite Es. auto.
    - intros (e & He & Ps & Pt). exists e. rewrite (Pp e He) in Pt. split; [congruence|].
      apply filter_In. split; [exact He|]. apply Nat.eqb_eq.
      destruct (ex_end _ _ H e He) as [Hs _]. destruct (get_vertex_some g _ Hs) as [y Ey].
      destruct (position_nth g _ y (ex_vid _ _ H) Ey) as (j & P & N).
      assert (j = u) by congruence. subst j. assert (x = y) by congruence. subst y.
      apply get_vertex_in in Ey as [_ ->]. reflexivity.
  Qed.

  Lemma csr_targets_range dir g c u v : exact dir g -> indexed g -> from_adjacency_list dir g = Ok c ->
    In v (csr_targets c u) -> u < length (g_vs g) /\ v < length (g_vs g).
  Proof.
    intros H Hi E Hv. assert (L : length (c_vs c) = length (g_vs g)).
    { rewrite (from_adjacency_list_effect dir g H Hi) in E. injection E as <-. cbn. apply starts_length. }
    assert (Hu : u < length (g_vs g)).
    { destruct (Nat.lt_ge_cases u (length (g_vs g))) as [|Hge]; [assumption|exfalso].
      unfold csr_targets, csr_outs, csr_out, csr_range in Hv. rewrite (proj2 (nth_error_None (c_vs c) u)) in Hv by lia.
      exact Hv. }
    split; [exact Hu|]. apply (csr_targets_joined dir g c u v H Hi E Hu) in Hv as (e & He & _ & Pt).
    destruct (ex_end _ _ H e He) as [_ Ht]. destruct (get_vertex_some g _ Ht) as [y Ey].
    destruct (position_nth g _ y (ex_vid _ _ H) Ey) as (j & P & N).
    assert (j = v) by congruence. subst. apply nth_error_Some. congruence.
  Qed.

  Lemma reachable_joined dir g c s v : exact dir g -> indexed g -> from_adjacency_list dir g = Ok c ->
    s < length (g_vs g) ->
    (reachable (csr_targets c) [] s v <-> clos_refl_trans_n1 nat (joined g) s v).
  Proof.
    intros H Hi E Hs. split.
    - intros [k Hk]. induction Hk as [|k u v Hk IH Hin _]; [constructor|]. econstructor; [|exact IH].
      apply (csr_targets_joined dir g c u v H Hi E); [|exact Hin]. apply (csr_targets_range dir g c u v H Hi E Hin).
    - intros Hv. assert (G : reachable (csr_targets c) [] s v /\ v < length (g_vs g)); [|tauto].
      induction Hv as [|u v Huv Hv [[k Hk] Lu]]; [split; [exists 0; constructor|exact Hs]|].
      apply (csr_targets_joined dir g c u v H Hi E Lu) in Huv.
      split; [|apply (csr_targets_range dir g c u v H Hi E Huv)].
      exists (S k). econstructor; [exact Hk|exact Huv|intros []].
  Qed.

  (** C07/C08 on a network: search on the compressed form of any exact, indexed adjacency list finds
      exactly the vertices connected to the start by a chain of its edges. *)
  Theorem C07_bfs_on_compressed dir g s : exact dir g -> indexed g -> s < length (g_vs g) ->
    exists c r, from_adjacency_list dir g = Ok c /\
      bfs (csr_targets c) never (S (length (g_vs g))) [] s = Ok r /\
      NoDup (t_disc r) /\ (forall v, In v (t_disc r) <-> clos_refl_trans_n1 nat (joined g) s v).
  Proof.
    intros H Hi Hs. pose proof (from_adjacency_list_effect dir g H Hi) as E. set (c := mkC _ _) in E.
    exists c. destruct (C07_bfs_exact (csr_targets c) (seq 0 (length (g_vs g))) [] s) as (r & Er & N & R & _).
    - intros u v Hv. apply in_seq. apply (csr_targets_range dir g c u v H Hi E) in Hv. lia.
    - apply in_seq. lia.
    - rewrite seq_length in Er. exists r. split; [exact E|]. split; [exact Er|]. split; [exact N|].
      intros v. rewrite R. apply (reachable_joined dir g c s v H Hi E Hs).
  Qed.

  Theorem C08_dfs_on_compressed dir g s : exact dir g -> indexed g -> s < length (g_vs g) ->
    exists c r, from_adjacency_list dir g = Ok c /\
      dfs (csr_targets c) never (S (length (g_vs g))) [] s = Ok r /\
      NoDup (t_disc r) /\ (forall v, In v (t_disc r) <-> clos_refl_trans_n1 nat (joined g) s v).
  Proof.
    intros H Hi Hs. pose proof (from_adjacency_list_effect dir g H Hi) as E. set (c := mkC _ _) in E.
    exists c. destruct (C08_dfs_exact (csr_targets c) (seq 0 (length (g_vs g))) [] s) as (r & Er & N & _ & R & _).
    - intros u v Hv. apply in_seq. apply (csr_targets_range dir g c u v H Hi E) in Hv. lia.
    - apply in_seq. lia.
    - rewrite seq_length in Er. exists r. split; [exact E|]. split; [exact Er|]. split; [exact N|].
      intros v. rewrite R. apply (reachable_joined dir g c s v H Hi E Hs).
  Qed.
End Instances.

Definition demo_out (v : nat) : list nat :=
  match v with 0 => [1; 2; 0] | 1 => [3; 2] | 2 => [1; 3; 3] | 3 => [0] | 4 => [0] | _ => [] end.
Example demo_closed : closed_in demo_out [0; 1; 2; 3; 4].
Proof. intros [|[|[|[|[|u]]]]] v H; cbn in H; intuition (subst; cbn; tauto). Qed.
Example demo_bfs : bfs demo_out never 6 [] 0 = Ok (mkT [0; 1; 2; 3] [0; 1; 2; 3] []).
Proof. vm_compute. reflexivity. Qed.
Example demo_bfs_avoid : bfs demo_out never 6 [1] 0 = Ok (mkT [0; 2; 3] [0; 2; 3] []).
Proof. vm_compute. reflexivity. Qed.
Example demo_dfs : dfs demo_out never 6 [] 0 = Ok (mkT [0; 2; 1; 3] [0; 1; 3; 2] []).
Proof. vm_compute. reflexivity. Qed.

Print Assumptions C07_bfs_exact.
Print Assumptions C07_bfs_stopped.
Print Assumptions C08_dfs_exact.
Print Assumptions C08_dfs_stopped.
Print Assumptions C07_bfs_on_compressed.
Print Assumptions C08_dfs_on_compressed.
