(** Property C05 of the compressed graph. *)
From Verif Require Import Base ListAux AdjList AdjListSpec AdjListProofs AdjListProofs3 AdjListProps Csr CsrProofs.

Section Spec.
  Context {VD ED : Type}.
  (** the compressed edges [ds] are, one by one, the edges [es] leaving the vertex at position [i] *)
  Definition same_edges (g : graph VD ED) (c : csr VD ED) (i : nat) (ds : list nat) (es : list (edge ED)) : Prop :=
    Forall2 (fun d e => csr_source c d = Some i /\
                        (exists j, position g (e_tgt e) = Some j /\ csr_target c d = Some j) /\
                        csr_edge_data c d = Some (e_data e)) ds es.
  (** edge descriptors of a vertex' range *)
  Definition range_of (c : csr VD ED) (i : nat) : list nat := match csr_out c i with Ok l => l | _ => [] end.

  Record represents (g : graph VD ED) (c : csr VD ED) : Prop := {
    rep_vertices : map snd (c_vs c) = map v_data (g_vs g);
    rep_out : forall i x, nth_error (g_vs g) i = Some x ->
              exists ds, csr_out c i = Ok ds /\
                         same_edges g c i ds (filter (fun e => e_src e =? v_id x) (g_es g));
    rep_count : length (c_es c) = length (g_es g);
    (* the ranges, one after another, list every edge descriptor exactly once *)
    rep_partition : flat_map (range_of c) (seq 0 (length (c_vs c))) = seq 0 (length (c_es c))
  }.
End Spec.

Section Props.
  Context {VD ED : Type}.
  Implicit Types (g : graph VD ED) (dir : direction).

  Lemma ranges_prefix dir g c : exact dir g -> indexed g -> from_adjacency_list dir g = Ok c ->
    forall n, n <= length (g_vs g) ->
    flat_map (range_of c) (seq 0 n) = seq 0 (length (rows g (firstn n (g_vs g)))).
  Proof.
    intros H Hi E. induction n as [|n IH]; intros Hn; [reflexivity|].
    rewrite seq_S, flat_map_app, IH by lia. cbn [flat_map Nat.add]. rewrite app_nil_r.
    destruct (nth_error (g_vs g) n) as [x|] eqn:En; [|apply nth_error_None in En; lia].
    destruct (csr_out_effect dir g c n x H Hi E En) as [Eo _]. unfold range_of at 1. rewrite Eo.
    rewrite (firstn_S_nth _ _ _ En), rows_app. unfold rows at 4. cbn. rewrite app_nil_r, app_length, map_length, seq_app.
    reflexivity.
  Qed.

  (** C05 *)
  Theorem C05_csr_represents dir g :
    exact dir g -> indexed g -> exists c, from_adjacency_list dir g = Ok c /\ represents g c.
  Proof.
    intros H Hi. pose proof (from_adjacency_list_effect dir g H Hi) as E.
    eexists; split; [exact E|]. constructor.
    - cbn. apply starts_data.
    - intros i x Hn. destruct (csr_out_effect dir g _ i x H Hi E Hn) as [Eo Ek].
      eexists; split; [exact Eo|]. fold (forward g (v_id x)).
      assert (Hf : forall e, In e (forward g (v_id x)) -> In e (g_es g) /\ e_src e = v_id x).
      { intros e He. apply filter_In in He as [H1 H2]. apply Nat.eqb_eq in H2. auto. }
      assert (Px : position g (v_id x) = Some i).
      { assert (Hx : In x (g_vs g)) by (eapply nth_error_In; eauto).
        destruct (position_nth g (v_id x) x (ex_vid _ _ H) (get_vertex_unique dir g x H Hx)) as (j & P & N).
        rewrite P. f_equal. assert (V : nth_error (vertex_ids g) i = nth_error (vertex_ids g) j).
        { unfold vertex_ids. rewrite (map_nth_error v_id _ _ Hn), (map_nth_error v_id _ _ N). reflexivity. }
        symmetry. apply (proj1 (NoDup_nth_error (vertex_ids g)) (ex_vid _ _ H)); [|exact V].
        unfold vertex_ids. rewrite map_length. apply nth_error_Some. congruence. }
      generalize dependent (length (rows g (firstn i (g_vs g)))). intros a _ Ek.
      unfold same_edges. revert a Ek. induction (forward g (v_id x)) as [|e l IH]; intros a Ek; [constructor|].
      cbn. constructor.
      + pose proof (Ek 0 e eq_refl) as E0. rewrite Nat.add_0_r in E0.
        destruct (Hf e (or_introl eq_refl)) as [He Es]. unfold csr_source, csr_target, csr_edge_data. rewrite E0. cbn.
        destruct (ex_end _ _ H e He) as [Hs Ht]. destruct (get_vertex_some g _ Ht) as [y Ey].
        destruct (position_nth g _ y (ex_vid _ _ H) Ey) as (j & P & _).
        unfold pos. rewrite Es, Px. split; [reflexivity|]. split; [|reflexivity]. exists j. rewrite P. auto.
      + apply IH.
        * intros f Hf'. apply Hf. right; exact Hf'.
        * intros k f Hk. specialize (Ek (S k) f Hk). rewrite <- Nat.add_succ_comm in Ek. exact Ek.
    - cbn. rewrite (Permutation_length (rows_perm dir g H)), map_length. reflexivity.
    - cbn [c_vs c_es]. rewrite starts_length. rewrite (ranges_prefix dir g _ H Hi E) by lia. rewrite firstn_all. reflexivity.
  Qed.

  (** every reindexed graph reachable by a legal history can be compressed *)
  Theorem C05_csr_of_history dir (os : list (op VD ED)) :
    legal_history dir empty_graph os ->
    exists g c, run dir empty_graph os = Some g /\
                from_adjacency_list dir (reindex g) = Ok c /\ represents (reindex g) c.
  Proof.
    intros L. destruct (C01_incidence_exact dir os L) as (g & E & X & _).
    destruct (C05_csr_represents dir (reindex g) (reindex_exact dir g X) (reindex_indexed g)) as (c & Ec & R).
    exists g, c; auto.
  Qed.
End Props.

Example C05_case dir : exact dir (reindex (demo dir)) /\ indexed (reindex (demo dir)).
Proof. split; [apply reindex_exact, demo_exact|apply reindex_indexed]. Qed.
Example C05_case_value :
  from_adjacency_list Bidirectional (demo Bidirectional) =
  Ok (mkC [(0, 10); (1, 11); (2, 12)] [(0, 0, 9); (1, 0, 8); (2, 0, 5)]).
Proof. vm_compute. reflexivity. Qed.

(** without up-to-date indices the compressed graph can have targets outside its vertex range *)
Theorem C05_csr_without_reindex_refuted :
  exists (g : graph nat nat) c e t, exact Directed g /\ from_adjacency_list Directed g = Ok c /\
    csr_target c e = Some t /\ length (c_vs c) <= t.
Proof.
  set (os := [AddVertex 0 Good; AddVertex 1 Good; AddVertex 2 Good; AddEdge 1 2 5 Good Good Good; RemoveVertex 0]
             : list (op nat nat)).
  destruct (C01_incidence_exact Directed os) as (g & E & X & _).
  { cbn. repeat split; auto. right; right. intros e [<-|[]]; cbn; auto. }
  vm_compute in E. injection E as <-.
  eexists; eexists; exists 0; eexists. split; [exact X|]. split; [vm_compute; reflexivity|].
  split; [vm_compute; reflexivity|]. vm_compute. lia.
Qed.

(** C05: whatever offsets a compressed row graph holds (say, from a damaged file), the view of out-edges of a
    vertex that exists either lists the edges from its own offset up to the next one, all of them existing, or
    reports an error: it reports one exactly when these offsets are not in order or exceed the edges. *)
Theorem C05_out_edges_safe {VD ED} (c : csr VD ED) v off d : nth_error (c_vs c) v = Some (off, d) ->
  let stop := match nth_error (c_vs c) (S v) with Some (n, _) => n | None => length (c_es c) end in
  (off <= stop /\ stop <= length (c_es c) ->
   exists l, csr_out c v = Ok l /\ NoDup l /\ forall e, In e l <-> off <= e < stop)
  /\ (~ (off <= stop /\ stop <= length (c_es c)) -> csr_out c v = Throw []).
Proof.
  intros E stop. unfold csr_out, csr_range. rewrite E. fold stop.
  destruct (Nat.ltb_spec (length (c_es c)) off), (Nat.ltb_spec (length (c_es c)) stop), (Nat.ltb_spec stop off); cbn [orb];
    (split; [intros [? ?]; try lia|intros N; try reflexivity; lia]).
  eexists. split; [reflexivity|]. split; [apply seq_NoDup|]. intros e. rewrite in_seq. lia.
Qed.
Example C05_damaged : csr_out (mkC [(1, tt); (3, tt); (2, tt)] [(0, 0, tt); (0, 1, tt); (0, 2, tt)]) 0 = Ok [1; 2]
  /\ csr_out (mkC [(1, tt); (3, tt); (2, tt)] [(0, 0, tt); (0, 1, tt); (0, 2, tt)]) 1 = Throw []
  /\ csr_out (mkC [(1, tt); (3, tt); (2, tt)] [(0, 0, tt); (0, 1, tt)]) 0 = Throw [].
Proof. vm_compute. auto. Qed.
Print Assumptions C05_out_edges_safe.

Print Assumptions C05_csr_represents.
Print Assumptions C05_csr_of_history.
Print Assumptions C05_csr_without_reindex_refuted.
