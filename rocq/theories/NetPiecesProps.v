(** C17: removal of unconnected components (network_import.hpp 117-154). *)
From Coq Require Import String.
From Verif Require Import Base ListAux AdjList AdjListSpec AdjListProofs AdjListProofs2 AdjListProofs3 AdjListProps Traverse TraverseSpec TraverseProps Tags RichLine
  NetImport NetImportSpec NetImportProofs2 NetImportProofs3 NetImportProps.

Lemma NoDup_app_inv {A} (l m : list A) : NoDup (l ++ m) -> NoDup l /\ NoDup m /\ forall x, In x l -> ~ In x m.
Proof.
  induction l as [|a l IH]; cbn; intros N; [split; [constructor|split; [exact N|intros x []]]|].
  inversion N as [|? ? N1 N2]; subst. destruct (IH N2) as (A1 & A2 & A3). split; [constructor; [intros Q; apply N1, in_app_iff; auto|exact A1]|].
  split; [exact A2|]. intros x [<-|Hx]; [intros Q; apply N1, in_app_iff; auto|auto].
Qed.

Section C17.
  Context {P : Type}.
  Notation graph := (graph (node P) (road P)).
  Notation edge := (@edge (road P)).

  (** the vertices the roads out of [v] lead to *)
  Definition next_of (g : graph) (v : nat) : list nat := map e_tgt (outs_of (g_es g) v).
  Definition reaches (g : graph) (avoid : list nat) (u v : nat) : Prop := reachable (next_of g) avoid u v.

  Lemma targets_next (g : graph) v : exact Bidirectional g -> adj_targets g v = next_of g v.
  Proof.
    intros H. unfold adj_targets, next_of. destruct (get_vertex g v) as [x|] eqn:E.
    - rewrite (outs_ids g v x H E). assert (I : incl (outs_of (g_es g) v) (g_es g)) by (intros e He; apply outs_of_in in He; tauto).
      induction (outs_of (g_es g) v) as [|e l IH]; [reflexivity|]. cbn [map flat_map]. rewrite (get_edge_of _ _ _ H (I e (or_introl eq_refl))).
      cbn [app]. f_equal. apply IH. intros z Hz. apply I. right. exact Hz.
    - destruct (outs_of (g_es g) v) as [|e l] eqn:Eo; [reflexivity|]. exfalso.
      assert (He : In e (outs_of (g_es g) v)) by (rewrite Eo; left; reflexivity). apply outs_of_in in He as [He Se].
      destruct (ex_end _ _ H e He) as [A _]. rewrite Se in A. destruct (get_vertex_some g v A) as [x Ex]. congruence.
  Qed.
  Lemma reachable_ext (f h : nat -> list nat) avoid s v : (forall u, f u = h u) -> reachable f avoid s v -> reachable h avoid s v.
  Proof.
    intros E [k W]. exists k. induction W; [constructor|]. econstructor; eauto. rewrite <- E. assumption.
  Qed.

  Lemma mem_in v l : mem v l = true <-> In v l.
  Proof. unfold mem. rewrite existsb_exists. split; [intros (x & Hx & E); apply Nat.eqb_eq in E; congruence|intros H; exists v; split; [exact H|apply Nat.eqb_refl]]. Qed.

  Lemma walk_in (f : nat -> list nat) avoid s k v : walk f avoid s k v -> v = s \/ ~ In v avoid.
  Proof. intros W. inversion W; subst; auto. Qed.

  (** the pieces found by the loop *)
  Lemma pieces_ok (g : graph) : exact Bidirectional g -> forall vs pre visited acc, vertex_ids g = pre ++ vs -> NoDup visited -> incl visited (vertex_ids g) -> incl pre visited ->
    exists ps, pieces_loop g vs visited acc = Ok (acc ++ ps) /\ NoDup (visited ++ concat ps) /\ incl (concat ps) (vertex_ids g) /\ incl vs (visited ++ concat ps) /\
      forall i c, nth_error ps i = Some c -> exists r a b, In r c /\ (forall w, In w c <-> reaches g (visited ++ concat (firstn i ps)) r w) /\
        vertex_ids g = a ++ r :: b /\ incl a (visited ++ concat (firstn i ps)).
  Proof.
    intros H. induction vs as [|v vs IH]; intros pre visited acc Ev Nv Iv Ip.
    - exists []. cbn. rewrite !app_nil_r. split; [reflexivity|]. split; [exact Nv|]. split; [intros z []|]. split; [intros z []|]. intros [|i] c; discriminate.
    - cbn [pieces_loop]. destruct (mem v visited) eqn:M.
      + apply mem_in in M. destruct (IH (pre ++ [v]) visited acc) as (ps & A & B & C & D & E); auto.
        { rewrite Ev, <- app_assoc. reflexivity. }
        { intros z Hz. apply in_app_iff in Hz as [Hz|[<-|[]]]; auto. }
        exists ps. split; [exact A|]. split; [exact B|]. split; [exact C|]. split; [|exact E].
        intros z [<-|Hz]; [apply in_app_iff; auto|auto].
      + assert (Nm : ~ In v visited) by (intros Q; apply mem_in in Q; congruence).
        assert (Hv : In v (vertex_ids g)) by (rewrite Ev; apply in_app_iff; right; left; reflexivity).
        assert (Cl : closed_in (adj_targets g) (vertex_ids g)).
        { intros u w Hw. rewrite (targets_next g u H) in Hw. apply in_map_iff in Hw as (e & <- & He). apply outs_of_in in He as [He _].
          apply (ex_end _ _ H e He). }
        destruct (C07_bfs_exact (adj_targets g) (vertex_ids g) visited v Cl Hv) as (t & E & Nt & Rt & _).
        assert (L : length (vertex_ids g) = length (g_vs g)) by apply map_length. rewrite L in E. unfold never in E. rewrite E. cbn [bindO].
        assert (Rt' : forall w, In w (t_disc t) <-> reaches g visited v w).
        { intros w. rewrite Rt. split; apply reachable_ext; intros u; [|symmetry]; apply targets_next; exact H. }
        assert (It : incl (t_disc t) (vertex_ids g)).
        { intros w Hw. apply Rt' in Hw as [k W]. inversion W as [|k' u w' W' Hw' Nw]; subst; [exact Hv|]. apply in_map_iff in Hw' as (e & <- & He). apply outs_of_in in He as [He _].
          apply (ex_end _ _ H e He). }
        assert (Vt : In v (t_disc t)) by (apply Rt'; exists 0; constructor).
        assert (Nd : NoDup (visited ++ t_disc t)).
        { apply NoDup_app'; auto. intros w Hw Q. apply Rt' in Q as [k W]. destruct (walk_in _ _ _ _ _ W) as [->|N]; contradiction. }
        destruct (IH (pre ++ [v]) (visited ++ t_disc t) (acc ++ [t_disc t])) as (ps & A & B & C & D & F).
        { rewrite Ev, <- app_assoc. reflexivity. }
        { exact Nd. }
        { intros z Hz. apply in_app_iff in Hz as [Hz|Hz]; auto. }
        { intros z Hz. apply in_app_iff. apply in_app_iff in Hz as [Hz|[<-|[]]]; auto. }
        exists (t_disc t :: ps). split; [rewrite A, <- app_assoc; reflexivity|]. cbn [concat]. rewrite app_assoc. split; [exact B|].
        split; [intros z Hz; apply in_app_iff in Hz as [Hz|Hz]; auto|].
        split; [intros z [<-|Hz]; [apply in_app_iff; left; apply in_app_iff; right; exact Vt|auto]|].
        intros [|i] c Hc.
        * cbn in Hc. injection Hc as <-. exists v, pre, vs. cbn [firstn concat]. rewrite app_nil_r. auto.
        * cbn [nth_error] in Hc. destruct (F i c Hc) as (r & a & b & F1 & F2 & F3 & F4). exists r, a, b. cbn [firstn concat]. rewrite app_assoc. auto.
  Qed.

  (** the choice of the largest piece *)
  Lemma largest_ok : forall (l : list (list nat)) pre best size, (exists c, nth_error pre best = Some c /\ length c = size) ->
    (forall i c, nth_error pre i = Some c -> length c <= size /\ (i < best -> length c < size)) ->
    exists c, nth_error (pre ++ l) (largest (length pre) best size l) = Some c /\
      forall i d, nth_error (pre ++ l) i = Some d -> length d <= length c /\ (i < largest (length pre) best size l -> length d < length c).
  Proof.
    induction l as [|x l IH]; intros pre best size (c & Hc & Lc) Hb.
    - rewrite app_nil_r. cbn [largest]. exists c. rewrite Lc. auto.
    - cbn [largest]. assert (E : pre ++ x :: l = (pre ++ [x]) ++ l) by (rewrite <- app_assoc; reflexivity). rewrite E.
      replace (S (length pre)) with (length (pre ++ [x])) by (rewrite app_length; cbn; lia).
      destruct (size <? length x) eqn:Q; [apply Nat.ltb_lt in Q|apply Nat.ltb_ge in Q]; apply IH.
      + exists x. split; [|reflexivity]. rewrite nth_error_app2, Nat.sub_diag by lia. reflexivity.
      + intros i d Hd. destruct (Nat.lt_ge_cases i (length pre)) as [Hi|Hi].
        * rewrite nth_error_app1 in Hd by exact Hi. destruct (Hb i d Hd). lia.
        * rewrite nth_error_app2 in Hd by exact Hi. destruct (i - length pre) as [|k] eqn:Ek; cbn in Hd; [injection Hd as <-; lia|destruct k; discriminate].
      + exists c. split; [|exact Lc]. rewrite nth_error_app1; [exact Hc|]. apply nth_error_Some. congruence.
      + intros i d Hd. assert (Hbest : best < length pre) by (apply nth_error_Some; congruence). destruct (Nat.lt_ge_cases i (length pre)) as [Hi|Hi].
        * rewrite nth_error_app1 in Hd by exact Hi. apply (Hb i d Hd).
        * rewrite nth_error_app2 in Hd by exact Hi. destruct (i - length pre) as [|k] eqn:Ek; cbn in Hd; [injection Hd as <-; lia|destruct k; discriminate].
  Qed.

  (** removing a list of vertices *)
  Definition without (g : graph) (l : list nat) (g' : graph) : Prop :=
    exact Bidirectional g' /\ seen_vertices g' = filter (fun x => negb (mem (fst x) l)) (seen_vertices g) /\
    seen_edges g' = filter (fun x => negb (mem (fst (snd (fst x))) l) && negb (mem (snd (snd (fst x))) l)) (seen_edges g).

  Lemma filter_all {A} (p : A -> bool) l : (forall x, In x l -> p x = true) -> filter p l = l.
  Proof. apply filter_true. Qed.

  Lemma drop_vertices_ok : forall l (g : graph), exact Bidirectional g -> NoDup l -> incl l (vertex_ids g) ->
    exists g', drop_vertices g l = Ok g' /\ without g l g'.
  Proof.
    induction l as [|v l IH]; intros g H N I.
    - exists g. split; [reflexivity|]. split; [exact H|]. cbn. split; symmetry; apply filter_all; reflexivity.
    - inversion N as [|? ? N1 N2]; subst. cbn [drop_vertices].
      rewrite (clear_vertex_effect Bidirectional g v H (I v (or_introl eq_refl))). cbn [bindO].
      set (g1 := canon Bidirectional g (filter (survives v) (g_es g)) (g_next g)).
      assert (H1 : exact Bidirectional g1) by (apply exact_filter; exact H).
      assert (V1 : vertex_ids g1 = vertex_ids g) by apply canon_ids.
      assert (Is : isolated g1 v).
      { intros e He. unfold g1, canon in He. cbn [g_es] in He. apply filter_In in He as [_ He]. unfold survives in He.
        apply andb_true_iff in He as [A B]. apply negb_true_iff, Nat.eqb_neq in A, B. auto. }
      rewrite (remove_vertex_effect Bidirectional g1 v H1) by (rewrite V1; apply I; left; reflexivity).
      rewrite (isolated_leaves Bidirectional g1 v Is). cbn [bindO]. set (g2 := without_vertex g1 v).
      assert (H2 : exact Bidirectional g2) by (apply without_vertex_exact; auto).
      destruct (IH g2 H2 N2) as (g' & E & W).
      { intros w Hw. assert (Nw : w <> v) by (intros ->; contradiction). assert (Q : In w (vertex_ids g1)) by (rewrite V1; apply I; right; exact Hw).
        unfold vertex_ids in *. apply in_map_iff in Q as (x & <- & Hx). unfold g2, without_vertex. cbn [g_vs]. apply in_map_iff. exists x. split; [reflexivity|].
        apply filter_In. split; [exact Hx|]. apply negb_true_iff, Nat.eqb_neq. exact Nw. }
      exists g'. split; [exact E|]. destruct W as (W1 & W2 & W3). split; [exact W1|]. split.
      + rewrite W2. assert (S1 : seen_vertices g2 = filter (fun x => negb (fst x =? v)) (seen_vertices g)).
        { unfold seen_vertices, g2, without_vertex, g1, canon. cbn [g_vs]. rewrite !filter_map_comm. rewrite map_map. reflexivity. }
        rewrite S1, filter_filter. apply filter_ext. intros x. unfold mem. cbn [existsb]. rewrite negb_orb. reflexivity.
      + rewrite W3. assert (S1 : seen_edges g2 = filter (fun x => negb (fst (snd (fst x)) =? v) && negb (snd (snd (fst x)) =? v)) (seen_edges g)).
        { unfold seen_edges, g2, without_vertex, g1, canon. cbn [g_es]. rewrite filter_map_comm. reflexivity. }
        rewrite S1, filter_filter. apply filter_ext. intros x. unfold mem. cbn [existsb]. rewrite !negb_orb.
        destruct (fst (snd (fst x)) =? v), (snd (snd (fst x)) =? v); cbn; rewrite ?andb_false_r, ?andb_true_r; reflexivity.
  Qed.

  Lemma without_app (g g1 g2 : graph) l m : without g l g1 -> without g1 m g2 -> without g (l ++ m) g2.
  Proof.
    intros (A1 & A2 & A3) (B1 & B2 & B3). split; [exact B1|]. rewrite B2, B3, A2, A3, !filter_filter. unfold mem. split; apply filter_ext; intros x.
    - rewrite existsb_app, negb_orb. reflexivity.
    - rewrite !existsb_app, !negb_orb. destruct (existsb _ l), (existsb _ m), (existsb _ l), (existsb _ m); reflexivity.
  Qed.
  Lemma without_ids (g g' : graph) l w : without g l g' -> In w (vertex_ids g') <-> In w (vertex_ids g) /\ ~ In w l.
  Proof.
    intros (_ & E & _). rewrite <- !seen_ids, E. rewrite !in_map_iff. split.
    - intros (x & <- & Hx). apply filter_In in Hx as [Hx Q]. split; [eauto|]. intros Z. apply mem_in in Z. rewrite Z in Q. discriminate.
    - intros [(x & <- & Hx) N]. exists x. split; [reflexivity|]. apply filter_In. split; [exact Hx|]. apply negb_true_iff. destruct (mem (fst x) l) eqn:Q; [apply mem_in in Q; contradiction|reflexivity].
  Qed.

  Fixpoint others (k i : nat) (ps : list (list nat)) : list nat :=
    match ps with [] => [] | c :: r => if i =? k then others k (S i) r else c ++ others k (S i) r end.
  Lemma others_in k ps : forall i w, In w (others k i ps) -> In w (concat ps).
  Proof.
    induction ps as [|c ps IH]; intros i w Hw; [exact Hw|]. cbn [others concat] in *. apply in_app_iff. destruct (i =? k); [right; eauto|].
    apply in_app_iff in Hw as [Hw|Hw]; [left; exact Hw|right; eauto].
  Qed.
  Lemma others_nodup k ps : forall i, NoDup (concat ps) -> NoDup (others k i ps).
  Proof.
    induction ps as [|c ps IH]; intros i N; [exact N|]. cbn [others concat] in *. apply NoDup_app_inv in N as (N1 & N2 & N3). destruct (i =? k); [auto|].
    apply NoDup_app'; auto. intros w Hw Q. apply (N3 w Hw). apply (others_in _ _ _ _ Q).
  Qed.
  Lemma others_spec k ps c : NoDup (concat ps) -> forall i, nth_error ps k = Some c -> forall w, In w (concat ps) -> (In w (others (i + k) i ps) <-> ~ In w c).
  Proof.
    intros N i Hc w Hw. revert k i N Hc Hw. induction ps as [|d ps IH]; intros k i N Hc Hw; [destruct Hw|].
    cbn [concat] in *. apply NoDup_app_inv in N as (N1 & N2 & N3). cbn [others]. destruct k as [|k].
    - rewrite Nat.add_0_r, Nat.eqb_refl. cbn in Hc. injection Hc as ->.
      assert (G : forall j qs, i < j -> others i j qs = concat qs).
      { intros j qs. revert j. induction qs as [|q qs IHq]; intros j Hj; [reflexivity|]. cbn [others concat]. replace (j =? i) with false by (symmetry; apply Nat.eqb_neq; lia). rewrite IHq by lia. reflexivity. }
      rewrite G by lia. split; [intros Q Z; apply (N3 w Z Q)|]. intros Q. apply in_app_iff in Hw as [Hw|Hw]; [contradiction|exact Hw].
    - replace (i =? i + S k) with false by (symmetry; apply Nat.eqb_neq; lia). cbn [nth_error] in Hc. rewrite in_app_iff.
      replace (i + S k) with (S i + k) by lia. apply in_app_iff in Hw as [Hw|Hw].
      + split; [|auto]. intros _ Z. apply (N3 w Hw). apply in_concat. exists c. split; [apply (nth_error_In _ _ Hc)|exact Z].
      + rewrite (IH k (S i) N2 Hc Hw). split; [|auto]. intros [Q|Q]; [exfalso; apply (N3 w Q Hw)|exact Q].
  Qed.

  Lemma drop_pieces_ok k : forall ps i (g : graph), exact Bidirectional g -> NoDup (concat ps) -> incl (concat ps) (vertex_ids g) ->
    exists g', drop_pieces g k i ps = Ok g' /\ without g (others k i ps) g'.
  Proof.
    induction ps as [|c ps IH]; intros i g H N I.
    - exists g. split; [reflexivity|]. split; [exact H|]. cbn. split; symmetry; apply filter_all; reflexivity.
    - cbn [concat] in *. apply NoDup_app_inv in N as (N1 & N2 & N3). cbn [drop_pieces others]. destruct (i =? k).
      + apply IH; auto. intros w Hw. apply I, in_app_iff. auto.
      + destruct (drop_vertices_ok c g H N1) as (g1 & E1 & W1); [intros w Hw; apply I, in_app_iff; auto|]. rewrite E1. cbn [bindO].
        destruct (IH (S i) g1) as (g2 & E2 & W2); auto.
        * apply (proj1 W1).
        * intros w Hw. apply (without_ids g g1 c w W1). split; [apply I, in_app_iff; auto|]. intros Q. apply (N3 w Q Hw).
        * exists g2. split; [exact E2|]. apply (without_app g g1); auto.
  Qed.

  (** Of the pieces found by searching from every vertex not reached before, the first largest is kept
      with all roads inside it. *)
  Theorem C17_largest_piece (g : graph) : exact Bidirectional g -> g_vs g <> [] ->
    exists g' ps k kept, remove_unconnected g = Ok g' /\ exact Bidirectional g' /\ indexed g' /\
      (* the pieces *)
      Permutation (concat ps) (vertex_ids g) /\
      (forall i c, nth_error ps i = Some c -> exists r a b, In r c /\ (forall w, In w c <-> reaches g (concat (firstn i ps)) r w) /\
         vertex_ids g = a ++ r :: b /\ incl a (concat (firstn i ps))) /\
      (* the largest, the first of several *)
      nth_error ps k = Some kept /\
      (forall i c, nth_error ps i = Some c -> length c <= length kept /\ (i < k -> length c < length kept)) /\
      (* what is left *)
      seen_vertices g' = filter (fun x => mem (fst x) kept) (seen_vertices g) /\
      seen_edges g' = filter (fun x => mem (fst (snd (fst x))) kept && mem (snd (snd (fst x))) kept) (seen_edges g).
  Proof.
    intros H Ne. unfold remove_unconnected. destruct (pieces_ok g H (vertex_ids g) [] [] []) as (ps & E & N & I & C & Q); auto.
    { constructor. }
    { intros z []. }
    { intros z []. }
    cbn [app] in *. change (map v_id (g_vs g)) with (vertex_ids g). rewrite E. cbn [bindO].
    assert (Pm : Permutation (concat ps) (vertex_ids g)).
    { apply NoDup_Permutation; [exact N|apply (ex_vid _ _ H)|]. intros w. split; auto. }
    destruct ps as [|c ps]; [exfalso; apply Permutation_nil in Pm; apply Ne; unfold vertex_ids in Pm; destruct (g_vs g); [reflexivity|discriminate]|].
    destruct (largest_ok ps [c] 0 (length c)) as (kept & Hk & Lk).
    { exists c. auto. }
    { intros [|i] d Hd; cbn in Hd; [injection Hd as <-; lia|destruct i; discriminate]. }
    cbn [app length] in Hk, Lk. set (k := largest 1 0 (length c) ps) in *.
    destruct (drop_pieces_ok k (c :: ps) 0 g H N I) as (g1 & E1 & W1). rewrite E1. cbn [bindO].
    exists (reindex g1), (c :: ps), k, kept. split; [reflexivity|]. destruct W1 as (W1 & W2 & W3). split; [apply reindex_exact; exact W1|]. split; [apply reindex_indexed|].
    split; [exact Pm|]. split; [exact Q|]. split; [exact Hk|]. split; [exact Lk|].
    assert (M : forall w, In w (vertex_ids g) -> negb (mem w (others k 0 (c :: ps))) = mem w kept).
    { intros w Hw. apply (Permutation_in _ (Permutation_sym Pm)) in Hw. pose proof (others_spec k (c :: ps) kept N 0 Hk w Hw) as Z. cbn [Nat.add] in Z.
      apply Bool.eq_iff_eq_true. rewrite negb_true_iff. rewrite mem_in. split.
      - intros F. destruct (in_dec Nat.eq_dec w kept) as [G|G]; [exact G|]. apply Z in G. apply mem_in in G. congruence.
      - intros F. destruct (mem w (others k 0 (c :: ps))) eqn:G; [|reflexivity]. apply mem_in, Z in G. contradiction. }
    split.
    - assert (S1 : seen_vertices (reindex g1) = seen_vertices g1) by (unfold seen_vertices, reindex; cbn [g_vs]; apply reindex_vs_map; reflexivity).
      rewrite S1, W2. apply filter_ext_in'. intros x Hx. apply M. rewrite <- seen_ids. apply in_map. exact Hx.
    - assert (S1 : seen_edges (reindex g1) = seen_edges g1) by (unfold seen_edges, reindex; cbn [g_es]; apply reindex_es_map; reflexivity).
      rewrite S1, W3. apply filter_ext_in'. intros x Hx. unfold seen_edges in Hx. apply in_map_iff in Hx as (e & <- & He). cbn [fst snd].
      destruct (ex_end _ _ H e He) as [A B]. rewrite !M by assumption. reflexivity.
  Qed.

  (** If every way has a way back, this is a largest connected component. *)
  Lemma walk_avoid (f : nat -> list nat) avoid s k v : walk f avoid s k v -> walk f [] s k v.
  Proof. induction 1; [constructor|]. econstructor; eauto. Qed.
  Lemma walk_trans (f : nat -> list nat) a b c k l : walk f [] a k b -> walk f [] b l c -> reachable f [] a c.
  Proof.
    intros W1 W2. induction W2 as [|l u v W2 IH Hv Nv]; [exists k; exact W1|]. destruct IH as [m IH]. exists (S m). econstructor; eauto.
  Qed.
  Theorem C17_largest_component (g : graph) : exact Bidirectional g -> g_vs g <> [] ->
    (forall u v, In u (vertex_ids g) -> reaches g [] u v -> reaches g [] v u) ->
    exists g' r, remove_unconnected g = Ok g' /\ In r (vertex_ids g') /\
      (forall w, In w (vertex_ids g') <-> reaches g [] r w) /\
      (forall e, In e (seen_edges g') <-> In e (seen_edges g) /\ reaches g [] r (fst (snd (fst e)))) /\
      (forall v l, In v (vertex_ids g) -> NoDup l -> (forall w, In w l -> reaches g [] v w) -> length l <= length (vertex_ids g')).
  Proof.
    intros H Ne Sy. destruct (C17_largest_piece g H Ne) as (g' & ps & k & kept & E & X & Ix & Pm & Q & Hk & Lk & Sv & Se).
    assert (Nc : NoDup (concat ps)) by (apply (Permutation_NoDup (Permutation_sym Pm)), (ex_vid _ _ H)).
    assert (Piece : forall i c, nth_error ps i = Some c -> forall r, In r c -> forall w, In w c <-> reaches g [] r w).
    { intros i c Hc. destruct (Q i c Hc) as (r & a & b & Hr & F & _).
      assert (Ir : In r (vertex_ids g)) by (apply (Permutation_in _ Pm), in_concat; exists c; split; [apply (nth_error_In _ _ Hc)|exact Hr]).
      assert (G : forall w, In w c <-> reaches g [] r w).
      { intros w. rewrite F. split; intros [m W].
        - exists m. apply (walk_avoid _ _ _ _ _ W).
        - assert (K : forall j w, walk (next_of g) [] r j w -> ~ In w (concat (firstn i ps)) ).
          { clear w m W. intros j w W Z.
            (* w lies in an earlier piece; that piece contains all w reaches, hence r *)
            apply in_concat in Z as (d & Hd & Hw). apply In_nth_error in Hd as (i' & Hd).
            assert (Hi' : i' < i) by (assert (Z : i' < length (firstn i ps)) by (apply nth_error_Some; congruence); rewrite firstn_length in Z; lia).
            assert (Hd' : nth_error ps i' = Some d).
            { rewrite <- (firstn_skipn i ps). rewrite nth_error_app1 by (apply nth_error_Some; congruence). exact Hd. }
            assert (Closed : forall i d, nth_error ps i = Some d -> forall u, In u d -> forall j v, walk (next_of g) [] u j v -> In v (concat (firstn (S i) ps))).
            { clear - Q. intros i d Hd u Hu j v W. induction W as [|j x y W IH Hy _].
              - rewrite <- (firstn_skipn i ps) in Hd. apply in_concat. exists d. split; [|exact Hu].
                apply (nth_error_In (firstn (S i) ps) i).
                assert (Z : nth_error ps i = Some d) by (rewrite firstn_skipn in Hd; exact Hd). rewrite <- Z.
                rewrite <- (firstn_skipn (S i) ps) at 2. rewrite nth_error_app1; [reflexivity|].
                assert (i < length ps) by (apply nth_error_Some; congruence). rewrite firstn_length. lia.
              - apply in_concat in IH as (d2 & H2 & Hx). apply In_nth_error in H2 as (i2 & H2).
                assert (L2 : i2 < length (firstn (S i) ps)) by (apply nth_error_Some; congruence).
                assert (H2' : nth_error ps i2 = Some d2) by (rewrite <- (firstn_skipn (S i) ps), nth_error_app1; auto).
                destruct (Q i2 d2 H2') as (r2 & _ & _ & _ & F2 & _).
                destruct (in_dec Nat.eq_dec y (concat (firstn i2 ps))) as [Z|Z].
                + apply in_concat in Z as (d3 & H3 & Hy3). apply in_concat. exists d3. split; [|exact Hy3].
                  rewrite firstn_length in L2. apply In_nth_error in H3 as (i3 & H3).
                  assert (L3 : i3 < length (firstn i2 ps)) by (apply nth_error_Some; congruence). rewrite firstn_length in L3.
                  apply (nth_error_In _ i3). rewrite <- H3. rewrite <- (firstn_skipn i2 ps) at 1. 
                  assert (E3 : nth_error ps i3 = Some d3) by (rewrite <- (firstn_skipn i2 ps), nth_error_app1; [exact H3|rewrite firstn_length; lia]).
                  rewrite H3. rewrite firstn_skipn. rewrite <- E3. rewrite <- (firstn_skipn (S i) ps) at 2. rewrite nth_error_app1; [reflexivity|rewrite firstn_length; lia].
                + apply in_concat. exists d2. split; [apply (nth_error_In _ _ H2)|]. apply F2. apply F2 in Hx as [m2 W2]. exists (S m2). econstructor; eauto. }
            assert (Ir' : reaches g [] w r) by (apply Sy; [exact Ir|exists j; exact W]). destruct Ir' as [m' W'].
            pose proof (Closed i' d Hd' w Hw m' r W') as Z. 
            apply in_concat in Z as (d2 & H2 & Hr2). apply In_nth_error in H2 as (i2 & H2).
            assert (L2 : i2 < length (firstn (S i') ps)) by (apply nth_error_Some; congruence). rewrite firstn_length in L2.
            assert (H2' : nth_error ps i2 = Some d2) by (rewrite <- (firstn_skipn (S i') ps), nth_error_app1; [exact H2|rewrite firstn_length; lia]).
            assert (i2 = i); [|lia].
            clear - Nc H2' Hc Hr2 Hr. revert i i2 Hc H2'. induction ps as [|p ps IH]; intros i i2 Hc H2'; [destruct i; discriminate|].
            cbn [concat] in Nc. apply NoDup_app_inv in Nc as (N1 & N2 & N3). destruct i as [|i], i2 as [|i2]; cbn in Hc, H2'; auto.
            - exfalso. injection Hc as ->. apply (N3 r Hr). apply in_concat. exists d2. split; [apply (nth_error_In _ _ H2')|exact Hr2].
            - exfalso. injection H2' as ->. apply (N3 r Hr2). apply in_concat. exists c. split; [apply (nth_error_In _ _ Hc)|exact Hr]. }
          exists m. clear F. induction W as [|m u v W IH Hv Nv]; [constructor|]. econstructor; eauto. apply (K (S m)). econstructor; eauto. }
      intros r' Hr' w. rewrite (G w). apply G in Hr'.
      assert (Back : reaches g [] r' r) by (apply Sy; auto).
      split; intros [m W].
      - destruct Back as [m' W']. apply (walk_trans _ _ _ _ _ _ W' W).
      - destruct Hr' as [m' W']. apply (walk_trans _ _ _ _ _ _ W' W). }
    assert (Ik : incl kept (vertex_ids g)).
    { intros w Hw. apply (Permutation_in _ Pm), in_concat. exists kept. split; [apply (nth_error_In _ _ Hk)|exact Hw]. }
    assert (Vk : forall w, In w (vertex_ids g') <-> In w kept).
    { intros w. rewrite <- seen_ids, Sv. rewrite in_map_iff. split.
      - intros (x & <- & Hx). apply filter_In in Hx as [_ Hx]. apply mem_in. exact Hx.
      - intros Hw. pose proof (Ik w Hw) as Z. rewrite <- seen_ids in Z. apply in_map_iff in Z as (x & <- & Hx). exists x. split; [reflexivity|]. apply filter_In. split; [exact Hx|]. apply mem_in. exact Hw. }
    destruct (Q k kept Hk) as (r & _ & _ & Hr & _). exists g', r. split; [exact E|]. split; [apply Vk; exact Hr|].
    split; [intros w; rewrite Vk; apply (Piece k kept Hk r Hr)|]. split.
    - intros e. rewrite Se, filter_In, andb_true_iff, !mem_in. rewrite !(Piece k kept Hk r Hr). split; [tauto|].
      intros [He [m W]]. split; [exact He|]. split; [exists m; exact W|]. exists (S m). econstructor; [exact W| |auto].
      unfold seen_edges in He. apply in_map_iff in He as (f & <- & Hf). cbn [fst snd]. apply in_map. apply outs_of_in. auto.
    - intros v l Hv Nl Hl. assert (Z : In v (concat ps)) by (apply (Permutation_in _ (Permutation_sym Pm)); exact Hv).
      apply in_concat in Z as (c & Hc & Hvc). apply In_nth_error in Hc as (i & Hc).
      assert (Lc : length l <= length c). { apply NoDup_incl_length; [exact Nl|]. intros w Hw. apply (Piece i c Hc v Hvc). apply Hl. exact Hw. }
      destruct (Lk i c Hc) as [Lk' _]. assert (Nk : NoDup kept).
      { clear - Nc Hk. revert k Hk. induction ps as [|p ps IH]; intros k Hk; [destruct k; discriminate|]. cbn in Nc. apply NoDup_app_inv in Nc as (N1 & N2 & N3).
        destruct k; cbn in Hk; [injection Hk as <-; exact N1|eauto]. }
      assert (length kept <= length (vertex_ids g')) by (apply NoDup_incl_length; [exact Nk|intros w Hw; apply Vk; exact Hw]). lia.
  Qed.
End C17.

(** ** Cases *)
(** When every road can be driven both ways, every way has a way back. *)
Lemma two_way_back {P} (g : graph (node P) (road P)) :
  (forall e, In e (g_es g) -> exists o, In o (g_es g) /\ e_src o = e_tgt e /\ e_tgt o = e_src e) ->
  forall u v, reaches g [] u v -> reaches g [] v u.
Proof.
  intros T u v [k W]. induction W as [|k x y W IH Hy _]; [exists 0; constructor|].
  apply in_map_iff in Hy as (e & <- & He). apply outs_of_in in He as [He Se]. destruct (T e He) as (o & Ho & So & To).
  destruct IH as [m IH]. apply (walk_trans (next_of g) (e_tgt e) x u 1 m); [|exact IH].
  econstructor; [constructor| |intros []]. rewrite <- Se, <- To. apply in_map, outs_of_in. split; [exact Ho|exact So].
Qed.
(** two two-way islands, of two and of three vertices *)
Definition islands : list (op (node nat) (road nat)) :=
  [AddVertex (nd 0) Good; AddVertex (nd 1) Good; AddVertex (nd 2) Good; AddVertex (nd 3) Good; AddVertex (nd 4) Good;
   AddEdge 0 1 (rd 7 [0; 10]) Good Good Good; AddEdge 1 0 (rd 7 [10; 0]) Good Good Good;
   AddEdge 2 3 (rd 8 [20; 30]) Good Good Good; AddEdge 3 2 (rd 8 [30; 20]) Good Good Good;
   AddEdge 4 3 (rd 8 [40; 30]) Good Good Good; AddEdge 3 4 (rd 8 [30; 40]) Good Good Good].
Definition two_wayb (g : graph (node nat) (road nat)) : bool :=
  forallb (fun e => existsb (fun o => (e_src o =? e_tgt e) && (e_tgt o =? e_src e)) (g_es g)) (g_es g).
Lemma two_wayb_ok g : two_wayb g = true -> forall e, In e (g_es g) -> exists o, In o (g_es g) /\ e_src o = e_tgt e /\ e_tgt o = e_src e.
Proof.
  unfold two_wayb. rewrite forallb_forall. intros C e He. specialize (C e He). apply existsb_exists in C as (o & Ho & Q).
  apply andb_true_iff in Q as [A B]. apply Nat.eqb_eq in A, B. eauto.
Qed.
Lemma some_vertices (g : graph (node nat) (road nat)) : (length (g_vs g) =? 0) = false -> g_vs g <> [].
Proof. intros E Q. rewrite Q in E. discriminate. Qed.
Example islands_legal : legal_history Bidirectional empty_graph islands.
Proof. vm_compute. repeat split; auto 20. Qed.
Definition shape (o : outcome (graph (node nat) (road nat))) : option (list nat * list (nat * nat * list nat)) :=
  match o with Ok g => Some (vertex_ids g, map (fun e => (e_src e, e_tgt e, r_line (e_data e))) (g_es g)) | _ => None end.
Example C17_case : exact Bidirectional (make islands) /\ g_vs (make islands) <> [] /\
  (forall u v, In u (vertex_ids (make islands)) -> reaches (make islands) [] u v -> reaches (make islands) [] v u) /\
  shape (remove_unconnected (make islands)) = Some ([2; 3; 4], [(2, 3, [20; 30]); (3, 2, [30; 20]); (4, 3, [40; 30]); (3, 4, [30; 40])]).
Proof.
  split; [apply make_exact, islands_legal|]. split; [apply some_vertices; vm_compute; reflexivity|]. split; [|vm_compute; reflexivity].
  intros u v _. apply two_way_back, two_wayb_ok. vm_compute. reflexivity.
Qed.

(** *** What does not hold *)
(** With one-way roads the pieces depend on the order of the vertices: they are neither the parts that hang
    together (here all three vertices do, one is kept)... *)
Definition inwards : list (op (node nat) (road nat)) :=
  [AddVertex (nd 0) Good; AddVertex (nd 1) Good; AddVertex (nd 2) Good; AddEdge 1 0 (rd 7 [10; 0]) Good Good Good; AddEdge 2 1 (rd 7 [20; 10]) Good Good Good].
Theorem C17_one_way_refuted : exists (g : graph (node nat) (road nat)) g', exact Bidirectional g /\ indexed g /\
  (forall v, In v (vertex_ids g) -> reaches g [] 2 v) /\ length (vertex_ids g) = 3 /\ remove_unconnected g = Ok g' /\ vertex_ids g' = [0] /\ g_es g' = [].
Proof.
  exists (make inwards). eexists. split; [apply make_exact; vm_compute; repeat split; auto 20|]. split; [apply reindex_indexed|]. split.
  - intros v Hv. assert (W1 : walk (next_of (make inwards)) [] 2 1 1) by (apply (walk_edge _ _ _ 0 2); [constructor|vm_compute; auto|intros []]).
    assert (W0 : walk (next_of (make inwards)) [] 2 2 0) by (apply (walk_edge _ _ _ 1 1); [exact W1|vm_compute; auto|intros []]).
    assert (E : vertex_ids (make inwards) = [0; 1; 2]) by (vm_compute; reflexivity). rewrite E in Hv.
    destruct Hv as [<-|[<-|[<-|[]]]]; [exists 2; exact W0|exists 1; exact W1|exists 0; constructor].
  - split; [vm_compute; reflexivity|]. split; [vm_compute; reflexivity|]. split; vm_compute; reflexivity.
Qed.
(** ... nor the parts in which every vertex can be reached from every other (here both vertices stay). *)
Theorem C17_way_back_refuted : exists (g : graph (node nat) (road nat)) g' u v, exact Bidirectional g /\ indexed g /\
  remove_unconnected g = Ok g' /\ In u (vertex_ids g') /\ In v (vertex_ids g') /\ ~ reaches g [] u v.
Proof.
  exists (make [AddVertex (nd 0) Good; AddVertex (nd 1) Good; AddEdge 0 1 (rd 7 [0; 10]) Good Good Good]). eexists. exists 1, 0.
  split; [apply make_exact; vm_compute; repeat split; auto 20|]. split; [apply reindex_indexed|]. split; [vm_compute; reflexivity|].
  split; [vm_compute; auto|]. split; [vm_compute; auto|]. intros [k W]. 
  assert (G : forall k v, walk (next_of (make [AddVertex (nd 0) Good; AddVertex (nd 1) Good; AddEdge 0 1 (rd 7 [0; 10]) Good Good Good])) [] 1 k v -> v = 1).
  { clear. intros k v W. induction W as [|k x y W IH Hy _]; [reflexivity|]. subst x. vm_compute in Hy. destruct Hy. }
  apply G in W. discriminate.
Qed.
(** An empty network has no first piece to compare with. *)
Theorem C17_empty_refuted : exists (g : graph (node nat) (road nat)), exact Bidirectional g /\ indexed g /\ remove_unconnected g = UB.
Proof. exists (make []). split; [apply make_exact; exact I|]. split; [apply reindex_indexed|]. reflexivity. Qed.

Print Assumptions C17_largest_piece.
Print Assumptions C17_largest_component.
Print Assumptions C17_one_way_refuted.
Print Assumptions C17_way_back_refuted.
Print Assumptions C17_empty_refuted.
