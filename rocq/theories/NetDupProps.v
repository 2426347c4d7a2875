(** C18: removal of duplicate nodes and roads (network_import.hpp 156-266). *)
From Coq Require Import String.
From Verif Require Import Base ListAux AdjList AdjListSpec AdjListProofs AdjListProofs2 AdjListProofs3 AdjListProps Traverse TraverseSpec Tags TagsProps RichLine NetImport NetImportSpec
  NetImportProofs NetImportProofs2 NetImportProofs3 NetImportProofs4 NetImportProofs5 NetImportProofs7 NetImportProofs8 NetImportProps NetPiecesProps
  NetDupSpec NetDupProofs NetDupProofs2 NetDupProofs3.

Section C18.
  Context {P Str : Type}.
  Variable eqp : P -> P -> bool.
  Hypothesis eqp_eq : forall p q, eqp p q = true <-> p = q.
  Notation graph := (graph (node P) (road P)).
  Notation edge := (@edge (road P)).
  Notation import := (import P Str).

  (** What the removal of duplicate nodes may do.  [K] are the positions where roads were joined, [c] the
      roads of the original network which the road with a given identity of the new network runs along. *)
  Definition gathered (complete : bool) (s s' : import) (K : list P) (c : nat -> list edge) : Prop :=
    let g := i_graph s in
    let g' := i_graph s' in
    exact Bidirectional g' /\ drawn g' /\ indexed g' /\
    (* every road follows original roads and connects nodes at the same positions, no road is lost *)
    (forall e, In e (g_es g') -> along (position g) K (c (e_id e)) e) /\
    Permutation (flat_map (fun e => c (e_id e)) (g_es g')) (g_es g) /\
    (* the nodes left are as before *)
    seen_vertices g' = filter (fun x => existsb (Nat.eqb (fst x)) (vertex_ids g')) (seen_vertices g) /\
    (* tags *)
    (complete = false -> i_tags s' = i_tags s /\ forall e f, In e (g_es g') -> In f (c (e_id e)) -> id_of f = id_of e) /\
    (forall e f, In e (g_es g') -> In f (c (e_id e)) -> incl (edge_tags (i_tags s) (id_of f)) (edge_tags (i_tags s') (id_of e))) /\
    (forall n, node_tags (i_tags s') n = node_tags (i_tags s) n) /\
    (i_running s', i_set s', i_vertex s', i_mem s') = (i_running s, i_set s, i_vertex s, []).

  Lemma at_position_kept (g g' : graph) p : exact Bidirectional g -> exact Bidirectional g' ->
    seen_vertices g' = filter (fun x => existsb (Nat.eqb (fst x)) (vertex_ids g')) (seen_vertices g) ->
    length (at_position eqp g' p) = length (filter (fun w => lies eqp g p w && existsb (Nat.eqb w) (vertex_ids g')) (vertex_ids g)).
  Proof.
    intros H H' E. rewrite (at_position_ids eqp g' p (ex_vid _ _ H')).
    assert (Ei : vertex_ids g' = filter (fun w => existsb (Nat.eqb w) (vertex_ids g')) (vertex_ids g)).
    { rewrite <- (seen_ids g') at 1. rewrite E. rewrite <- (seen_ids g), filter_map_comm. reflexivity. }
    f_equal. rewrite Ei at 1. rewrite filter_filter. apply filter_ext_in'. intros w Hw.
    destruct (existsb (Nat.eqb w) (vertex_ids g')) eqn:Q; [|rewrite andb_false_r; reflexivity]. rewrite andb_true_r. cbn [andb].
    apply existsb_eqb_In in Q. unfold lies. rewrite (position_kept g g' w E Q). reflexivity.
  Qed.

  (** The pass gathers the roads of all nodes at a position at the first of them; it keeps every road and
      may join two of them where several nodes lay at one position.  Where nothing was joined only the
      first node is left.  (Unless an entry of a list is read after its release, see below.) *)
  Theorem C18_nodes freed simp complete (s : import) :
    exact Bidirectional (i_graph s) -> drawn (i_graph s) -> i_mem s = [] ->
    (freed = true -> forall v, later_copy eqp (i_graph s) v -> length (ins_of (g_es (i_graph s)) v) <= 1) ->
    exists s' K c, remove_duplicate_nodes eqp freed simp complete s = Ok s' /\ gathered complete s s' K c /\
      (forall v p, position (i_graph s) v = Some p -> ~ In p K ->
         (In v (vertex_ids (i_graph s')) <-> hd_error (at_position eqp (i_graph s) p) = Some v)) /\
      (forall p, 2 * length (at_position eqp (i_graph s') p) <= length (at_position eqp (i_graph s) p) + 1) /\
      (forall p, In p K -> exists a b, a <> b /\ position (i_graph s) a = Some p /\ position (i_graph s) b = Some p) /\
      (simp = false -> K = []).
  Proof.
    intros H D Em Hf. unfold remove_duplicate_nodes.
    destruct (dup_loop_ok eqp eqp_eq simp complete s H D freed (vertex_ids (i_graph s)) [] [] s [] (start (i_graph s)) (inv_start eqp simp complete s H D Em) eq_refl)
      as (m & s' & K & c & E & I).
    { intros Q v _. apply Hf. exact Q. }
    unfold vertex_ids in E. rewrite E. cbn [bindO].
    pose proof (gathers_reindex complete _ _ _ _ K c (di_g _ _ _ _ _ _ _ _ _ I)) as G. destruct G as [G1 G2 G3 G4 G5 G6 G7 G8].
    eexists; exists K, c. split; [reflexivity|]. unfold gathered. cbn zeta. cbn [i_graph i_tags i_running i_set i_vertex i_mem set_graph].
    split.
    { split; [exact G1|]. split; [exact G2|]. split; [apply reindex_indexed|]. split; [exact G3|]. split; [exact G4|]. split; [exact G5|]. split; [exact G6|]. split; [exact G7|]. split; [exact G8|].
      pose proof (di_marks _ _ _ _ _ _ _ _ _ I) as Mk. unfold marks in Mk. rewrite (di_mem _ _ _ _ _ _ _ _ _ I). congruence. }
    split.
    { intros v p Ep Np. rewrite reindex_ids. pose proof (position_in _ _ _ Ep) as Hv. destruct (di_first _ _ _ _ _ _ _ _ _ I v p Hv Ep Np) as (u & El & Hu & Wu).
      split; [intros Q; rewrite (Wu Q); exact Hu|]. intros Q. assert (u = v) by congruence. subst u. apply (di_map _ _ _ _ _ _ _ _ _ I p v El). }
    split.
    { intros p. rewrite (at_position_kept (i_graph s) (reindex (i_graph s')) p H G1 G5). pose proof (di_count _ _ _ _ _ _ _ _ _ I p) as C. unfold alive, count in C.
      rewrite (at_position_ids eqp _ p (ex_vid _ _ H)). rewrite reindex_ids. destruct (lookup eqp m p); lia. }
    split.
    { intros p Hp. destruct (di_two _ _ _ _ _ _ _ _ _ I p Hp) as (a & b & A & _ & _ & B & C). eauto. }
    apply (di_simp _ _ _ _ _ _ _ _ _ I).
  Qed.

  (** Without joining, the result is the original network with every node replaced by the first node at its
      position. *)
  Definition first_copy (g : graph) (v : nat) : nat :=
    match position g v with Some p => match at_position eqp g p with u :: _ => u | [] => v end | None => v end.
  Theorem C18_first_copies freed complete (s : import) :
    exact Bidirectional (i_graph s) -> drawn (i_graph s) -> i_mem s = [] ->
    (freed = true -> forall v, later_copy eqp (i_graph s) v -> length (ins_of (g_es (i_graph s)) v) <= 1) ->
    exists s', remove_duplicate_nodes eqp freed false complete s = Ok s' /\
      (forall v, In v (vertex_ids (i_graph s')) <-> In v (vertex_ids (i_graph s)) /\ first_copy (i_graph s) v = v) /\
      (forall u v p, position (i_graph s') u = Some p -> position (i_graph s') v = Some p -> u = v) /\
      Permutation (map (fun e => (e_src e, e_tgt e, id_of e, line_of e)) (g_es (i_graph s')))
        (map (fun e => (first_copy (i_graph s) (e_src e), first_copy (i_graph s) (e_tgt e), id_of e, line_of e)) (g_es (i_graph s))).
  Proof.
    intros H D Em Hf. destruct (C18_nodes freed false complete s H D Em Hf) as (s' & K & c & E & G & F & _ & _ & HK). specialize (HK eq_refl). subst K.
    exists s'. split; [exact E|]. destruct G as (G1 & G2 & _ & G3 & G4 & G5 & _).
    assert (Sub : incl (vertex_ids (i_graph s')) (vertex_ids (i_graph s))).
    { intros w Hw. rewrite <- seen_ids, G5 in Hw. apply in_map_iff in Hw as (x & <- & Hx). apply filter_In in Hx as [Hx _]. rewrite <- seen_ids. apply in_map. exact Hx. }
    assert (Fc : forall v p, position (i_graph s) v = Some p -> hd_error (at_position eqp (i_graph s) p) = Some (first_copy (i_graph s) v)).
    { intros v p Ep. unfold first_copy. rewrite Ep. assert (Q : In v (at_position eqp (i_graph s) p)).
      { rewrite (at_position_ids eqp _ p (ex_vid _ _ H)). apply filter_In. split; [apply (position_in _ _ _ Ep)|apply (lies_spec eqp eqp_eq); exact Ep]. }
      destruct (at_position eqp (i_graph s) p); [destruct Q|reflexivity]. }
    assert (V : forall v, In v (vertex_ids (i_graph s')) <-> In v (vertex_ids (i_graph s)) /\ first_copy (i_graph s) v = v).
    { intros v. split.
      - intros Hv. pose proof (Sub v Hv) as Hv0. destruct (position_some _ v Hv0) as [p Ep]. split; [exact Hv0|]. apply (F v p Ep) in Hv; [|intros []]. rewrite (Fc v p Ep) in Hv. congruence.
      - intros [Hv Q]. destruct (position_some _ v Hv) as [p Ep]. apply (F v p Ep); [intros []|]. rewrite (Fc v p Ep). congruence. }
    split; [exact V|]. split.
    { intros u v p Hu Hv. pose proof (position_in _ _ _ Hu) as Iu. pose proof (position_in _ _ _ Hv) as Iv.
      rewrite (position_kept (i_graph s) _ u G5 Iu) in Hu. rewrite (position_kept (i_graph s) _ v G5 Iv) in Hv.
      apply (F u p Hu) in Iu; [|intros []]. apply (F v p Hv) in Iv; [|intros []]. congruence. }
    set (old := fun e : edge => hd e (c (e_id e))).
    assert (Old : forall e, In e (g_es (i_graph s')) -> c (e_id e) = [old e] /\ In (old e) (g_es (i_graph s)) /\ id_of e = id_of (old e) /\ line_of e = line_of (old e) /\
              e_src e = first_copy (i_graph s) (e_src (old e)) /\ e_tgt e = first_copy (i_graph s) (e_tgt (old e))).
    { intros e He. destruct (G3 e He) as (f & r & Ec & L & A & B & C & Ln). assert (r = []).
      { destruct r as [|h r]; [reflexivity|]. rewrite Ec in L. cbn [linked_at] in L. destruct L as [(_ & p & _ & []) _]. }
      subst r. assert (Eo : old e = f) by (unfold old; rewrite Ec; reflexivity). rewrite Eo. rewrite Ec in *. cbn [last] in B. split; [reflexivity|].
      assert (Hf0 : In f (g_es (i_graph s))). { apply (Permutation_in f G4). apply in_flat_map. exists e. rewrite Ec. split; [exact He|left; reflexivity]. }
      split; [exact Hf0|]. split; [exact C|]. split; [rewrite Ln; cbn; apply app_nil_r|].
      destruct (ex_end _ _ G1 e He) as [Vs Vt]. destruct (ex_end _ _ H f Hf0) as [Fs Ft].
      destruct (position_some _ _ Fs) as [p Ps]. destruct (position_some _ _ Ft) as [q Pt]. split.
      - pose proof (Fc _ _ Ps) as Z. rewrite Ps in A. apply (F (e_src e) p A) in Vs; [|intros []]. congruence.
      - pose proof (Fc _ _ Pt) as Z. rewrite Pt in B. apply (F (e_tgt e) q B) in Vt; [|intros []]. congruence. }
    rewrite <- G4. assert (Efm : flat_map (fun e => c (e_id e)) (g_es (i_graph s')) = map old (g_es (i_graph s'))).
    { clear - Old. induction (g_es (i_graph s')) as [|e es IH]; [reflexivity|]. cbn [flat_map map]. rewrite (proj1 (Old e (or_introl eq_refl))). cbn [app]. f_equal. apply IH. intros x Hx. apply Old. right. exact Hx. }
    rewrite Efm, map_map. apply Permutation_refl'. apply map_ext_in. intros e He. destruct (Old e He) as (_ & _ & A & B & C & D'). congruence.
  Qed.

  (** If a later copy has two or more roads leading to it, the pass reads an entry of its list of
      incoming roads after releasing it. *)
  Theorem C18_released simp complete (s : import) v p a b :
    exact Bidirectional (i_graph s) -> drawn (i_graph s) -> i_mem s = [] ->
    position (i_graph s) v = Some p -> at_position eqp (i_graph s) p = a ++ v :: b -> length a = 1 \/ a <> [] /\ simp = false ->
    2 <= length (ins_of (g_es (i_graph s)) v) -> remove_duplicate_nodes eqp true simp complete s = UB.
  Proof.
    intros H D Em Ep Ea C L. unfold remove_duplicate_nodes.
    assert (E := dup_loop_freed eqp eqp_eq simp complete s H D v p Ep L (vertex_ids (i_graph s)) [] [] s [] (start (i_graph s)) (inv_start eqp simp complete s H D Em) eq_refl (position_in _ _ _ Ep)).
    unfold vertex_ids in E. rewrite E; [reflexivity|eauto].
  Qed.

  (** *** Repeated roads *)
  Lemma eq_lines_eq (a : list P) : forall b, eq_lines eqp a b = true <-> a = b.
  Proof.
    induction a as [|x a IH]; intros [|y b]; cbn [eq_lines]; try (split; [discriminate|congruence]); [split; reflexivity|].
    rewrite andb_true_iff, eqp_eq, IH. split; [intros [-> ->]; reflexivity|intros Q; injection Q; auto].
  Qed.
  Lemma eq_road_eq (a b : road P) : eq_road eqp a b = true <-> a = b.
  Proof.
    unfold eq_road. rewrite andb_true_iff, Nat.eqb_eq, eq_lines_eq. destruct a, b. cbn. split; [intros [-> ->]; reflexivity|intros Q; injection Q; auto].
  Qed.

  (** the first of the roads with the same data *)
  Definition first_road (es : list edge) (e : edge) : Prop := exists a b, es = a ++ e :: b /\ forall x, In x a -> e_data x <> e_data e.

  Lemma dup_edges_ok (g0 : graph) : exact Bidirectional g0 -> forall r pre g seen re,
    g_es g0 = pre ++ r -> exact Bidirectional g -> seen_vertices g = seen_vertices g0 ->
    (exists q, g = canon Bidirectional g0 (filter q (g_es g0)) (g_next g0) /\ (forall e, In e r -> q e = true) /\ (forall e, In e pre -> (q e = true <-> first_road (g_es g0) e)) /\
      (re = false -> forall e, In e pre -> q e = true)) ->
    (forall d, In d seen <-> exists x, In x pre /\ e_data x = d) ->
    exists g' re', dup_edges_loop eqp false g (map e_id r) seen re = Ok (g', re') /\ exact Bidirectional g' /\ seen_vertices g' = seen_vertices g0 /\
      exists q, g' = canon Bidirectional g0 (filter q (g_es g0)) (g_next g0) /\ (forall e, In e (g_es g0) -> (q e = true <-> first_road (g_es g0) e)) /\
        (re' = false -> forall e, In e (g_es g0) -> q e = true).
  Proof.
    intros H0. induction r as [|e r IH]; intros pre g seen re Ee H Sv (q & Eg & Qr & Qp & Qn) Hs.
    - exists g, re. cbn. split; [reflexivity|]. split; [exact H|]. split; [exact Sv|]. exists q. rewrite app_nil_r in Ee. rewrite Ee in *. rewrite <- Ee in *. auto.
    - assert (He0 : In e (g_es g0)) by (rewrite Ee; apply in_app_iff; right; left; reflexivity).
      assert (He : In e (g_es g)). { rewrite Eg. cbn [canon g_es]. apply filter_In. split; [exact He0|]. apply Qr. left. reflexivity. }
      cbn [map dup_edges_loop]. rewrite (get_edge_of _ _ _ H He). cbn [derefO].
      assert (Ne : NoDup (map e_id (g_es g0))) by apply (ex_eid _ _ H0).
      assert (Uniq : forall a b, g_es g0 = a ++ e :: b -> a = pre /\ b = r).
      { intros a b Eab. rewrite Ee in Eab, Ne. clear - Eab Ne. revert a Eab. induction pre as [|x pre IHp]; intros [|y a] E; cbn in E.
        - injection E as ->. auto.
        - injection E as -> ->. exfalso. cbn in Ne. inversion Ne as [|? ? N _]; subst. apply N. rewrite map_app. apply in_app_iff. right. left. reflexivity.
        - injection E as -> <-. exfalso. cbn in Ne. inversion Ne as [|? ? N _]; subst. apply N. rewrite map_app. apply in_app_iff. right. left. reflexivity.
        - injection E as -> E. cbn in Ne. inversion Ne; subst. destruct (IHp H2 a E) as [-> ->]. auto. }
      assert (First : first_road (g_es g0) e <-> ~ In (e_data e) seen).
      { rewrite Hs. split.
        - intros (a & b & Eab & N) (x & Hx & Q). destruct (Uniq a b Eab) as [-> _]. apply (N x Hx Q).
        - intros N. exists pre, r. split; [exact Ee|]. intros x Hx Q. apply N. eauto. }
      assert (Hex : existsb (fun d => eq_road eqp d (e_data e)) seen = true <-> In (e_data e) seen).
      { rewrite existsb_exists. split; [intros (d & Hd & Q); apply eq_road_eq in Q; congruence|intros Q; exists (e_data e); split; [exact Q|apply eq_road_eq; reflexivity]]. }
      destruct (existsb (fun d => eq_road eqp d (e_data e)) seen) eqn:Ex.
      + assert (Hin : In (e_data e) seen) by (apply Hex; reflexivity). rewrite remove_edge_effect; [|exact H|apply in_map; exact He]. cbn [bindO].
        set (q' := fun x => q x && negb (e_id x =? e_id e)).
        assert (Eg' : canon Bidirectional g (filter (fun x => negb (e_id x =? e_id e)) (g_es g)) (g_next g) = canon Bidirectional g0 (filter q' (g_es g0)) (g_next g0)).
        { rewrite Eg. rewrite canon_canon. cbn [canon g_es g_next]. rewrite filter_filter. reflexivity. }
        assert (Other : forall x, In x pre \/ In x r -> (e_id x =? e_id e) = false).
        { intros x Hx. apply Nat.eqb_neq. intros Q. rewrite Ee, map_app in Ne. cbn in Ne. apply NoDup_remove_2 in Ne. apply Ne. rewrite <- Q, in_app_iff. destruct Hx; [left|right]; apply in_map; assumption. }
        apply (IH (pre ++ [e])).
        * rewrite Ee, <- app_assoc. reflexivity.
        * apply exact_filter. exact H.
        * rewrite <- Sv. unfold seen_vertices, canon. cbn. rewrite map_map. reflexivity.
        * exists q'. split; [exact Eg'|]. split; [intros x Hx; unfold q'; rewrite (Qr x (or_intror Hx)), (Other x (or_intror Hx)); reflexivity|]. split; [|discriminate].
          intros x Hx. unfold q'. apply in_app_iff in Hx as [Hx|[<-|[]]]; [rewrite (Other x (or_introl Hx)), andb_true_r; apply Qp; exact Hx|].
          rewrite Nat.eqb_refl, andb_false_r. split; [discriminate|]. intros F. apply First in F. contradiction.
        * intros d. rewrite Hs. split; [intros (x & Hx & Q); exists x; rewrite in_app_iff; auto|]. intros (x & Hx & Q). apply in_app_iff in Hx as [Hx|[<-|[]]]; [eauto|]. apply Hs. congruence.
      + assert (Nin : ~ In (e_data e) seen) by (intros Q; apply Hex in Q; congruence). apply (IH (pre ++ [e])); auto.
        * rewrite Ee, <- app_assoc. reflexivity.
        * exists q. split; [exact Eg|]. split; [intros x Hx; apply Qr; right; exact Hx|]. split.
          { intros x Hx. apply in_app_iff in Hx as [Hx|[<-|[]]]; [apply Qp; exact Hx|]. split; [intros _; apply First; exact Nin|intros _; apply Qr; left; reflexivity]. }
          intros Qf x Hx. apply in_app_iff in Hx as [Hx|[<-|[]]]; [auto|apply Qr; left; reflexivity].
        * intros d. cbn [In]. rewrite Hs. split.
          { intros [<-|(x & Hx & Q)]; [exists e; split; [apply in_app_iff; right; left; reflexivity|reflexivity]|exists x; rewrite in_app_iff; auto]. }
          intros (x & Hx & Q). apply in_app_iff in Hx as [Hx|[<-|[]]]; [right; eauto|left; exact Q].
  Qed.

  (** Of the roads with the same identifier and line the first is kept - provided that reading the road just
      removed still yields its old value. *)
  Theorem C18_edges (g : graph) : exact Bidirectional g ->
    exists g', remove_duplicate_edges eqp false g = Ok g' /\ exact Bidirectional g' /\ seen_vertices g' = seen_vertices g /\
      seen_edges g' = filter (fun x => existsb (Nat.eqb (fst (fst x))) (edge_ids g')) (seen_edges g) /\
      (forall e, In e (g_es g) -> (In (e_id e) (edge_ids g') <-> first_road (g_es g) e)) /\
      (indexed g -> indexed g').
  Proof.
    intros H. unfold remove_duplicate_edges.
    destruct (dup_edges_ok g H (g_es g) [] g [] false eq_refl H eq_refl) as (g' & re & E & H' & Sv & q & Eg & Q & Qf).
    { exists (fun _ => true). split; [|split; [auto|split; [intros e []|auto]]]. rewrite filter_true by auto. symmetry. apply canon_self. exact H. }
    { intros d. split; [intros []|intros (x & [] & _)]. }
    rewrite E. cbn [bindO snd fst].
    assert (Ids : forall g1 : graph, map e_id (g_es g1) = map e_id (g_es g') -> forall e, In e (g_es g) -> (In (e_id e) (edge_ids g1) <-> q e = true)).
    { intros g1 E1 e He. unfold edge_ids. rewrite E1, Eg. cbn [canon g_es]. rewrite in_map_iff. split.
      - intros (x & Ex & Hx). apply filter_In in Hx as [Hx Qx]. rewrite <- (eid_inj _ _ _ _ H Hx He Ex). exact Qx.
      - intros Qe. exists e. split; [reflexivity|]. apply filter_In. auto. }
    assert (Se : forall g1 : graph, map e_id (g_es g1) = map e_id (g_es g') -> seen_edges g1 = seen_edges g' ->
              seen_edges g1 = filter (fun x => existsb (Nat.eqb (fst (fst x))) (edge_ids g1)) (seen_edges g)).
    { intros g1 E1 E2. rewrite E2, Eg. unfold seen_edges. cbn [canon g_es]. rewrite filter_map_comm. f_equal. apply filter_ext_in'. intros e He. cbn [fst].
      apply Bool.eq_iff_eq_true. rewrite existsb_eqb_In. symmetry. apply Ids; auto. }
    destruct re.
    - exists (reindex g'). assert (E1 : map e_id (g_es (reindex g')) = map e_id (g_es g')) by (unfold reindex; cbn [g_es]; apply reindex_es_map; reflexivity).
      split; [reflexivity|]. split; [apply reindex_exact; exact H'|].
      split; [rewrite <- Sv; unfold seen_vertices, reindex; cbn [g_vs]; apply reindex_vs_map; reflexivity|].
      split; [apply Se; [exact E1|unfold seen_edges, reindex; cbn [g_es]; apply reindex_es_map; reflexivity]|].
      split; [intros e He; rewrite (Ids _ E1 e He); apply Q; exact He|]. intros _. apply reindex_indexed.
    - exists g'. split; [reflexivity|]. split; [exact H'|]. split; [exact Sv|]. split; [apply Se; reflexivity|].
      split; [intros e He; rewrite (Ids _ eq_refl e He); apply Q; exact He|]. intros Ix.
      assert (Z : filter q (g_es g) = g_es g) by (apply filter_true; intros e He; apply Qf; auto). rewrite Z in Eg. rewrite Eg, canon_self by exact H. exact Ix.
  Qed.

  Lemma edges_unchanged freed (g : graph) : exact Bidirectional g -> forall r seen re, incl r (g_es g) -> NoDup (map e_data r) ->
    (forall e, In e r -> ~ In (e_data e) seen) -> dup_edges_loop eqp freed g (map e_id r) seen re = Ok (g, re).
  Proof.
    intros H. induction r as [|e r IH]; intros seen re I N D; [reflexivity|]. cbn [map dup_edges_loop]. rewrite (get_edge_of _ _ _ H (I e (or_introl eq_refl))). cbn [derefO].
    assert (E : existsb (fun d => eq_road eqp d (e_data e)) seen = false).
    { destruct (existsb _ seen) eqn:Q; [|reflexivity]. apply existsb_exists in Q as (d & Hd & Q). apply eq_road_eq in Q. subst d. exfalso. apply (D e (or_introl eq_refl) Hd). }
    rewrite E. inversion N as [|? ? N1 N2]; subst. apply IH; [intros x Hx; apply I; right; exact Hx|exact N2|].
    intros x Hx [Q|Q]; [apply N1; rewrite Q; apply in_map; exact Hx|]. apply (D x (or_intror Hx) Q).
  Qed.
  Lemma edges_released (g : graph) : exact Bidirectional g -> forall a y c seen re, incl (a ++ y :: c) (g_es g) ->
    In (e_data y) seen \/ (exists x, In x a /\ e_data x = e_data y) -> dup_edges_loop eqp true g (map e_id (a ++ y :: c)) seen re = UB.
  Proof.
    intros H. induction a as [|x a IH]; intros y c seen re I Q; cbn [app map dup_edges_loop].
    - rewrite (get_edge_of _ _ _ H (I y (or_introl eq_refl))). cbn [derefO]. destruct Q as [Q|(x & [] & _)].
      assert (E : existsb (fun d => eq_road eqp d (e_data y)) seen = true) by (apply existsb_exists; exists (e_data y); split; [exact Q|apply eq_road_eq; reflexivity]).
      rewrite E. rewrite remove_edge_effect; [reflexivity|exact H|apply in_map, I; left; reflexivity].
    - rewrite (get_edge_of _ _ _ H (I x (or_introl eq_refl))). cbn [derefO]. destruct (existsb (fun d => eq_road eqp d (e_data x)) seen).
      + rewrite remove_edge_effect; [reflexivity|exact H|apply in_map, I; left; reflexivity].
      + apply IH; [intros z Hz; apply I; right; exact Hz|]. destruct Q as [Q|(z & [<-|Hz] & Q)]; [left; right; exact Q|left; left; exact Q|right; eauto].
  Qed.
  (** Without repeated roads nothing happens; with one, the removed road is read. *)
  Theorem C18_distinct_edges freed (g : graph) : exact Bidirectional g -> NoDup (map e_data (g_es g)) -> remove_duplicate_edges eqp freed g = Ok g.
  Proof.
    intros H N. unfold remove_duplicate_edges. rewrite (edges_unchanged freed g H (g_es g) [] false); auto. apply incl_refl.
  Qed.
  Theorem C18_removed_edge (g : graph) a x b y c : exact Bidirectional g -> g_es g = a ++ x :: b ++ y :: c -> e_data x = e_data y ->
    remove_duplicate_edges eqp true g = UB.
  Proof.
    intros H E Q. unfold remove_duplicate_edges.
    assert (E' : g_es g = (a ++ x :: b) ++ y :: c) by (rewrite E, <- app_assoc; reflexivity).
    assert (Z : dup_edges_loop eqp true g (map e_id ((a ++ x :: b) ++ y :: c)) [] false = UB).
    { apply edges_released; [exact H|rewrite <- E'; apply incl_refl|]. right. exists x. split; [apply in_app_iff; right; left; reflexivity|exact Q]. }
    rewrite E', Z. reflexivity.
  Qed.
End C18.

(** ** Cases *)
Definition put (i pos : nat) : op (node nat) (road nat) := AddVertex (mkNode i pos) Good.
Definition way (s t i : nat) (l : list nat) : op (node nat) (road nat) := AddEdge s t (rd i l) Good Good Good.
Lemma nat_eq_eq p q : Nat.eqb p q = true <-> p = q.
Proof. apply Nat.eqb_eq. Qed.

(** two nodes at the position 10, one road to the first, one from the second *)
Definition copies := [put 0 0; put 1 10; put 2 10; put 3 20; way 0 1 7 [0; 5; 10]; way 2 3 8 [10; 20]].
Definition copies_s := fresh_import copies [].
Definition few_ins (s : import nat string) : Prop := forall v, length (ins_of (g_es (i_graph s)) v) <= 1.
Lemma few_ins_ok (s : import nat string) :
  forallb (fun e => length (ins_of (g_es (i_graph s)) (e_tgt e)) <=? 1) (g_es (i_graph s)) = true -> few_ins s.
Proof.
  intros C v. destruct (ins_of (g_es (i_graph s)) v) as [|e l] eqn:E; [cbn; lia|]. assert (He : In e (ins_of (g_es (i_graph s)) v)) by (rewrite E; left; reflexivity).
  apply ins_of_in in He as [He <-]. rewrite forallb_forall in C. specialize (C e He). apply Nat.leb_le in C. rewrite E in C. exact C.
Qed.
Example copies_legal : legal_history Bidirectional empty_graph copies.
Proof. vm_compute. repeat split; auto 20. Qed.
Example C18_case : exact Bidirectional (i_graph copies_s) /\ drawn (i_graph copies_s) /\ i_mem copies_s = [] /\
  (forall v, later_copy Nat.eqb (i_graph copies_s) v -> length (ins_of (g_es (i_graph copies_s)) v) <= 1).
Proof.
  split; [apply make_exact, copies_legal|]. split; [apply drawnb_ok; vm_compute; reflexivity|]. split; [reflexivity|].
  intros v _. apply few_ins_ok. vm_compute. reflexivity.
Qed.
Example C18_case_gathered : roads_of (remove_duplicate_nodes Nat.eqb true false true copies_s) = [(0, 1, [0; 5; 10]); (1, 3, [10; 20])].
Proof. vm_compute. reflexivity. Qed.
Example C18_case_joined : roads_of (remove_duplicate_nodes Nat.eqb true true true copies_s) = [(0, 3, [0; 5; 10; 20])].
Proof. vm_compute. reflexivity. Qed.
Definition repeated := make [put 0 0; put 1 10; way 0 1 7 [0; 10]; way 0 1 7 [0; 10]; way 1 0 7 [10; 0]].
Example C18_case_edges : exact Bidirectional repeated /\ match remove_duplicate_edges Nat.eqb false repeated with
  | Ok g => map (fun e => (e_src e, e_tgt e)) (g_es g) = [(0, 1); (1, 0)] | _ => False end.
Proof. split; [apply make_exact; vm_compute; repeat split; auto 20|vm_compute; reflexivity]. Qed.

(** *** What does not hold *)
(** The pass forgets a position where it joined roads.  A third node there is then not connected to the
    others: here the way from 0 to 5 by way of position 10 exists when nothing is joined, not otherwise. *)
Definition junction := [put 0 0; put 1 10; put 2 10; put 3 20; put 4 10; put 5 30; way 0 1 7 [0; 10]; way 2 3 8 [10; 20]; way 4 5 9 [10; 30]].
Theorem C18_junction_refuted : exists (s s1 s2 : import nat string), exact Bidirectional (i_graph s) /\ drawn (i_graph s) /\ few_ins s /\ i_mem s = [] /\
  remove_duplicate_nodes Nat.eqb true false true s = Ok s1 /\ remove_duplicate_nodes Nat.eqb true true true s = Ok s2 /\
  reaches (i_graph s1) [] 0 5 /\ ~ reaches (i_graph s2) [] 0 5 /\ In 0 (vertex_ids (i_graph s2)) /\ In 5 (vertex_ids (i_graph s2)).
Proof.
  exists (fresh_import junction []). eexists; eexists. split; [apply make_exact; vm_compute; repeat split; auto 20|].
  split; [apply drawnb_ok; vm_compute; reflexivity|]. split; [apply few_ins_ok; vm_compute; reflexivity|]. split; [reflexivity|].
  split; [vm_compute; reflexivity|]. split; [vm_compute; reflexivity|]. split; [|split; [|split; vm_compute; auto 8]].
  - exists 2. apply (walk_edge _ _ _ 1 1); [apply (walk_edge _ _ _ 0 0); [constructor|vm_compute; auto|intros []]|vm_compute; auto|intros []].
  - match goal with |- ~ reaches ?g _ _ _ => set (h := g) end. intros [k W].
    assert (Q : forall k v, walk (next_of h) [] 0 k v -> v = 0 \/ v = 3).
    { clear k W. intros k v W. induction W as [|k u v W IH Hv _]; [auto|]. destruct IH as [-> | ->]; vm_compute in Hv; cbn in Hv; intuition. }
    destruct (Q k 5 W); discriminate.
Qed.
(** A position is forgotten even if nothing could be joined there; then two nodes stay at it. *)
Definition turning := [put 0 0; put 1 10; put 2 10; put 3 10; way 0 1 7 [0; 10]; way 2 0 8 [10; 0]; way 0 3 9 [0; 10]].
Theorem C18_third_copy_refuted : exists (s s' : import nat string), exact Bidirectional (i_graph s) /\ drawn (i_graph s) /\ few_ins s /\ i_mem s = [] /\
  remove_duplicate_nodes Nat.eqb true true true s = Ok s' /\ at_position Nat.eqb (i_graph s') 10 = [1; 3].
Proof.
  exists (fresh_import turning []). eexists. split; [apply make_exact; vm_compute; repeat split; auto 20|].
  split; [apply drawnb_ok; vm_compute; reflexivity|]. split; [apply few_ins_ok; vm_compute; reflexivity|]. split; [reflexivity|].
  split; [vm_compute; reflexivity|]. vm_compute. reflexivity.
Qed.
(** Both passes read released memory on common networks. *)
Definition two_ins := [put 0 0; put 1 10; put 2 10; put 3 20; way 0 2 7 [0; 10]; way 3 2 8 [20; 10]].
Theorem C18_released_refuted : exists (s : import nat string), exact Bidirectional (i_graph s) /\ drawn (i_graph s) /\ i_mem s = [] /\
  forall simp complete, remove_duplicate_nodes Nat.eqb true simp complete s = UB.
Proof.
  exists (fresh_import two_ins []). split; [apply make_exact; vm_compute; repeat split; auto 20|].
  split; [apply drawnb_ok; vm_compute; reflexivity|]. split; [reflexivity|]. intros [] []; vm_compute; reflexivity.
Qed.
Theorem C18_repeated_road_refuted : exists g : graph (node nat) (road nat), exact Bidirectional g /\ remove_duplicate_edges Nat.eqb true g = UB.
Proof. exists repeated. split; [exact (proj1 C18_case_edges)|]. vm_compute. reflexivity. Qed.

Print Assumptions C18_nodes.
Print Assumptions C18_first_copies.
Print Assumptions C18_released.
Print Assumptions C18_edges.
Print Assumptions C18_distinct_edges.
Print Assumptions C18_removed_edge.
Print Assumptions C18_junction_refuted.
Print Assumptions C18_third_copy_refuted.
Print Assumptions C18_released_refuted.
Print Assumptions C18_repeated_road_refuted.
