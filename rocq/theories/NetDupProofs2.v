(** Proofs about the removal of duplicate nodes: joining roads at a gathered node, the loop. *)
From Coq Require Import String.
From Verif Require Import Base ListAux AdjList AdjListSpec AdjListProofs AdjListProofs2 AdjListProofs3 Tags TagsProps RichLine NetImport NetImportSpec
  NetImportProofs NetImportProofs2 NetImportProofs3 NetImportProofs4 NetImportProofs5 NetImportProofs7 NetImportProofs8 NetDupSpec NetDupProofs.

Section Dup2.
  Context {P Str : Type}.
  Variable eqp : P -> P -> bool.
  Hypothesis eqp_eq : forall p q, eqp p q = true <-> p = q.
  Notation graph := (graph (node P) (road P)).
  Notation edge := (@edge (road P)).
  Notation import := (import P Str).

  Lemma eqp_refl' p : eqp p p = true.
  Proof. apply eqp_eq. reflexivity. Qed.

  (** *** roads along roads along roads *)
  Lemma linked_at_mono pos (K K' : list P) (c : list edge) : incl K K' -> linked_at pos K c -> linked_at pos K' c.
  Proof.
    intros I. induction c as [|e c IH]; intros L; [exact L|]. destruct L as [A L]. split; [|apply IH; exact L]. destruct c as [|f c]; [exact Logic.I|].
    destruct A as (A & p & B & C). split; [exact A|]. exists p. auto.
  Qed.
  Lemma linked_at_app pos (K : list P) (a b : list edge) f h r p : linked_at pos K a -> linked_at pos K b -> a <> [] -> b = h :: r ->
    pos (e_tgt (last a f)) = pos (e_src h) -> pos (e_src h) = Some p -> In p K -> linked_at pos K (a ++ b).
  Proof.
    intros La Lb Na Eb E Hp Hk. induction a as [|x a IH]; [contradiction|]. destruct a as [|y a].
    - cbn [app]. rewrite Eb in *. cbn [last] in E. split; [|exact Lb]. split; [exact E|]. exists p. split; [congruence|exact Hk].
    - destruct La as [A La]. change ((x :: y :: a) ++ b) with (x :: (y :: a) ++ b). split; [exact A|]. apply IH; [exact La|discriminate|exact E].
  Qed.

  Section Flat.
    Variable pos : nat -> option P.
    Variables K K' : list P.
    Variable u : nat.
    Variable p : P.
    Variable es : list edge.
    Variable C : edge -> list edge.
    Hypothesis Hpos : pos u = Some p.
    Hypothesis HK : incl K K'.
    Hypothesis Hp : In p K'.
    Hypothesis HC : forall e, In e es -> along pos K (C e) e.
    Hypothesis Hline : forall e f, In e es -> In f (C e) -> line_of f <> [].

    Lemma along_flat : forall r f, linked [u] (f :: r) -> incl (f :: r) es ->
      exists f' r', flat_map C (f :: r) = f' :: r' /\ linked_at pos K' (f' :: r') /\ pos (e_src f) = pos (e_src f') /\
        pos (e_tgt (last (f :: r) f)) = pos (e_tgt (last (f' :: r') f')) /\ id_of f = id_of f' /\
        join (map line_of (f :: r)) = join (map line_of (f' :: r')).
    Proof.
      induction r as [|h r IH]; intros f L I.
      - destruct (HC f (I f (or_introl eq_refl))) as (f' & r' & E & Lk & A & B & D & F). exists f', r'. cbn [flat_map]. rewrite app_nil_r, E in *.
        split; [reflexivity|]. split; [apply (linked_at_mono pos K K' _ HK Lk)|]. split; [exact A|]. split; [exact B|]. split; [exact D|]. cbn [map join flat_map]. rewrite app_nil_r. exact F.
      - destruct L as [[E1 E2] L]. destruct (HC f (I f (or_introl eq_refl))) as (f' & r' & E & Lk & A & B & D & F).
        destruct (IH h L) as (h' & q' & Eh & Lh & Ah & Bh & Dh & Fh); [intros z Hz; apply I; right; exact Hz|].
        exists f', (r' ++ h' :: q'). change (flat_map C (f :: h :: r)) with (C f ++ flat_map C (h :: r)). rewrite Eh, E. split; [reflexivity|].
        assert (Hu : e_src h = u) by (destruct E2 as [E2|[]]; congruence). rewrite Hu in *.
        split.
        { apply (linked_at_app pos K' (f' :: r') (h' :: q') f' h' q' p); auto.
          - apply (linked_at_mono pos K K' _ HK). rewrite <- E. exact Lk.
          - discriminate.
          - rewrite E in B. rewrite <- B, E1. exact Ah.
          - rewrite <- Ah. exact Hpos. }
        split; [exact A|]. split.
        { change (f' :: r' ++ h' :: q') with ((f' :: r') ++ h' :: q'). rewrite (last_app_ne _ _ f') by discriminate.
          rewrite (last_map_default (h' :: q') f' h') by discriminate. rewrite <- Bh. change (last (f :: h :: r) f) with (last (h :: r) f).
          rewrite (last_map_default (h :: r) f h) by discriminate. reflexivity. }
        split; [exact D|]. change (f' :: r' ++ h' :: q') with ((f' :: r') ++ h' :: q').
        change (map line_of (f :: h :: r)) with ([line_of f] ++ map line_of (h :: r)). rewrite map_app.
        rewrite (join_app (map line_of (f' :: r'))); [|discriminate|discriminate|].
        + rewrite (join_app [line_of f]); [|discriminate|discriminate|].
          * rewrite Fh. f_equal. rewrite E in F. cbn [join flat_map]. rewrite app_nil_r. exact F.
          * intros l Hl. apply in_map_iff in Hl as (x & <- & Hx). assert (Ix : In x es) by (apply I; right; exact Hx).
            destruct (HC x Ix) as (x' & y' & Ex & _ & _ & _ & _ & Fx). rewrite Fx, Ex. cbn [map join]. 
            assert (Nx : line_of x' <> []) by (apply (Hline x x' Ix); rewrite Ex; left; reflexivity). destruct (line_of x'); [contradiction|discriminate].
        + intros l Hl. apply in_map_iff in Hl as (x & <- & Hx). rewrite <- Eh in Hx. apply in_flat_map in Hx as (y & Hy & Hx). apply (Hline y); auto. apply I. right. exact Hy.
    Qed.
  End Flat.

  Lemma gathers_refines complete (g0 : graph) (t0 : tags_state Str) (g : graph) (t : tags_state Str) K c (g' : graph) (t' : tags_state Str) u d p :
    drawn g0 -> gathers complete g0 t0 g t K c -> refines complete g t g' t' [u] d -> position g0 u = Some p ->
    gathers complete g0 t0 g' t' (p :: K) (fun k => flat_map (fun f => c (e_id f)) (d k)).
  Proof.
    intros D0 G R Hp.
    assert (In1 : forall e f, In e (g_es g') -> In f (d (e_id e)) -> In f (g_es g)).
    { intros e f He Hf. apply (Permutation_in f (rf_all _ _ _ _ _ _ _ R)). apply in_flat_map. eauto. }
    assert (In0 : forall e f, In e (g_es g) -> In f (c (e_id e)) -> In f (g_es g0)).
    { intros e f He Hf. apply (Permutation_in f (gt_all _ _ _ _ _ _ _ G)). apply in_flat_map. eauto. }
    constructor.
    - apply (rf_exact _ _ _ _ _ _ _ R).
    - apply (rf_drawn _ _ _ _ _ _ _ R).
    - intros e He. destruct (rf_course _ _ _ _ _ _ _ R e He) as (f & r & E & L & A & B & I & Ln).
      assert (Il : incl (f :: r) (g_es g)) by (intros z Hz; apply (In1 e z He); rewrite E; exact Hz). rewrite E in L.
      destruct (along_flat (position g0) K (p :: K) u p (g_es g) (fun f => c (e_id f)) Hp) with (r := r) (f := f) as (f' & r' & E' & L' & A' & B' & I' & Ln'); auto.
      { intros z Hz. right. exact Hz. }
      { left. reflexivity. }
      { apply (gt_along _ _ _ _ _ _ _ G). }
      { intros x y Hx Hy Q. destruct (D0 y (In0 x y Hx Hy)) as (Z & _). rewrite Q in Z. cbn in Z. lia. }
      exists f', r'. rewrite E, E'. split; [reflexivity|]. split; [exact L'|]. rewrite E in B, Ln. split; [rewrite A; exact A'|]. split; [rewrite B; exact B'|].
      split; [congruence|]. rewrite Ln. exact Ln'.
    - rewrite <- (gt_all _ _ _ _ _ _ _ G). rewrite <- (Permutation_flat_map (fun f => c (e_id f)) (rf_all _ _ _ _ _ _ _ R)).
      clear. induction (g_es g') as [|e es IH]; [reflexivity|]. cbn [flat_map]. rewrite flat_map_app. apply Permutation_app_head. exact IH.
    - rewrite (rf_vs _ _ _ _ _ _ _ R) at 1. rewrite (gt_vs _ _ _ _ _ _ _ G), filter_filter. apply filter_ext_in'. intros x Hx.
      destruct (existsb (Nat.eqb (fst x)) (vertex_ids g')) eqn:Q; [|apply andb_false_r]. rewrite andb_true_r. apply existsb_eqb_In. apply existsb_eqb_In in Q.
      rewrite <- seen_ids, (rf_vs _ _ _ _ _ _ _ R) in Q. apply in_map_iff in Q as (y & Ey & Hy). apply filter_In in Hy as [Hy _]. rewrite <- Ey, <- seen_ids. apply in_map. exact Hy.
    - intros Hc. destruct (gt_aware _ _ _ _ _ _ _ G Hc) as [A B]. destruct (rf_aware _ _ _ _ _ _ _ R Hc) as [A' B']. split; [congruence|].
      intros e f He Hf. apply in_flat_map in Hf as (h & Hh & Hf). rewrite (B h f (In1 e h He Hh) Hf). apply B'; auto.
    - intros e f He Hf. apply in_flat_map in Hf as (h & Hh & Hf). eapply incl_tran; [apply (gt_tags _ _ _ _ _ _ _ G h f (In1 e h He Hh) Hf)|apply (rf_tags _ _ _ _ _ _ _ R e h He Hh)].
    - intros n. rewrite (rf_nodes _ _ _ _ _ _ _ R). apply (gt_nodes _ _ _ _ _ _ _ G).
  Qed.

  Lemma gathers_more complete (g0 : graph) (t0 : tags_state Str) (g : graph) (t : tags_state Str) K c p :
    gathers complete g0 t0 g t K c -> gathers complete g0 t0 g t (p :: K) c.
  Proof.
    intros G. destruct G. constructor; auto. intros e He. destruct (gt_along e He) as (f & r & E & L & A). exists f, r. split; [exact E|]. split; [|exact A].
    apply (linked_at_mono (position g0) K); [intros z Hz; right; exact Hz|exact L].
  Qed.

  Lemma gathers_reindex complete (g0 : graph) (t0 : tags_state Str) (g : graph) (t : tags_state Str) K c : gathers complete g0 t0 g t K c -> gathers complete g0 t0 (reindex g) t K c.
  Proof.
    intros G. destruct G.
    assert (Q : forall e, In e (g_es (reindex g)) -> exists f, In f (g_es g) /\ e_id e = e_id f /\ e_src e = e_src f /\ e_tgt e = e_tgt f /\ e_data e = e_data f).
    { intros e He. unfold reindex in He. cbn [g_es] in He. apply reindex_es_in in He. exact He. }
    constructor.
    - apply reindex_exact. exact gt_exact.
    - intros e He. destruct (Q e He) as (f & Hf & E1 & E2 & E3 & E4). rewrite !reindex_position. unfold line_of. rewrite E2, E3, E4. apply gt_drawn. exact Hf.
    - intros e He. destruct (Q e He) as (f & Hf & E1 & E2 & E3 & E4). rewrite E1. destruct (gt_along f Hf) as (x & r & A & B & C & E & F & G).
      exists x, r. unfold id_of, line_of in *. rewrite E2, E3, E4. auto 8.
    - rewrite !flat_map_concat_map in *. rewrite <- (map_map e_id c) in *. rewrite reindex_edges_map by reflexivity. exact gt_all.
    - rewrite reindex_ids. rewrite <- gt_vs. unfold seen_vertices, reindex. cbn [g_vs]. apply reindex_vs_map. reflexivity.
    - intros Hc. destruct (gt_aware Hc) as [A B]. split; [exact A|]. intros e x He Hx. destruct (Q e He) as (f & Hf & E1 & E2 & E3 & E4). unfold id_of at 2. rewrite E4. rewrite E1 in Hx.
      apply (B f x Hf Hx).
    - intros e x He Hx. destruct (Q e He) as (f & Hf & E1 & E2 & E3 & E4). unfold id_of at 2. rewrite E4. rewrite E1 in Hx. apply (gt_tags f x Hf Hx).
    - exact gt_nodes.
  Qed.

  (** *** joining roads at one node *)
  Definition marks (s : import) := (i_running s, i_set s, i_vertex s).
  Lemma visit_here complete (s : import) v : exact Bidirectional (i_graph s) -> drawn (i_graph s) -> i_mem s = [] -> In v (vertex_ids (i_graph s)) ->
    exists b, is_mergeable eqp (i_graph s) v = Ok b /\ (b = true -> exists ms s' d,
      populate_merges (i_graph s) (i_tags s) complete v = Ok ms /\ merge_all eqp s ms = Ok s' /\
      refines complete (i_graph s) (i_tags s) (i_graph s') (i_tags s') [v] d /\ i_mem s' = [] /\ marks s' = marks s /\
      incl (vertex_ids (i_graph s')) (vertex_ids (i_graph s)) /\
      (forall w, In w (vertex_ids (i_graph s)) -> w <> v -> In w (vertex_ids (i_graph s'))) /\
      (forall w, w <> v -> length (ins_of (g_es (i_graph s')) w) = length (ins_of (g_es (i_graph s)) w))).
  Proof.
    intros H D Em Hv. destruct (is_mergeable_ok eqp (i_graph s) H v Hv) as (b & Eb & Mb). exists b. split; [exact Eb|]. intros ->. specialize (Mb eq_refl).
    rewrite (populate_ok (i_graph s) H (i_tags s) complete v Hv).
    set (ms := pick_ins (i_tags s) complete (ins_of (g_es (i_graph s)) v) (outs_of (g_es (i_graph s)) v) []).
    assert (Ch : chosen (i_tags s) complete (ins_of (g_es (i_graph s)) v) (outs_of (g_es (i_graph s)) v) ms).
    { apply pick_chosen; [apply incl_refl|]. split; [constructor|split; [constructor|intros p []]]. }
    clearbody ms.
    assert (R2 : refines complete (i_graph s) (i_tags s) (i_graph s) (i_tags s) [v] (start (i_graph s))).
    { pose proof (refines_start complete (i_graph s) (i_tags s) H D) as S0. destruct S0. constructor; auto.
      - intros e He. apply (course_mono []); auto. intros z [].
      - intros n k Hk. exists n. split; [constructor|exact Hk]. }
    destruct ms as [|[a b] ms].
    { exists [], s, (start (i_graph s)). split; [reflexivity|]. split; [reflexivity|]. split; [exact R2|]. split; [exact Em|]. split; [reflexivity|]. split; [apply incl_refl|]. auto. }
    destruct Ch as (Nf & Ns & Ch).
    destruct (Ch (a, b) (or_introl eq_refl)) as (i & o & Hi & Ho & Ep & F).
    assert (Fio : e_src i <> e_tgt o) by (apply (fits_spec (i_graph s) H (i_tags s) complete i o v Hi Ho) in F; tauto).
    pose proof (mergeable_noloop eqp (i_graph s) v i o Mb Hi Ho Fio) as NL.
    assert (Hms : forall p, In p ((a, b) :: ms) -> exists i o, In i (g_es (i_graph s)) /\ In o (g_es (i_graph s)) /\ p = (e_id i, e_id o) /\
       e_tgt i = v /\ e_src o = v /\ e_src i <> e_tgt o /\ (complete = false -> id_of i = id_of o)).
    { intros p Hp. destruct (Ch p Hp) as (i' & o' & Hi' & Ho' & Ep' & F').
      apply (fits_spec (i_graph s) H (i_tags s) complete i' o' v Hi' Ho') in F' as [F0 F']. apply ins_of_in in Hi' as [A1 A2]. apply outs_of_in in Ho' as [B1 B2].
      exists i', o'. repeat split; auto. intros Q. destruct F' as [F'|F']; [congruence|exact F']. }
    destruct (merge_all_ok eqp eqp_refl' complete (i_graph s) (i_tags s) [v] v D (or_introl eq_refl) ((a, b) :: ms) s _ R2 Em NL Nf Ns Hms)
      as (s' & d & A1 & A2 & A3 & A4 & A5 & A6 & A7 & A8 & _).
    exists ((a, b) :: ms), s', d. split; [reflexivity|]. split; [exact A1|]. split; [exact A2|]. split; [exact A3|]. split; [unfold marks; congruence|]. split; [exact A7|]. split; [exact A8|].
    intros w Nw. assert (Q := Permutation_length (origin_ins complete (i_graph s) (i_tags s) (i_graph s') (i_tags s') [v] d A2 w (fun Z => match Z with or_introl E => Nw (eq_sym E) | or_intror F => F end))).
    rewrite map_length in Q. exact Q.
  Qed.
End Dup2.
