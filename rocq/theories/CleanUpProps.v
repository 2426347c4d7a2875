(** C64: the clean-up passes one after the other (app/prepare.hpp 109-146, 219-225). *)
From Coq Require Import String.
From Verif Require Import Base ListAux AdjList AdjListSpec AdjListProofs AdjListProofs2 AdjListProofs3 AdjListProps Traverse TraverseSpec Tags TagsProps RichLine NetImport NetImportSpec
  NetImportProofs NetImportProofs2 NetImportProofs3 NetImportProofs4 NetImportProofs5 NetImportProofs7 NetImportProofs8 NetImportProps NetPiecesProps
  NetDupSpec NetDupProofs NetDupProofs2 NetDupProofs3 NetDupProps.

Section C64.
  Context {P Str : Type}.
  Variable eqp : P -> P -> bool.
  Hypothesis eqp_eq : forall p q, eqp p q = true <-> p = q.
  Notation graph := (graph (node P) (road P)).
  Notation edge := (@edge (road P)).
  Notation import := (import P Str).

  Lemma eqp_refl p : eqp p p = true.
  Proof. apply eqp_eq. reflexivity. Qed.

  (** the nodes of [g'] are nodes of [g] with the same data, in the same order *)
  Definition fewer_nodes (g g' : graph) : Prop :=
    seen_vertices g' = filter (fun x => existsb (Nat.eqb (fst x)) (vertex_ids g')) (seen_vertices g).

  Lemma fewer_self (g : graph) : fewer_nodes g g.
  Proof.
    unfold fewer_nodes. symmetry. apply filter_true. intros x Hx. apply existsb_eqb_In. rewrite <- seen_ids. apply in_map. exact Hx.
  Qed.
  Lemma fewer_in (g g' : graph) w : fewer_nodes g g' -> In w (vertex_ids g') -> In w (vertex_ids g).
  Proof.
    intros E Hw. rewrite <- seen_ids, E in Hw. apply in_map_iff in Hw as (x & <- & Hx). apply filter_In in Hx as [Hx _]. rewrite <- seen_ids. apply in_map. exact Hx.
  Qed.
  Lemma fewer_trans (g g1 g2 : graph) : fewer_nodes g g1 -> fewer_nodes g1 g2 -> fewer_nodes g g2.
  Proof.
    intros A B. unfold fewer_nodes in *. rewrite B at 1. rewrite A at 1. rewrite filter_filter. apply filter_ext. intros x.
    destruct (existsb (Nat.eqb (fst x)) (vertex_ids g2)) eqn:Q; [|rewrite andb_false_r; reflexivity]. rewrite andb_true_r.
    apply existsb_eqb_In in Q. apply (fewer_in g1 g2 _ B) in Q. apply existsb_eqb_In. exact Q.
  Qed.
  Lemma filter_keys (q : nat * node P -> bool) l : NoDup (map fst l) ->
    filter q l = filter (fun x => existsb (Nat.eqb (fst x)) (map fst (filter q l))) l.
  Proof.
    intros N. apply filter_ext_in'. intros x Hx. apply Bool.eq_iff_eq_true. rewrite existsb_eqb_In, in_map_iff. split.
    - intros Q. exists x. split; [reflexivity|]. apply filter_In. auto.
    - intros (y & E & Hy). apply filter_In in Hy as [Hy Q]. assert (y = x); [|congruence].
      clear Q. induction l as [|z l IH]; [destruct Hx|]. cbn in N. inversion N as [|? ? N1 N2]; subst.
      destruct Hx as [->|Hx], Hy as [->|Hy]; auto.
      + exfalso. apply N1. rewrite <- E. apply in_map. exact Hy.
      + exfalso. apply N1. rewrite E. apply in_map. exact Hx.
  Qed.
  Lemma fewer_filter (g g' : graph) q : exact Bidirectional g -> seen_vertices g' = filter q (seen_vertices g) -> fewer_nodes g g'.
  Proof.
    intros H E. unfold fewer_nodes. rewrite E at 1. rewrite filter_keys by (rewrite seen_ids; apply (ex_vid _ _ H)). rewrite <- E, seen_ids. reflexivity.
  Qed.

  (** fewer roads between fewer nodes are still drawn *)
  Lemma drawn_fewer (g g' : graph) : exact Bidirectional g' -> drawn g -> fewer_nodes g g' -> incl (seen_edges g') (seen_edges g) -> drawn g'.
  Proof.
    intros H' D F I e He. assert (Q : In (e_id e, (e_src e, e_tgt e), e_data e) (seen_edges g)) by (apply I; unfold seen_edges; apply (in_map (fun e => (e_id e, (e_src e, e_tgt e), e_data e))); exact He).
    unfold seen_edges in Q. apply in_map_iff in Q as (f & E & Hf). injection E as _ Es Et Ed. destruct (D f Hf) as (A & B & C).
    destruct (ex_end _ _ H' e He) as [Is It]. rewrite (position_kept g g' _ F Is), (position_kept g g' _ F It). unfold line_of in *. rewrite <- Ed, <- Es, <- Et. auto.
  Qed.
  Lemma pieces_seen (g : graph) x : In x (all_pieces g) <-> exists e, In e (seen_edges g) /\ In x (pieces_of (r_line (snd e))).
  Proof.
    unfold all_pieces, seen_edges. rewrite in_flat_map. split.
    - intros (e & He & Hx). exists (e_id e, (e_src e, e_tgt e), e_data e). split; [apply (in_map (fun e => (e_id e, (e_src e, e_tgt e), e_data e))); exact He|exact Hx].
    - intros (y & Hy & Hx). apply in_map_iff in Hy as (e & <- & He). exists e. auto.
  Qed.
  Lemma pieces_fewer (g g' : graph) : incl (seen_edges g') (seen_edges g) -> incl (all_pieces g') (all_pieces g).
  Proof. intros I x Hx. apply pieces_seen in Hx as (e & He & Hx). apply pieces_seen. eauto. Qed.

  Lemma pieces_along (g : graph) K (c : list edge) : drawn g -> linked_at (position g) K c -> c <> [] -> incl c (g_es g) ->
    pieces_of (join (map line_of c)) = flat_map (fun e => pieces_of (line_of e)) c /\ hd_error (join (map line_of c)) = hd_error (line_of (hd (last c (hd (mkE 0 0 0 0 (mkRoad 0 [])) c)) c)).
  Proof.
    intros D. induction c as [|e c IH]; intros L Nc Hin; [contradiction|]. destruct c as [|f c].
    - cbn. rewrite !app_nil_r. auto.
    - cbn [linked_at] in L. destruct L as [[E _] L]. destruct (IH L) as [IH1 IH2]; [discriminate|intros z Hz; apply Hin; right; exact Hz|].
      destruct (D e (Hin e (or_introl eq_refl))) as (L1 & _ & T1). destruct (D f (Hin f (or_intror (or_introl eq_refl)))) as (L2 & S2 & _).
      cbn [map join flat_map hd] in *.
      assert (Q : line_of e ++ tl (line_of f) ++ flat_map (@tl P) (map line_of c) = line_of e ++ tl (line_of f ++ flat_map (@tl P) (map line_of c))).
      { destruct (line_of f); [cbn in L2; lia|reflexivity]. }
      split.
      + rewrite Q, pieces_app; [rewrite IH1; reflexivity|intros Z; rewrite Z in L1; cbn in L1; lia|]. rewrite IH2, T1, S2, E. reflexivity.
      + destruct (line_of e); [cbn in L1; lia|reflexivity].
  Qed.
  (** the removal of duplicate nodes keeps all pieces, too *)
  Lemma pieces_gathered complete (s s' : import) K c : drawn (i_graph s) -> gathered complete s s' K c -> Permutation (all_pieces (i_graph s')) (all_pieces (i_graph s)).
  Proof.
    intros D (_ & _ & _ & C & A & _). unfold all_pieces. rewrite <- A.
    assert (I : forall e, In e (g_es (i_graph s')) -> incl (c (e_id e)) (g_es (i_graph s))).
    { intros e He f Hf. apply (Permutation_in _ A). apply in_flat_map. eauto. }
    clear A. induction (g_es (i_graph s')) as [|e es IH]; [reflexivity|]. cbn [flat_map]. rewrite flat_map_app.
    rewrite (IH (fun x Hx => C x (or_intror Hx)) (fun x Hx => I x (or_intror Hx))). apply Permutation_app_tail.
    destruct (C e (or_introl eq_refl)) as (f & r & Ec & L & _ & _ & _ & El). rewrite El.
    destruct (pieces_along (i_graph s) K (c (e_id e)) D L) as [Q _]; [rewrite Ec; discriminate|apply I; left; reflexivity|]. rewrite Q. reflexivity.
  Qed.

  Definition roads (g : graph) : list (nat * list P) := map (fun e => (id_of e, line_of e)) (g_es g).
  Lemma roads_fewer (g g' : graph) : incl (seen_edges g') (seen_edges g) -> incl (roads g') (roads g).
  Proof.
    intros I x Hx. unfold roads in *. apply in_map_iff in Hx as (e & <- & He).
    assert (Q : In (e_id e, (e_src e, e_tgt e), e_data e) (seen_edges g)) by (apply I; unfold seen_edges; apply (in_map (fun e => (e_id e, (e_src e, e_tgt e), e_data e))); exact He).
    unfold seen_edges in Q. apply in_map_iff in Q as (f & E & Hf). injection E as _ _ _ Ed. apply in_map_iff. exists f. split; [|exact Hf]. unfold id_of, line_of. rewrite Ed. reflexivity.
  Qed.

  (** What is known of the network after some of the passes. *)
  Record cleaned (o : passes) (s s' : import) : Prop := mkCleaned {
    cl_exact : exact Bidirectional (i_graph s');
    cl_drawn : drawn (i_graph s');
    cl_nodes : fewer_nodes (i_graph s) (i_graph s');
    cl_indexed : indexed (i_graph s) \/ p_simplify o <> None \/ p_unconnected o = true \/ p_nodes o = true -> indexed (i_graph s');
    cl_node_tags : forall n, node_tags (i_tags s') n = node_tags (i_tags s) n;
    cl_tags : p_simplify o <> Some true -> i_tags s' = i_tags s;
    cl_pieces : incl (all_pieces (i_graph s')) (all_pieces (i_graph s));
    cl_all : p_unconnected o = false -> incl (all_pieces (i_graph s)) (all_pieces (i_graph s'));
    cl_once : p_unconnected o = false -> p_edges o = false -> Permutation (all_pieces (i_graph s')) (all_pieces (i_graph s));
    cl_roads : p_simplify o = None -> incl (roads (i_graph s')) (roads (i_graph s));
    cl_mem : i_mem s' = [] }.

  Lemma cleaned_none o (s : import) : exact Bidirectional (i_graph s) -> drawn (i_graph s) -> i_mem s = [] ->
    p_simplify o = None -> p_unconnected o = false -> p_nodes o = false -> cleaned o s s.
  Proof.
    intros H D Em A B C. constructor; auto.
    - apply fewer_self.
    - intros [Q|[Q|[Q|Q]]]; congruence.
    - apply incl_refl.
    - intros _. apply incl_refl.
    - intros _. apply incl_refl.
  Qed.

  Lemma simplify_cleaned complete (s : import) o : exact Bidirectional (i_graph s) -> drawn (i_graph s) -> i_running s = false -> i_mem s = [] ->
    p_simplify o = Some complete -> exists s', simplify eqp complete s = Ok s' /\ cleaned o s s' /\ (g_vs (i_graph s) <> [] -> g_vs (i_graph s') <> []).
  Proof.
    intros H D Er Em Eo. destruct (simplify_ok eqp eqp_refl complete s H D Er Em) as (s' & J & c & E & R & Ix & Em' & _ & _ & _ & Tj & _).
    exists s'. split; [exact E|]. pose proof (simplified_refines eqp complete s s' J c H D R Tj) as S. destruct S as (S1 & S2 & S3 & S4 & S5 & S6 & S7 & _ & S8 & S9 & S10).
    pose proof (C16_pieces eqp eqp_refl complete s s' H D Er Em E) as Pp. split.
    - constructor; auto.
      + intros Q. rewrite Eo in Q. destruct complete; [congruence|]. apply S8. reflexivity.
      + intros x Hx. apply (Permutation_in _ Pp Hx).
      + intros _ x Hx. apply (Permutation_in _ (Permutation_sym Pp) Hx).
      + congruence.
    - intros Ne Q. destruct (vertex_ids (i_graph s)) as [|v l] eqn:Ev; [apply Ne; unfold vertex_ids in Ev; destruct (g_vs (i_graph s)); [reflexivity|discriminate]|].
      assert (Hv : In v (vertex_ids (i_graph s))) by (rewrite Ev; left; reflexivity).
      assert (Emp : forall w, ~ In w (vertex_ids (i_graph s'))) by (intros w; unfold vertex_ids; rewrite Q; intros []).
      destruct (in_dec Nat.eq_dec v J) as [Hj|Hj]; [|apply (Emp v), S7; [first [exact Hv|left; reflexivity]|exact Hj]].
      assert (Ee : g_es (i_graph s') = []).
      { destruct (g_es (i_graph s')) as [|e es] eqn:Ee; [reflexivity|]. exfalso. apply (Emp (e_src e)). apply (ex_end _ _ S1 e). rewrite Ee. left. reflexivity. }
      assert (Eg : g_es (i_graph s) = []) by (rewrite Ee in S4; cbn in S4; apply Permutation_nil in S4; exact S4).
      destruct (Tj v Hj) as [(i & x & E1 & _)|(i1 & i2 & o1 & o2 & E1 & _)]; rewrite Eg in E1; [discriminate|apply Permutation_nil in E1; discriminate].
  Qed.

  (** only the tags and the allocator's answers matter besides the graph *)
  Lemma set_graph_simpl (g : graph) (s : import) : i_graph (set_graph g s) = g /\ i_tags (set_graph g s) = i_tags s /\ i_mem (set_graph g s) = i_mem s /\ i_running (set_graph g s) = i_running s.
  Proof. auto. Qed.
  Lemma set_graph_self (s : import) : set_graph (i_graph s) s = s.
  Proof. destruct s. reflexivity. Qed.

  Lemma indexed_or {A B : Prop} : A -> (A \/ B). Proof. auto. Qed.

  (** **** The passes in order: every selected pass does what it is for, and no pass undoes another.
      [freed]: whether memory read after its release is an error (the passes over duplicates do that). *)
  Theorem C64_clean_up freed mmap o (s : import) :
    exact Bidirectional (i_graph s) -> drawn (i_graph s) -> i_running s = false -> i_mem s = [] ->
    (p_unconnected o = true -> g_vs (i_graph s) <> []) ->
    (freed = true -> p_nodes o = false /\ p_edges o = false) ->
    exists s', clean_up eqp freed mmap o s = Ok s' /\ cleaned o s s' /\
      (* repeated roads *)
      (p_edges o = true -> NoDup (roads (i_graph s'))) /\
      (* nodes at one position *)
      (p_nodes o = true -> forall p, 2 * length (at_position eqp (i_graph s') p) <= length (at_position eqp (i_graph s) p) + 1) /\
      (p_nodes o = true -> p_simplify o = None -> forall u v p, position (i_graph s') u = Some p -> position (i_graph s') v = Some p -> u = v) /\
      (* the part of the network that is left *)
      (p_unconnected o = true -> p_simplify o = None -> (forall u v, In u (vertex_ids (i_graph s)) -> reaches (i_graph s) [] u v -> reaches (i_graph s) [] v u) ->
         forall u v, In u (vertex_ids (i_graph s')) -> In v (vertex_ids (i_graph s')) -> reaches (i_graph s) [] u v).
  Proof.
    intros H D Er Em Hne Hf. unfold clean_up.
    (* simplification *)
    assert (S1 : exists s1, (match p_simplify o with Some c => helper_simplify eqp mmap c s | None => Ok s end) = Ok s1 /\
              cleaned (mkPasses (p_simplify o) false false false) s s1 /\ (g_vs (i_graph s) <> [] -> g_vs (i_graph s1) <> []) /\ (p_simplify o = None -> s1 = s)).
    { destruct (p_simplify o) as [c|] eqn:Eo.
      - destruct (simplify_cleaned c s (mkPasses (Some c) false false false) H D Er Em eq_refl) as (s1 & E & C & Q). exists s1. unfold helper_simplify. rewrite E.
        split; [reflexivity|]. split; [exact C|]. split; [exact Q|discriminate].
      - exists s. split; [reflexivity|]. split; [apply cleaned_none; auto|]. auto. }
    destruct S1 as (s1 & E1 & C1 & Ne1 & Sn1). rewrite E1. cbn [bindO].
    (* unconnected parts *)
    assert (S2 : exists g2, (if p_unconnected o then remove_unconnected (i_graph s1) else Ok (i_graph s1)) = Ok g2 /\
              cleaned (mkPasses (p_simplify o) (p_unconnected o) false false) s (set_graph g2 s1) /\
              (p_unconnected o = true -> p_simplify o = None -> (forall u v, In u (vertex_ids (i_graph s)) -> reaches (i_graph s) [] u v -> reaches (i_graph s) [] v u) ->
                 forall u v, In u (vertex_ids g2) -> In v (vertex_ids g2) -> reaches (i_graph s) [] u v)).
    { destruct (p_unconnected o) eqn:Eu.
      - destruct (C17_largest_piece (i_graph s1) (cl_exact _ _ _ C1) (Ne1 (Hne eq_refl))) as (g2 & ps & k & kept & E & X & Ix & Pm & Q & Hk & Lk & Sv & Se).
        exists g2. split; [exact E|]. pose proof (fewer_filter _ _ _ (cl_exact _ _ _ C1) Sv) as F.
        assert (I : incl (seen_edges g2) (seen_edges (i_graph s1))) by (rewrite Se; intros x Hx; apply filter_In in Hx; tauto).
        split.
        + constructor; cbn [i_graph i_tags i_mem set_graph p_simplify p_unconnected p_edges p_nodes]; auto; try discriminate.
          * apply (drawn_fewer _ _ X (cl_drawn _ _ _ C1) F I).
          * apply (fewer_trans _ _ _ (cl_nodes _ _ _ C1) F).
          * apply (cl_node_tags _ _ _ C1).
          * apply (cl_tags _ _ _ C1).
          * intros x Hx. apply (cl_pieces _ _ _ C1). apply (pieces_fewer _ _ I). exact Hx.
          * intros Qn x Hx. apply (cl_roads _ _ _ C1 Qn). apply (roads_fewer _ _ I). exact Hx.
          * apply (cl_mem _ _ _ C1).
        + intros _ En Sy u v Hu Hv. specialize (Sn1 En). subst s1.
          destruct (C17_largest_component (i_graph s) H (Hne eq_refl) Sy) as (g3 & r & E3 & Hr & R & _). rewrite E in E3. injection E3 as <-.
          apply R in Hu, Hv. assert (Hu' : reaches (i_graph s) [] u r).
          { apply Sy; [|exact Hu]. apply (fewer_in _ _ r F). exact Hr. }
          destruct Hu' as [k1 W1], Hv as [k2 W2]. apply (walk_trans _ _ _ _ _ _ W1 W2).
      - exists (i_graph s1). split; [reflexivity|]. split; [|discriminate]. rewrite set_graph_self. exact C1. }
    destruct S2 as (g2 & E2 & C2 & Conn). rewrite E2. cbn [bindO]. cbv zeta. set (s2 := set_graph g2 s1) in *.
    (* duplicate nodes *)
    assert (S3 : exists s3, (if p_nodes o then remove_duplicate_nodes eqp freed (match p_simplify o with Some _ => true | None => false end)
                                            (match p_simplify o with Some c => c | None => false end) s2 else Ok s2) = Ok s3 /\
              cleaned (mkPasses (p_simplify o) (p_unconnected o) (p_nodes o) false) s s3 /\ fewer_nodes g2 (i_graph s3) /\
              (p_nodes o = true -> forall p, 2 * length (at_position eqp (i_graph s3) p) <= length (at_position eqp (i_graph s2) p) + 1) /\
              (p_nodes o = true -> p_simplify o = None -> forall u v p, position (i_graph s3) u = Some p -> position (i_graph s3) v = Some p -> u = v)).
    { destruct (p_nodes o) eqn:En.
      - assert (Fr : freed = false) by (destruct freed; [destruct (Hf eq_refl); congruence|reflexivity]). subst freed.
        set (simp := match p_simplify o with Some _ => true | None => false end). set (complete := match p_simplify o with Some c => c | None => false end).
        destruct (C18_nodes eqp eqp_eq false simp complete s2 (cl_exact _ _ _ C2) (cl_drawn _ _ _ C2) (cl_mem _ _ _ C2)) as (s3 & K & c & E & G & _ & Cn & _ & _); [discriminate|].
        exists s3. split; [exact E|]. pose proof (pieces_gathered complete s2 s3 K c (cl_drawn _ _ _ C2) G) as Pp.
        destruct G as (G1 & G2 & G3 & G4 & G5 & G6 & G7 & G8 & G9 & G10). split; [|split; [exact G6|split; [intros _; exact Cn|]]].
        + constructor; cbn [p_simplify p_unconnected p_edges p_nodes]; auto.
          * apply (fewer_trans _ _ _ (cl_nodes _ _ _ C2) G6).
          * intros n. rewrite G9. apply (cl_node_tags _ _ _ C2).
          * intros Q. rewrite (proj1 (G7 ltac:(unfold complete; destruct (p_simplify o) as [[]|]; congruence))). apply (cl_tags _ _ _ C2). exact Q.
          * intros x Hx. apply (cl_pieces _ _ _ C2). apply (Permutation_in _ Pp Hx).
          * intros Eu x Hx. apply (Permutation_in _ (Permutation_sym Pp)). apply (cl_all _ _ _ C2 Eu). exact Hx.
          * intros Eu _. rewrite Pp. apply (cl_once _ _ _ C2 Eu eq_refl).
          * intros Es x Hx. apply (cl_roads _ _ _ C2 Es). assert (Q : simp = false) by (unfold simp; rewrite Es; reflexivity). rewrite Q in E.
            destruct (C18_first_copies eqp eqp_eq false complete s2 (cl_exact _ _ _ C2) (cl_drawn _ _ _ C2) (cl_mem _ _ _ C2)) as (s4 & E4 & _ & _ & Pr); [discriminate|].
            rewrite E in E4. injection E4 as <-. unfold roads in *. apply in_map_iff in Hx as (e & <- & He).
            assert (Q' := Permutation_in _ Pr (in_map (fun e => (e_src e, e_tgt e, id_of e, line_of e)) _ _ He)). apply in_map_iff in Q' as (f & Ef & Hff). injection Ef as _ _ Ei Ef.
            apply in_map_iff. exists f. split; [rewrite Ei, Ef; reflexivity|exact Hff].
          * injection G10 as _ _ _ G10. exact G10.
        + intros _ Es. destruct (C18_first_copies eqp eqp_eq false complete s2 (cl_exact _ _ _ C2) (cl_drawn _ _ _ C2) (cl_mem _ _ _ C2)) as (s4 & E4 & _ & U & _); [discriminate|].
          assert (Q : simp = false) by (unfold simp; rewrite Es; reflexivity). rewrite Q in E. rewrite E in E4. injection E4 as <-. exact U.
      - exists s2. split; [reflexivity|]. split; [exact C2|]. split; [apply fewer_self|]. split; discriminate. }
    destruct S3 as (s3 & E3 & C3 & F3 & Cn & U). rewrite E3. cbn [bindO].
    assert (Cn' : p_nodes o = true -> forall p, 2 * length (at_position eqp (i_graph s3) p) <= length (at_position eqp (i_graph s) p) + 1).
    { intros Q p. specialize (Cn Q p). assert (L : length (at_position eqp (i_graph s2) p) <= length (at_position eqp (i_graph s) p)).
      { rewrite (at_position_kept eqp (i_graph s) (i_graph s2) p H (cl_exact _ _ _ C2) (cl_nodes _ _ _ C2)). rewrite (at_position_ids eqp (i_graph s) p (ex_vid _ _ H)).
        rewrite <- (filter_filter (fun w => existsb (Nat.eqb w) (vertex_ids (i_graph s2))) (lies eqp (i_graph s) p)). apply filter_length_le. }
      lia. }
    (* repeated roads *)
    destruct (p_edges o) eqn:Ee.
    - assert (Fr : freed = false) by (destruct freed; [destruct (Hf eq_refl); congruence|reflexivity]). subst freed.
      destruct (C18_edges eqp eqp_eq (i_graph s3) (cl_exact _ _ _ C3)) as (g4 & E & X & Sv & Se & Fi & Ix). rewrite E. cbn [bindO].
      exists (set_graph g4 s3). split; [reflexivity|]. cbn [i_graph set_graph].
      assert (F : fewer_nodes (i_graph s3) g4) by (apply (fewer_filter _ _ (fun _ => true) (cl_exact _ _ _ C3)); rewrite Sv; symmetry; apply filter_true; auto).
      assert (I : incl (seen_edges g4) (seen_edges (i_graph s3))) by (rewrite Se; intros x Hx; apply filter_In in Hx; tauto).
      assert (Pos : forall v, position g4 v = position (i_graph s3) v) by (intros v; rewrite !position_seen, Sv; reflexivity).
      assert (Vi : vertex_ids g4 = vertex_ids (i_graph s3)) by (rewrite <- !seen_ids, Sv; reflexivity).
      (* every road has a first one with the same data, which is left *)
      assert (Firsts : forall l a, g_es (i_graph s3) = a ++ l -> forall e, In e l -> exists f, first_road (g_es (i_graph s3)) f /\ In f (g_es (i_graph s3)) /\ e_data f = e_data e).
      { intros l a El e He.
        assert (T : forall b pre, g_es (i_graph s3) = pre ++ b -> (forall x, In x pre -> e_data x <> e_data e) -> In e b -> exists f, first_road (g_es (i_graph s3)) f /\ In f (g_es (i_graph s3)) /\ e_data f = e_data e).
        { induction b as [|y b IH]; intros pre Ep Np Hb; [destruct Hb|].
          destruct (eq_road eqp (e_data y) (e_data e)) eqn:Q.
          - apply (eq_road_eq eqp eqp_eq) in Q. exists y. split; [exists pre, b; split; [exact Ep|intros x Hx; rewrite Q; apply Np; exact Hx]|]. split; [rewrite Ep; apply in_app_iff; right; left; reflexivity|exact Q].
          - assert (Ny : e_data y <> e_data e) by (intros Z; apply (eq_road_eq eqp eqp_eq) in Z; congruence).
            apply (IH (pre ++ [y])); [rewrite <- app_assoc; exact Ep| |destruct Hb as [<-|Hb]; [contradiction|exact Hb]].
            intros x Hx. apply in_app_iff in Hx as [Hx|[<-|[]]]; auto. }
        apply (T (g_es (i_graph s3)) []); [reflexivity|intros x []|rewrite El; apply in_app_iff; auto]. }
      assert (Left : forall e, In e (g_es (i_graph s3)) -> In (e_id e) (edge_ids g4) -> In (e_id e, (e_src e, e_tgt e), e_data e) (seen_edges g4)).
      { intros e He Hi. rewrite Se. apply filter_In. split; [unfold seen_edges; apply (in_map (fun e => (e_id e, (e_src e, e_tgt e), e_data e))); exact He|]. cbn [fst]. apply existsb_eqb_In. exact Hi. }
      split; [|split; [|split; [|split]]].
      + constructor; cbn [i_graph i_tags i_mem set_graph]; auto.
        * apply (drawn_fewer _ _ X (cl_drawn _ _ _ C3) F I).
        * apply (fewer_trans _ _ _ (cl_nodes _ _ _ C3) F).
        * intros Q. apply Ix. apply (cl_indexed _ _ _ C3). exact Q.
        * apply (cl_node_tags _ _ _ C3).
        * apply (cl_tags _ _ _ C3).
        * intros x Hx. apply (cl_pieces _ _ _ C3). apply (pieces_fewer _ _ I). exact Hx.
        * intros Eu x Hx. apply (cl_all _ _ _ C3 Eu) in Hx. unfold all_pieces in Hx. apply in_flat_map in Hx as (e & He & Hx).
          destruct (Firsts (g_es (i_graph s3)) [] eq_refl e He) as (f & Ff & Hff & Q). apply pieces_seen. exists (e_id f, (e_src f, e_tgt f), e_data f).
          split; [apply Left; [exact Hff|apply Fi; assumption]|]. cbn [snd]. rewrite Q. exact Hx.
        * congruence.
        * intros Q x Hx. apply (cl_roads _ _ _ C3 Q). apply (roads_fewer _ _ I). exact Hx.
        * apply (cl_mem _ _ _ C3).
      + intros _.
        assert (G : NoDup (map e_data (g_es g4))).
        { assert (E4 : map snd (seen_edges g4) = map e_data (g_es g4)) by (unfold seen_edges; rewrite map_map; reflexivity). rewrite <- E4, Se. unfold seen_edges at 1.
          rewrite filter_map_comm, map_map. cbn [fst snd].
          assert (Sub : forall l a, g_es (i_graph s3) = a ++ l -> NoDup (map e_data (filter (fun e => existsb (Nat.eqb (e_id e)) (edge_ids g4)) l)) /\
                         forall x, In x (filter (fun e => existsb (Nat.eqb (e_id e)) (edge_ids g4)) l) -> forall y, In y a -> e_data y <> e_data x).
          { induction l as [|e l IH]; intros a Ea; [split; [constructor|intros x []]|]. destruct (IH (a ++ [e])) as [A B]; [rewrite <- app_assoc; exact Ea|]. cbn [filter].
            destruct (existsb (Nat.eqb (e_id e)) (edge_ids g4)) eqn:Q.
            - assert (He : In e (g_es (i_graph s3))) by (rewrite Ea; apply in_app_iff; right; left; reflexivity).
              apply existsb_eqb_In in Q. apply (Fi e He) in Q as (a' & b' & Ea' & Na).
              assert (a' = a).
              { assert (Nd : NoDup (map e_id (g_es (i_graph s3)))) by (apply (ex_eid _ _ (cl_exact _ _ _ C3))). rewrite Ea in Ea', Nd. revert Ea' Nd. clear. revert a. induction a' as [|z a' IH]; intros [|w a] Q Nd.
                - reflexivity.
                - cbn in Q, Nd. injection Q as -> _. inversion Nd as [|? ? N1 _]; subst. exfalso. apply N1. rewrite map_app. apply in_app_iff. right. left. reflexivity.
                - cbn in Q, Nd. injection Q as -> Q. inversion Nd as [|? ? N1 _]; subst. exfalso. apply N1. rewrite map_app. apply in_app_iff. right. left. reflexivity.
                - cbn in Q, Nd. injection Q as -> Q. inversion Nd as [|? ? _ N2]; subst. f_equal. apply IH; assumption. }
              subst a'. cbn [map]. split.
              + constructor; [|exact A]. intros Z. apply in_map_iff in Z as (x & Ex & Hx). apply (B x Hx e); [apply in_app_iff; right; left; reflexivity|congruence].
              + intros x [<-|Hx] y Hy; [apply Na; exact Hy|]. apply (B x Hx). apply in_app_iff. auto.
            - split; [exact A|]. intros x Hx y Hy. apply (B x Hx). apply in_app_iff. auto. }
          apply (Sub (g_es (i_graph s3)) []). reflexivity. }
        assert (Em4 : map (fun e : edge => (id_of e, line_of e)) (g_es g4) = map (fun d => (r_id d, r_line d)) (map e_data (g_es g4))) by (rewrite map_map; reflexivity).
        unfold roads. rewrite Em4. apply FinFun.Injective_map_NoDup; [|exact G]. intros [i l] [j m] Q. cbn in Q. congruence.
      + intros Q p. assert (A : at_position eqp g4 p = at_position eqp (i_graph s3) p).
        { rewrite (at_position_ids eqp g4 p (ex_vid _ _ X)), (at_position_ids eqp _ p (ex_vid _ _ (cl_exact _ _ _ C3))), Vi. apply filter_ext. intros w. unfold lies. rewrite Pos. reflexivity. }
        rewrite A. apply (Cn' Q).
      + intros Q1 Q2 u v p. rewrite !Pos. apply (U Q1 Q2).
      + intros Q1 Q2 Sy u v. rewrite Vi. intros Hu Hv. apply (Conn Q1 Q2 Sy); apply (fewer_in _ _ _ F3); assumption.
    - exists s3. split; [reflexivity|]. split; [|split; [discriminate|split; [exact Cn'|split; [exact U|]]]].
      + destruct C3. constructor; auto.
      + intros Q1 Q2 Sy u v Hu Hv. apply (Conn Q1 Q2 Sy); apply (fewer_in _ _ _ F3); assumption.
  Qed.

  (** **** Networks which are not memory mapped: a failed allocation ends the clean-up during the first pass, no road is lost. *)
  Theorem C64_interrupted freed o complete (s s1 : import) :
    exact Bidirectional (i_graph s) -> drawn (i_graph s) -> NoDup (map v_index (g_vs (i_graph s))) -> i_running s = false -> ~ In NoEdge (i_mem s) ->
    p_simplify o = Some complete -> simplify eqp complete s = Throw s1 ->
    clean_up eqp freed false o s = Throw s1 /\ Permutation (all_pieces (i_graph s1)) (all_pieces (i_graph s)) /\
    exists J c, simplified eqp complete s s1 J c.
  Proof.
    intros H D Ni Er Em Eo Es. unfold clean_up, helper_simplify. rewrite Eo, Es. cbn [bindO]. split; [reflexivity|].
    assert (Fr : fresh complete (i_graph s) (i_tags s) s).
    { split; [reflexivity|]. split; [reflexivity|]. split; [|exact Er]. unfold numbers. rewrite map_map. exact Ni. }
    destruct (C16_memory eqp eqp_refl complete s s H D Em (or_introl Fr)) as (s2 & [(E & _)|(E & _ & (J & c & S) & _)]); [congruence|].
    rewrite Es in E. injection E as <-. split; [|exists J, c; exact S].
    destruct S as (_ & _ & C & A & _). unfold all_pieces. rewrite <- A.
    assert (I : forall e, In e (g_es (i_graph s1)) -> incl (c (e_id e)) (g_es (i_graph s))).
    { intros e He f Hf. apply (Permutation_in _ A). apply in_flat_map. eauto. }
    clear A. induction (g_es (i_graph s1)) as [|e es IH]; [reflexivity|]. cbn [flat_map]. rewrite flat_map_app.
    rewrite (IH (fun x Hx => C x (or_intror Hx)) (fun x Hx => I x (or_intror Hx))). apply Permutation_app_tail.
    destruct (C e (or_introl eq_refl)) as (f & r & Ec & L & _ & _ & _ & El). rewrite El.
    destruct (pieces_course (i_graph s) J (c (e_id e)) D L) as [Q _]; [rewrite Ec; discriminate|apply I; left; reflexivity|]. rewrite Q. reflexivity.
  Qed.
End C64.

(** ** Cases *)
(** two parts: a road between 0 and 1, and a street 2, 3, 4 with a repeated road and a copy 5 of the node 4 *)
Definition town := [put 0 0; put 1 10; put 2 20; put 3 30; put 4 40; put 5 40; put 6 50;
  way 0 1 7 [0; 10]; way 1 0 7 [10; 0]; way 2 3 8 [20; 30]; way 3 2 8 [30; 20]; way 3 4 9 [30; 40]; way 4 3 9 [40; 30]; way 3 4 9 [30; 40];
  way 3 5 6 [30; 35; 40]; way 5 3 6 [40; 35; 30]; way 5 6 5 [40; 50]; way 6 5 5 [50; 40]].
Definition town_s := fresh_import town [].
Definition all_passes (c : option bool) := mkPasses c true true true.
Example town_legal : legal_history Bidirectional empty_graph town.
Proof. vm_compute. repeat split; auto 30. Qed.
Example C64_case : exact Bidirectional (i_graph town_s) /\ drawn (i_graph town_s) /\ i_running town_s = false /\ i_mem town_s = [] /\ g_vs (i_graph town_s) <> [] /\
  (forall u v, In u (vertex_ids (i_graph town_s)) -> reaches (i_graph town_s) [] u v -> reaches (i_graph town_s) [] v u).
Proof.
  split; [apply make_exact, town_legal|]. split; [apply drawnb_ok; vm_compute; reflexivity|]. split; [reflexivity|]. split; [reflexivity|].
  split; [apply some_vertices; vm_compute; reflexivity|]. intros u v _. apply two_way_back, two_wayb_ok. vm_compute. reflexivity.
Qed.
Example C64_case_plain : roads_of (clean_up Nat.eqb false false (all_passes None) town_s) =
  [(2, 3, [20; 30]); (3, 2, [30; 20]); (3, 4, [30; 40]); (4, 3, [40; 30]); (3, 4, [30; 35; 40]); (6, 4, [50; 40]); (4, 3, [40; 35; 30]); (4, 6, [40; 50])].
Proof. vm_compute. reflexivity. Qed.
Example C64_case_simplified : roads_of (clean_up Nat.eqb false false (all_passes (Some true)) town_s) =
  [(2, 3, [20; 30]); (3, 2, [30; 20]); (3, 4, [30; 40]); (4, 3, [40; 30]); (3, 6, [30; 35; 40; 50]); (6, 3, [50; 40; 35; 30])].
Proof. vm_compute. reflexivity. Qed.
Example C64_case_memory : roads_of (clean_up Nat.eqb false false (all_passes (Some true)) (fresh_import street [Fine; NoLine])) =
  roads_of (simplify Nat.eqb true (fresh_import street [Fine; NoLine])) /\
  match simplify Nat.eqb true (fresh_import street [Fine; NoLine]) with Throw _ => True | _ => False end /\
  NoDup (map v_index (g_vs (i_graph (fresh_import street [Fine; NoLine])))) /\ ~ In NoEdge [Fine; NoLine].
Proof.
  split; [vm_compute; reflexivity|]. split; [vm_compute; exact I|]. split; [vm_compute; repeat constructor; cbn; intuition discriminate|].
  intros [Q|[Q|[]]]; discriminate.
Qed.

(** the copies of C18: with simplification the roads are joined where the copies were *)
Example C64_case_joined : roads_of (clean_up Nat.eqb true false (mkPasses (Some true) false true false) copies_s) = [(0, 3, [0; 5; 10; 20])] /\
  roads_of (clean_up Nat.eqb true false (mkPasses (Some false) false true false) copies_s) = [(0, 1, [0; 5; 10]); (1, 3, [10; 20])].
Proof. vm_compute. auto. Qed.

(** *** What does not hold *)
(** The unconnected parts are removed before the duplicate nodes: a part which is connected to the rest by nodes
    at one position only is lost, although the next pass would have connected it. *)
Definition bridge := [put 0 0; put 1 10; put 2 10; put 3 20; put 4 30; way 0 1 7 [0; 10]; way 1 0 7 [10; 0];
  way 2 3 8 [10; 20]; way 3 2 8 [20; 10]; way 3 4 8 [20; 30]; way 4 3 8 [30; 20]].
Theorem C64_order_refuted : exists (s s' s1 : import nat string) g2, exact Bidirectional (i_graph s) /\ drawn (i_graph s) /\
  clean_up Nat.eqb true false (mkPasses None true true false) s = Ok s' /\ length (g_es (i_graph s')) = 4 /\
  remove_duplicate_nodes Nat.eqb true false false s = Ok s1 /\ remove_unconnected (i_graph s1) = Ok g2 /\ length (g_es g2) = length (g_es (i_graph s)).
Proof.
  exists (fresh_import bridge []). eexists; eexists; eexists. split; [apply make_exact; vm_compute; repeat split; auto 20|]. split; [apply drawnb_ok; vm_compute; reflexivity|].
  split; [vm_compute; reflexivity|]. split; [vm_compute; reflexivity|]. split; [vm_compute; reflexivity|]. split; vm_compute; reflexivity.
Qed.
(** After all passes nodes at one position may be left if roads were joined, and roads which could be joined:
    where the removal of a duplicate road leaves a plain continuation nothing is joined any more. *)
Definition doubled := [put 0 0; put 1 10; put 2 20; way 0 1 7 [0; 10]; way 0 1 7 [0; 10]; way 1 2 8 [10; 20]].
Theorem C64_simple_refuted : exists (s s' : import nat string), exact Bidirectional (i_graph s) /\ drawn (i_graph s) /\
  clean_up Nat.eqb false false (all_passes (Some true)) s = Ok s' /\ is_mergeable Nat.eqb (i_graph s') 1 = Ok true /\
  match populate_merges (i_graph s') (i_tags s') true 1 with Ok ms => length ms = 1 | _ => False end.
Proof.
  exists (fresh_import doubled []). eexists. split; [apply make_exact; vm_compute; repeat split; auto 20|]. split; [apply drawnb_ok; vm_compute; reflexivity|].
  split; [vm_compute; reflexivity|]. split; [vm_compute; reflexivity|]. vm_compute. reflexivity.
Qed.

Print Assumptions C64_clean_up.
Print Assumptions C64_interrupted.
Print Assumptions C64_order_refuted.
Print Assumptions C64_simple_refuted.
