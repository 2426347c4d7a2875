(** Proofs about one step of the simplification pass: which vertices are joints, which pairs are merged. *)
From Coq Require Import String.
From Verif Require Import Base ListAux AdjList AdjListSpec AdjListProofs AdjListProofs2 AdjListProofs3 Tags TagsProps RichLine NetImport NetImportSpec
  NetImportProofs NetImportProofs2 NetImportProofs3 NetImportProofs4.

Section Step.
  Context {P Str : Type}.
  Variable eqp : P -> P -> bool.
  Hypothesis eqp_refl : forall p, eqp p p = true.
  Notation graph := (graph (node P) (road P)).
  Notation edge := (@edge (road P)).
  Notation import := (import P Str).

  Section G.
    Variable g : graph.
    Hypothesis H : exact Bidirectional g.

    (** one candidate for the mate of [i] among the roads out *)
    Lemma match_outs_skip i outs : forall adj, In i (g_es g) -> incl outs (g_es g) -> (forall o, In o outs -> e_src i <> e_tgt o) ->
      match_outs eqp g (e_id i) (map e_id outs) adj = Ok adj.
    Proof.
      induction outs as [|o outs IH]; intros adj Hi Ho N; [reflexivity|]. cbn [map match_outs].
      assert (IH' := IH adj Hi (fun z Hz => Ho z (or_intror Hz)) (fun z Hz => N z (or_intror Hz))).
      destruct (e_id o =? e_id i); [exact IH'|].
      rewrite (get_edge_of _ _ _ H Hi). cbn [derefO]. rewrite (get_edge_of _ _ o H) by (apply Ho; left; reflexivity). cbn [derefO].
      replace (e_src i =? e_tgt o) with false by (symmetry; apply Nat.eqb_neq, N; left; reflexivity). rewrite andb_false_r. exact IH'.
    Qed.
    Lemma match_outs_here i o outs adj : In i (g_es g) -> In o (g_es g) -> mate eqp i o -> existsb (fun p => snd p =? e_id o) adj = false ->
      match_outs eqp g (e_id i) (e_id o :: outs) adj = match_outs eqp g (e_id i) outs (adj ++ [(e_id i, e_id o)]).
    Proof.
      intros Hi Ho (A & B & C & D) T. cbn [match_outs]. replace (e_id o =? e_id i) with false by (symmetry; apply Nat.eqb_neq; auto).
      rewrite (get_edge_of _ _ _ H Hi). cbn [derefO]. rewrite (get_edge_of _ _ o H) by assumption. cbn [derefO].
      rewrite B, C, !Nat.eqb_refl. cbn [andb]. rewrite T. change (r_line (e_data i)) with (line_of i). change (r_line (e_data o)) with (line_of o).
      rewrite D. reflexivity.
    Qed.

    Lemma mergeable_yes v : In v (vertex_ids g) ->
      ((exists i o, ins_of (g_es g) v = [i] /\ outs_of (g_es g) v = [o]) \/
       (exists i1 i2 o1 o2, ins_of (g_es g) v = [i1; i2] /\ Permutation (outs_of (g_es g) v) [o1; o2] /\ mate eqp i1 o1 /\ mate eqp i2 o2 /\
          e_src i1 <> e_src i2)) ->
      is_mergeable eqp g v = Ok true.
    Proof.
      intros Hv M. unfold is_mergeable. destruct (get_vertex_some g v Hv) as [x E]. rewrite E. cbn [derefO].
      rewrite (ins_ids g v x H E), (outs_ids g v x H E), !map_length.
      assert (Ii : incl (ins_of (g_es g) v) (g_es g)) by (intros e He; apply ins_of_in in He; tauto).
      assert (Io : incl (outs_of (g_es g) v) (g_es g)) by (intros e He; apply outs_of_in in He; tauto).
      assert (No : NoDup (map e_id (outs_of (g_es g) v))) by apply NoDup_map_filter, (ex_eid _ _ H).
      destruct M as [(i & o & E1 & E2)|(i1 & i2 & o1 & o2 & E1 & E2 & M1 & M2 & N)].
      { rewrite E1, E2. reflexivity. }
      rewrite (Permutation_length E2). cbn [length Nat.eqb andb orb Nat.add negb]. rewrite E1 in *. cbn [length Nat.eqb andb orb Nat.add negb].
      assert (A1 : In i1 (g_es g)) by (apply Ii; left; reflexivity). assert (A2 : In i2 (g_es g)) by (apply Ii; right; left; reflexivity).
      assert (B1 : In o1 (g_es g)) by (apply Io, (Permutation_in _ (Permutation_sym E2)); left; reflexivity).
      assert (B2 : In o2 (g_es g)) by (apply Io, (Permutation_in _ (Permutation_sym E2)); right; left; reflexivity).
      assert (Noo : e_id o1 <> e_id o2).
      { apply (Permutation_NoDup (Permutation_map e_id E2)) in No. cbn in No. inversion No as [|? ? X Y]; subst. intros Z. apply X. left. auto. }
      pose proof M1 as (_ & _ & C1 & _). pose proof M2 as (_ & _ & C2 & _).
      assert (S1 : forall adj, match_outs eqp g (e_id i1) (map e_id [o2]) adj = Ok adj).
      { intros adj. apply match_outs_skip; auto; [intros z [<-|[]]; exact B2|intros z [<-|[]]; congruence]. }
      assert (S2 : forall adj, match_outs eqp g (e_id i2) (map e_id [o1]) adj = Ok adj).
      { intros adj. apply match_outs_skip; auto; [intros z [<-|[]]; exact B1|intros z [<-|[]]; congruence]. }
      cbn [map] in S1, S2.
      assert (J1 : match_outs eqp g (e_id i1) (map e_id (outs_of (g_es g) v)) [] = Ok [(e_id i1, e_id o1)]).
      { destruct (Permutation_length_2_inv (Permutation_sym E2)) as [-> | ->]; cbn [map].
        - rewrite match_outs_here by auto. cbn [app]. apply S1.
        - specialize (S1 []). cbn [match_outs] in S1. cbn [match_outs].
          assert (Q : match_outs eqp g (e_id i1) (map e_id [o2] ++ [e_id o1]) [] = match_outs eqp g (e_id i1) [e_id o1] []).
          { cbn [map app match_outs]. destruct (e_id o2 =? e_id i1); [reflexivity|].
            rewrite (get_edge_of _ _ _ H A1), (get_edge_of _ _ _ H B2). cbn [derefO].
            replace (e_src i1 =? e_tgt o2) with false by (symmetry; apply Nat.eqb_neq; congruence). rewrite andb_false_r. reflexivity. }
          cbn [map app] in Q. change (match_outs eqp g (e_id i1) [e_id o2; e_id o1] [] = Ok [(e_id i1, e_id o1)]). rewrite Q.
          rewrite match_outs_here by auto. reflexivity. }
      assert (J2 : match_outs eqp g (e_id i2) (map e_id (outs_of (g_es g) v)) [(e_id i1, e_id o1)] = Ok [(e_id i1, e_id o1); (e_id i2, e_id o2)]).
      { assert (T : existsb (fun p => snd p =? e_id o2) [(e_id i1, e_id o1)] = false).
        { cbn. rewrite orb_false_r. apply Nat.eqb_neq. exact Noo. }
        destruct (Permutation_length_2_inv (Permutation_sym E2)) as [-> | ->]; cbn [map].
        - assert (Q : match_outs eqp g (e_id i2) [e_id o1; e_id o2] [(e_id i1, e_id o1)] = match_outs eqp g (e_id i2) [e_id o2] [(e_id i1, e_id o1)]).
          { cbn [match_outs]. destruct (e_id o1 =? e_id i2); [reflexivity|].
            rewrite (get_edge_of _ _ _ H A2), (get_edge_of _ _ _ H B1). cbn [derefO].
            replace (e_src i2 =? e_tgt o1) with false by (symmetry; apply Nat.eqb_neq; congruence). rewrite andb_false_r. reflexivity. }
          rewrite Q. rewrite match_outs_here by auto. reflexivity.
        - rewrite match_outs_here by auto. cbn [app]. apply S2. }
      cbn [map match_ins]. rewrite J1. cbn [bindO existsb fst]. rewrite Nat.eqb_refl. cbn [orb]. rewrite J2. cbn [bindO existsb fst].
      rewrite Nat.eqb_refl, orb_true_r. 
      cbn [bindO].
      match goal with |- context [forallb ?f ?l] => assert (Fa : forallb f l = true) end; [|rewrite Fa; reflexivity].
      apply forallb_forall. intros q Hq. apply (Permutation_in _ (Permutation_map e_id E2)) in Hq. cbn in Hq.
      apply existsb_exists. destruct Hq as [<-|[<-|[]]].
      - exists (e_id i1, e_id o1). split; [left; reflexivity|]. apply Nat.eqb_refl.
      - exists (e_id i2, e_id o2). split; [right; left; reflexivity|]. apply Nat.eqb_refl.
    Qed.

    (** which pairs are chosen at a joint *)
    Variable t : tags_state Str.
    Variable complete : bool.

    Lemma fits_spec i o v : In i (ins_of (g_es g) v) -> In o (outs_of (g_es g) v) ->
      (fits t complete i o = true <-> e_src i <> e_tgt o /\ (complete = true \/ id_of i = id_of o)).
    Proof.
      intros Hi Ho. apply ins_of_in in Hi as [Hi Ti]. apply outs_of_in in Ho as [Ho So]. unfold fits.
      rewrite !andb_true_iff, !negb_true_iff, orb_true_iff, andb_true_iff, !Nat.eqb_neq, !Nat.eqb_eq. split.
      - intros (((A & B) & C) & D). split; [exact C|]. tauto.
      - intros (C & D). split; [split; [split|]|].
        + intros Q. apply C. pose proof (eid_inj _ _ _ _ H Ho Hi Q) as ->. congruence.
        + congruence.
        + exact C.
        + destruct D as [D|D]; [left; exact D|right]. split; [exact D|]. rewrite D.
          destruct (list_eq_dec Nat.eq_dec (edge_tags t (id_of o)) (edge_tags t (id_of o))); [reflexivity|contradiction].
    Qed.

    Lemma pick_fitting v : mergeable eqp g v -> forall i o, In i (ins_of (g_es g) v) -> In o (outs_of (g_es g) v) -> fits t complete i o = true ->
      In (e_id i, e_id o) (pick_ins t complete (ins_of (g_es g) v) (outs_of (g_es g) v) []).
    Proof.
      intros M i o Hi Ho F.
      assert (Hi' := Hi). assert (Ho' := Ho). apply ins_of_in in Hi' as [Gi Ti]. apply outs_of_in in Ho' as [Go So].
      destruct M as [(i1 & o1 & E1 & E2)|(i1 & i2 & o1 & o2 & E1 & E2 & M1 & M2)].
      - rewrite E1 in *. rewrite E2 in *. destruct Hi as [<-|[]], Ho as [<-|[]]. cbn [pick_ins pick_outs]. rewrite F. cbn. auto.
      - assert (Ni : NoDup (map e_id (ins_of (g_es g) v))) by apply NoDup_map_filter, (ex_eid _ _ H).
        assert (No : NoDup (map e_id (outs_of (g_es g) v))) by apply NoDup_map_filter, (ex_eid _ _ H).
        assert (Nii : e_id i1 <> e_id i2) by (rewrite E1 in Ni; cbn in Ni; inversion Ni as [|? ? A B]; subst; intros Z; apply A; left; auto).
        assert (Noo : e_id o1 <> e_id o2).
        { apply (Permutation_NoDup (Permutation_map e_id E2)) in No. cbn in No. inversion No as [|? ? X Y]; subst. intros Z. apply X. left. auto. }
        destruct M1 as (K1 & _ & F1 & _). destruct M2 as (K2 & _ & F2 & _).
        rewrite E1 in *. clear E1 Ni No. apply (Permutation_in _ E2) in Ho.
        assert (F0 : forall i o : edge, e_src i = e_tgt o -> fits t complete i o = false).
        { intros a b Q. unfold fits. rewrite Q, Nat.eqb_refl. cbn [negb]. rewrite andb_false_r. reflexivity. }
        assert (P1 := F0 _ _ F1). assert (P2 := F0 _ _ F2).
        assert (Z : (i = i1 /\ o = o2) \/ (i = i2 /\ o = o1)).
        { destruct Hi as [<-|[<-|[]]], Ho as [<-|[<-|[]]]; auto; congruence. }
        destruct (Permutation_length_2_inv (Permutation_sym E2)) as [Eo|Eo]; rewrite Eo; cbn [pick_ins pick_outs]; rewrite P1, P2; cbn [andb];
          destruct Z as [[-> ->]|[-> ->]]; rewrite F; destruct (fits t complete i2 o1) eqn:FF; destruct (fits t complete i1 o2) eqn:FG; try congruence;
          cbn [taken existsb negb andb app fst snd pick_ins pick_outs]; try (cbn; tauto);
          repeat (match goal with |- context [e_id ?a =? e_id ?b] => replace (e_id a =? e_id b) with false by (symmetry; apply Nat.eqb_neq; auto) end;
                  cbn [orb negb andb app]); cbn; tauto.
    Qed.

    (** with complete simplification all roads at a joint are merged or none is *)
    Lemma complete_covers v i o : complete = true -> mergeable eqp g v -> In i (ins_of (g_es g) v) -> In o (outs_of (g_es g) v) -> e_src i <> e_tgt o ->
      (forall i', In i' (ins_of (g_es g) v) -> exists o', In o' (outs_of (g_es g) v) /\ e_src i' <> e_tgt o') /\
      (forall o', In o' (outs_of (g_es g) v) -> exists i', In i' (ins_of (g_es g) v) /\ e_src i' <> e_tgt o').
    Proof.
      intros Hc M Hi Ho N. destruct M as [(i1 & o1 & E1 & E2)|(i1 & i2 & o1 & o2 & E1 & E2 & M1 & M2)].
      - rewrite E1 in *. rewrite E2 in *. destruct Hi as [<-|[]], Ho as [<-|[]]. split.
        + intros i' [<-|[]]. exists o1. cbn. auto.
        + intros o' [<-|[]]. exists i1. cbn. auto.
      - destruct M1 as (K1 & _ & F1 & _). destruct M2 as (K2 & _ & F2 & _). rewrite E1 in *.
        assert (Q : e_src i1 <> e_src i2).
        { intros Q. apply (Permutation_in _ E2) in Ho. destruct Hi as [<-|[<-|[]]], Ho as [<-|[<-|[]]]; congruence. }
        assert (B1 : In o1 (outs_of (g_es g) v)) by (apply (Permutation_in _ (Permutation_sym E2)); left; reflexivity).
        assert (B2 : In o2 (outs_of (g_es g) v)) by (apply (Permutation_in _ (Permutation_sym E2)); right; left; reflexivity).
        split.
        + intros i' [<-|[<-|[]]]; [exists o2|exists o1]; split; auto; congruence.
        + intros o' Ho'. apply (Permutation_in _ E2) in Ho'. destruct Ho' as [<-|[<-|[]]]; [exists i2|exists i1]; (split; [cbn; auto|congruence]).
    Qed.
  End G.

  (** *** one vertex of the loop *)
  Lemma visit_ok complete g0 t0 (s : import) J c v r : exact Bidirectional g0 -> drawn g0 ->
    refines complete g0 t0 (i_graph s) (i_tags s) J c -> i_mem s = [] -> In v (vertex_ids (i_graph s)) -> ~ In v J ->
    (simplify_loop eqp complete false (v :: r) s = simplify_loop eqp complete false r s /\
     forall i o, mergeable eqp (i_graph s) v -> is_mergeable eqp (i_graph s) v = Ok true ->
       In i (ins_of (g_es (i_graph s)) v) -> In o (outs_of (g_es (i_graph s)) v) ->
       e_src i = e_tgt o \/ (complete = false /\ id_of i <> id_of o)) \/
    exists s' c' d, simplify_loop eqp complete false (v :: r) s = simplify_loop eqp complete false r s' /\
      mergeable eqp (i_graph s) v /\ (exists i o, In i (ins_of (g_es (i_graph s)) v) /\ In o (outs_of (g_es (i_graph s)) v) /\ e_src i <> e_tgt o) /\
      noloop (g_es (i_graph s)) v /\ two_directions eqp g0 v /\
      refines complete g0 t0 (i_graph s') (i_tags s') (v :: J) c' /\
      refines complete (i_graph s) (i_tags s) (i_graph s') (i_tags s') [v] d /\
      i_mem s' = [] /\ i_running s' = i_running s /\
      incl (vertex_ids (i_graph s')) (vertex_ids (i_graph s)) /\
      (forall w, In w (vertex_ids (i_graph s)) -> w <> v -> In w (vertex_ids (i_graph s'))) /\
      (complete = true -> ~ In v (vertex_ids (i_graph s'))) /\
      (forall e, In e (g_es (i_graph s')) -> e_src e = e_tgt e -> In e (g_es (i_graph s))).
  Proof.
    intros H0 D0 R Em Hv Nj. pose proof (rf_exact _ _ _ _ _ _ _ R) as H. pose proof (rf_drawn _ _ _ _ _ _ _ R) as D.
    cbn [simplify_loop]. destruct (get_vertex_some (i_graph s) v Hv) as [x E]. rewrite E. cbn [derefO andb].
    destruct (is_mergeable_ok eqp (i_graph s) H v Hv) as (b & Eb & Mb). rewrite Eb. cbn [bindO].
    destruct b; [|left; split; [reflexivity|]; intros i o _ Q; discriminate]. specialize (Mb eq_refl).
    rewrite (populate_ok (i_graph s) H (i_tags s) complete v Hv). cbn [bindO].
    set (ms := pick_ins (i_tags s) complete (ins_of (g_es (i_graph s)) v) (outs_of (g_es (i_graph s)) v) []).
    assert (Ch : chosen (i_tags s) complete (ins_of (g_es (i_graph s)) v) (outs_of (g_es (i_graph s)) v) ms).
    { apply pick_chosen; [apply incl_refl|]. split; [constructor|split; [constructor|intros p []]]. }
    assert (Pf : forall i o, In i (ins_of (g_es (i_graph s)) v) -> In o (outs_of (g_es (i_graph s)) v) -> fits (i_tags s) complete i o = true -> In (e_id i, e_id o) ms).
    { intros i o Hi Ho F. apply (pick_fitting (i_graph s) H (i_tags s) complete v Mb i o Hi Ho F). }
    clearbody ms. destruct ms as [|[a b] ms].
    { left. split; [reflexivity|]. intros i o _ _ Hi Ho. destruct (Nat.eq_dec (e_src i) (e_tgt o)) as [Q|Q]; [left; exact Q|right].
      assert (F : ~ (complete = true \/ id_of i = id_of o)).
      { intros F. apply (Pf i o Hi Ho). apply (fits_spec (i_graph s) H (i_tags s) complete i o v Hi Ho). auto. }
      destruct complete; [exfalso; apply F; auto|]. auto. }
    right. set (s1 := mark (i_running s) true (v_index x) s).
    destruct Ch as (Nf & Ns & Ch).
    destruct (Ch (a, b) (or_introl eq_refl)) as (i & o & Hi & Ho & Ep & F).
    assert (Fio : e_src i <> e_tgt o) by (apply (fits_spec (i_graph s) H (i_tags s) complete i o v Hi Ho) in F; tauto).
    destruct (mergeable_origin eqp complete g0 t0 (i_graph s) (i_tags s) J c H0 D0 R v i o Nj Mb Hi Ho Fio) as (Td & NL).
    assert (Hms : forall p, In p ((a, b) :: ms) -> exists i o, In i (g_es (i_graph s)) /\ In o (g_es (i_graph s)) /\ p = (e_id i, e_id o) /\
       e_tgt i = v /\ e_src o = v /\ e_src i <> e_tgt o /\ (complete = false -> id_of i = id_of o)).
    { intros p Hp. destruct (Ch p Hp) as (i' & o' & Hi' & Ho' & Ep' & F').
      apply (fits_spec (i_graph s) H (i_tags s) complete i' o' v Hi' Ho') in F' as [F0 F']. apply ins_of_in in Hi' as [A1 A2]. apply outs_of_in in Ho' as [B1 B2].
      exists i', o'. repeat split; auto. intros Q. destruct F' as [F'|F']; [congruence|exact F']. }
    assert (R1 : refines complete g0 t0 (i_graph s1) (i_tags s1) (v :: J) c).
    { unfold s1. cbn [i_graph i_tags mark]. destruct R. constructor; auto.
      - intros e He. apply (course_mono J); auto. intros z Hz. right. exact Hz.
      - intros w Hw Nw. apply rf_keep; auto. intros Q. apply Nw. right. exact Q.
      - intros n k Hk. destruct (rf_from n k Hk) as (m & L & Hm). exists m. split; [|exact Hm]. apply (leads_mono _ J); [|exact L]. intros z Hz. right. exact Hz. }
    destruct (merge_all_ok eqp eqp_refl complete g0 t0 (v :: J) v D0 (or_introl eq_refl) ((a, b) :: ms) s1 c R1 Em NL Nf Ns Hms)
      as (s' & c' & A1 & A2 & A3 & A4 & A5 & A6 & A7 & A8 & A9 & A10 & A11).
    assert (R2 : refines complete (i_graph s) (i_tags s) (i_graph s1) (i_tags s1) [v] (start (i_graph s))).
    { pose proof (refines_start complete (i_graph s) (i_tags s) H D) as S0. destruct S0. constructor; auto.
      - intros e He. apply (course_mono []); auto. intros z [].
      - intros n k Hk. exists n. split; [constructor|exact Hk]. }
    destruct (merge_all_ok eqp eqp_refl complete (i_graph s) (i_tags s) [v] v D (or_introl eq_refl) ((a, b) :: ms) s1 _ R2 Em NL Nf Ns Hms)
      as (s'' & d & B1 & B2 & _).
    rewrite A1 in B1. injection B1 as <-.
    exists s', c', d. rewrite A1. cbn [bindO]. split; [reflexivity|]. split; [exact Mb|]. split; [exists i, o; auto|]. split; [exact NL|]. split; [exact Td|]. split; [exact A2|]. split; [exact B2|].
    split; [exact A3|]. split; [rewrite A4; reflexivity|]. split; [exact A7|]. split; [exact A8|]. split; [|exact A11].
    intros Hc Q. apply A10; [discriminate|exact Q|]. destruct (touching (g_es (i_graph s')) v) as [|e l] eqn:Et; [reflexivity|exfalso].
    assert (He : In e (touching (g_es (i_graph s')) v)) by (rewrite Et; left; reflexivity).
    destruct (A9 e (or_introl eq_refl)) as (X1 & X2 & X3). apply touching_in in He as [_ He].
    destruct (complete_covers (i_graph s) complete v i o Hc Mb Hi Ho Fio) as [C1 C2].
    change (i_graph s1) with (i_graph s) in X1.
    destruct He as [He|He].
    - assert (Ho' : In e (outs_of (g_es (i_graph s)) v)) by (apply outs_of_in; auto).
      destruct (C2 e Ho') as (i' & Hi' & N'). apply X3. change (e_id e) with (snd (e_id i', e_id e)). apply in_map. apply Pf; auto.
      apply (fits_spec (i_graph s) H (i_tags s) complete i' e v Hi' Ho'). auto.
    - assert (Hi' : In e (ins_of (g_es (i_graph s)) v)) by (apply ins_of_in; auto).
      destruct (C1 e Hi') as (o' & Ho' & N'). apply X2. change (e_id e) with (fst (e_id e, e_id o')). apply in_map. apply Pf; auto.
      apply (fits_spec (i_graph s) H (i_tags s) complete e o' v Hi' Ho'). auto.
  Qed.
End Step.
