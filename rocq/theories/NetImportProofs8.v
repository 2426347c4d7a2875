(** Proofs about the simplification pass: failed allocations and retries. *)
From Coq Require Import String.
From Verif Require Import Base ListAux AdjList AdjListSpec AdjListProofs AdjListProofs2 AdjListProofs3 Tags TagsProps RichLine NetImport NetImportSpec
  NetImportProofs NetImportProofs2 NetImportProofs3 NetImportProofs4 NetImportProofs5 NetImportProofs6 NetImportProofs7.

Section Memory.
  Context {P Str : Type}.
  Variable eqp : P -> P -> bool.
  Hypothesis eqp_refl : forall p, eqp p p = true.
  Notation graph := (graph (node P) (road P)).
  Notation edge := (@edge (road P)).
  Notation import := (import P Str).

  (** the vertices with their numbers *)
  Definition numbers (g : graph) : list (nat * nat) := map (fun x => (v_id x, v_index x)) (g_vs g).

  Lemma numbers_merged (g : graph) i o new : incl (numbers (merged g i o new)) (numbers g) /\
    (forall p, In p (numbers g) -> fst p <> e_tgt i -> In p (numbers (merged g i o new))).
  Proof.
    unfold merged. set (g1 := canon Bidirectional g (merged_es g i o new) (S (g_next g))).
    assert (E : numbers g1 = numbers g) by (unfold numbers, g1, canon; cbn [g_vs]; rewrite map_map; reflexivity).
    destruct (touching (merged_es g i o new) (e_tgt i)); [|rewrite E; split; [apply incl_refl|auto]].
    rewrite <- E. unfold numbers, without_vertex. cbn [g_vs]. split.
    - intros p Hp. apply in_map_iff in Hp as (x & <- & Hx). apply filter_In in Hx as [Hx _]. apply in_map_iff. eauto.
    - intros p Hp Np. apply in_map_iff in Hp as (x & <- & Hx). cbn [fst] in Np. apply in_map_iff. exists x. split; [reflexivity|].
      apply filter_In. split; [exact Hx|]. apply negb_true_iff, Nat.eqb_neq. exact Np.
  Qed.

  Lemma merge_fine (s : import) i o r s1 : i_mem s = Fine :: r -> merge eqp (set_mem [] s) i o = Ok s1 -> merge eqp s i o = Ok (set_mem r s1).
  Proof.
    intros Em. unfold merge, next_answer. cbn [i_graph i_tags i_mem set_mem set_tags]. rewrite Em.
    destruct (get_edge (i_graph s) i) as [ei|]; cbn [derefO]; [|discriminate]. destruct (get_edge (i_graph s) o) as [eo|]; cbn [derefO]; [|discriminate].
    destruct (merge_road eqp (e_data ei) (e_data eo)) as [new| | |]; cbn [bindO]; try discriminate. cbn [i_graph set_mem set_tags].
    destruct (remove_edge Bidirectional false (i_graph s) i) as [g1| | |]; cbn [bindO]; try discriminate.
    destruct (remove_edge Bidirectional false g1 o) as [g2| | |]; cbn [bindO]; try discriminate.
    destruct (add_edge Bidirectional g2 (e_src ei) (e_tgt eo) new Good Good Good) as [p| | |]; cbn [bindO]; try discriminate.
    destruct (degree (fst p) (e_tgt ei)) as [k|]; cbn [derefO]; [|discriminate].
    destruct (k =? 0).
    - destruct (remove_vertex (fst p) (e_tgt ei)) as [g4| | |]; cbn [bindO]; try discriminate. intros X. injection X as <-. reflexivity.
    - intros X. injection X as <-. reflexivity.
  Qed.
  Lemma merge_noline (s : import) i o r : exact Bidirectional (i_graph s) -> In i (g_es (i_graph s)) -> In o (g_es (i_graph s)) -> i_mem s = NoLine :: r ->
    merge eqp s (e_id i) (e_id o) = Throw (set_mem r (set_tags (merge_edge_tags (id_of i) (id_of o) (i_tags s)) s)).
  Proof.
    intros H Hi Ho Em. unfold merge, next_answer. rewrite (get_edge_of _ _ _ H Hi). cbn [derefO]. rewrite (get_edge_of _ _ _ H Ho). cbn [derefO i_mem set_tags].
    rewrite Em. reflexivity.
  Qed.

  (** a failed reservation has changed nothing but tags *)
  Lemma refines_tags complete g0 t0 (g : graph) (t : tags_state Str) J c i o : refines complete g0 t0 g t J c -> (complete = false -> id_of i = id_of o) ->
    In i (g_es g) -> In o (g_es g) -> e_tgt i = e_src o -> In (e_tgt i) J ->
    refines complete g0 t0 g (merge_edge_tags (@id_of P i) (@id_of P o) t) J c.
  Proof.
    intros R Hid Hi Ho E Hj. destruct (C51_merge_edge_tags t (id_of i) (id_of o)) as (_ & T1 & T2 & T3). destruct R. constructor; auto.
    - intros Hc. destruct (rf_aware Hc) as [A B]. split; [|exact B]. rewrite (Hid Hc). unfold merge_edge_tags. rewrite Nat.eqb_refl. exact A.
    - intros e f He Hf k Hk. specialize (rf_tags e f He Hf k Hk). destruct (Nat.eq_dec (id_of e) (id_of i)) as [Q|Q]; [rewrite Q in *; apply T1; auto|rewrite T2 by exact Q; exact rf_tags].
    - intros n. rewrite T3. apply rf_nodes.
    - intros n k Hk. destruct (Nat.eq_dec n (id_of i)) as [->|Nx]; [|rewrite T2 in Hk by exact Nx; apply rf_from; exact Hk].
      apply T1 in Hk as [Hk|Hk]; [apply rf_from; exact Hk|]. destruct (rf_from _ _ Hk) as (m & L & Hm). exists m. split; [|exact Hm].
      eapply leads_trans; [|exact L]. apply (courses_lead g0 J (c (e_id i)) (c (e_id o))); auto.
      + intros f Hf. apply (Permutation_in f rf_all). apply in_flat_map. eauto.
      + intros f Hf. apply (Permutation_in f rf_all). apply in_flat_map. eauto.
  Qed.

  Lemma merge_all_mem complete g0 t0 J v : drawn g0 -> In v J -> forall ms (s : import) c,
    refines complete g0 t0 (i_graph s) (i_tags s) J c -> ~ In NoEdge (i_mem s) -> noloop (g_es (i_graph s)) v ->
    NoDup (map fst ms) -> NoDup (map snd ms) ->
    (forall p, In p ms -> exists i o, In i (g_es (i_graph s)) /\ In o (g_es (i_graph s)) /\ p = (e_id i, e_id o) /\
       e_tgt i = v /\ e_src o = v /\ e_src i <> e_tgt o /\ (complete = false -> id_of i = id_of o)) ->
    exists s' c' used, (merge_all eqp s ms = Ok s' \/ (merge_all eqp s ms = Throw s' /\ In v (vertex_ids (i_graph s')) /\ In NoLine used)) /\
      refines complete g0 t0 (i_graph s') (i_tags s') J c' /\
      i_mem s = used ++ i_mem s' /\ i_running s' = i_running s /\ i_set s' = i_set s /\ i_vertex s' = i_vertex s /\
      incl (numbers (i_graph s')) (numbers (i_graph s)) /\
      (forall p, In p (numbers (i_graph s)) -> fst p <> v -> In p (numbers (i_graph s'))).
  Proof.
    intros D0 Hj. induction ms as [|[a b] ms IH]; intros s c R Em NL Nf Ns Hms.
    - exists s, c, []. split; [left; reflexivity|]. split; [exact R|]. split; [reflexivity|]. split; [reflexivity|]. split; [reflexivity|].
      split; [reflexivity|]. split; [apply incl_refl|]. auto.
    - destruct (Hms (a, b) (or_introl eq_refl)) as (i & o & Hi & Ho & Ep & Ti & So & Nl & Hid). injection Ep as -> ->.
      pose proof (rf_exact _ _ _ _ _ _ _ R) as H.
      assert (Nio : e_id i <> e_id o).
      { intros Q. pose proof (eid_inj _ _ _ _ H Hi Ho Q) as ->. apply (NL o Ho So Ti). }
      assert (K : exists m' u, (i_mem s = u ++ m' /\ (u = [] \/ u = [Fine]) /\ merge eqp s (e_id i) (e_id o) = Ok (set_mem m' (set_graph (merged (i_graph s) i o (joined_road i o)) (set_tags (merge_edge_tags (id_of i) (id_of o) (i_tags s)) s)))) \/
                     (i_mem s = NoLine :: m' /\ merge eqp s (e_id i) (e_id o) = Throw (set_mem m' (set_tags (merge_edge_tags (id_of i) (id_of o) (i_tags s)) s)))).
      { destruct (refines_merge eqp eqp_refl complete g0 t0 (set_mem [] s) J c i o D0 R eq_refl Hi Ho Nio) as (Eq & _); [congruence|congruence|exact Hid|].
        destruct (i_mem s) as [|[| |] m'] eqn:Es.
        - exists [], []. left. split; [reflexivity|]. split; [left; reflexivity|].
          assert (Q : set_mem [] s = s) by (destruct s; cbn in *; rewrite Es; reflexivity). rewrite Q in Eq. rewrite Eq. destruct s; cbn in *. rewrite Es. reflexivity.
        - exists m', [Fine]. left. split; [reflexivity|]. split; [right; reflexivity|]. rewrite (merge_fine s _ _ m' _ Es Eq). reflexivity.
        - exists m', []. right. split; [reflexivity|]. apply merge_noline; auto.
        - exfalso. apply Em. left. reflexivity. }
      destruct K as (m' & u & [(Es & Hu & Eq)|(Es & Eq)]); cbn [merge_all]; rewrite Eq; cbn [bindO].
      + destruct (refines_merge eqp eqp_refl complete g0 t0 (set_mem [] s) J c i o D0 R eq_refl Hi Ho Nio) as (_ & c1 & R1); [congruence|congruence|exact Hid|].
        set (s1 := set_mem m' _) in *. cbn [map fst snd] in Nf, Ns. inversion Nf as [|? ? Nf1 Nf2]; subst. inversion Ns as [|? ? Ns1 Ns2]; subst.
        destruct (numbers_merged (i_graph s) i o (joined_road i o)) as (Vsub & Vkeep).
        assert (NewT : ~ (e_src i = e_tgt i \/ e_tgt o = e_tgt i)).
        { intros [Q|Q]; [apply (NL i Hi); congruence|apply (NL o Ho); congruence]. }
        destruct (IH s1 c1) as (s' & c' & used & A1 & A2 & A3 & A4 & A5 & A6 & A7 & A8).
        * exact R1.
        * unfold s1. cbn [i_mem set_mem]. intros Q. apply Em. rewrite Es. apply in_app_iff. right. exact Q.
        * intros e He. unfold s1 in He. cbn [i_graph set_graph set_mem] in He. rewrite merged_edges in He.
          apply in_app_iff in He as [He|[<-|[]]]; [apply rest_in in He as [He _]; apply NL; exact He|]. cbn. intros _ Q. apply NewT. right. exact Q.
        * exact Nf2.
        * exact Ns2.
        * intros [x y] Hp. destruct (Hms (x, y) (or_intror Hp)) as (i' & o' & Hi' & Ho' & Ep & Ti' & So' & Nl' & Hid').
          injection Ep as -> ->. exists i', o'.
          assert (K1 : e_id i' <> e_id i) by (intros Q; apply Nf1; rewrite <- Q; apply (in_map fst ms _ Hp)).
          assert (K2 : e_id o' <> e_id o) by (intros Q; apply Ns1; rewrite <- Q; apply (in_map snd ms _ Hp)).
          assert (K3 : e_id i' <> e_id o) by (intros Q; pose proof (eid_inj _ _ _ _ H Hi' Ho Q) as ->; apply (NL o Ho So); exact Ti').
          assert (K4 : e_id o' <> e_id i) by (intros Q; pose proof (eid_inj _ _ _ _ H Ho' Hi Q) as ->; apply (NL i Hi So'); reflexivity).
          unfold s1. cbn [i_graph set_graph set_mem]. rewrite merged_edges. unfold merged_es.
          split; [apply in_app_iff; left; apply rest_in; auto|]. split; [apply in_app_iff; left; apply rest_in; auto|]. auto.
        * exists s', c', (u ++ used). split; [destruct A1 as [A1|(A1 & A1' & A1'')]; [left; exact A1|right; split; [exact A1|split; [exact A1'|apply in_app_iff; auto]]]|]. split; [exact A2|].
          split; [rewrite Es, <- app_assoc; f_equal; exact A3|]. split; [exact A4|]. split; [exact A5|]. split; [exact A6|].
          split; [intros p Hp; apply Vsub; apply A7; exact Hp|]. intros p Hp Np. apply A8; [apply Vkeep; auto; congruence|exact Np].
      + exists (set_mem m' (set_tags (merge_edge_tags (id_of i) (id_of o) (i_tags s)) s)), c, [NoLine].
        split; [right; split; [reflexivity|split; [|cbn; auto]]|].
        { cbn [i_graph set_mem set_tags]. destruct (ex_end _ _ H i Hi) as [_ Q]. rewrite Ti in Q. exact Q. }
        split; [cbn [i_graph i_tags set_mem set_tags]; apply refines_tags; auto; congruence|]. split; [exact Es|]. split; [reflexivity|]. split; [reflexivity|].
        split; [reflexivity|]. split; [apply incl_refl|]. auto.
  Qed.

  Lemma mergeable_noloop (g : graph) v i o : mergeable eqp g v -> In i (ins_of (g_es g) v) -> In o (outs_of (g_es g) v) -> e_src i <> e_tgt o ->
    noloop (g_es g) v.
  Proof.
    intros M Hi Ho Nio e He Hs Ht.
    assert (Ge : In e (ins_of (g_es g) v)) by (apply ins_of_in; auto). assert (Fe : In e (outs_of (g_es g) v)) by (apply outs_of_in; auto).
    destruct M as [(i1 & o1 & E1 & E2)|(i1 & i2 & o1 & o2 & E1 & E2 & M1 & M2)].
    - rewrite E1 in *. rewrite E2 in *. destruct Hi as [<-|[]], Ho as [<-|[]], Ge as [<-|[]], Fe as [<-|[]]. congruence.
    - assert (B1 : In o1 (outs_of (g_es g) v)) by (apply (Permutation_in _ (Permutation_sym E2)); cbn; auto).
      assert (B2 : In o2 (outs_of (g_es g) v)) by (apply (Permutation_in _ (Permutation_sym E2)); cbn; auto).
      assert (A1 : e_tgt i1 = v) by (assert (Z : In i1 (ins_of (g_es g) v)) by (rewrite E1; cbn; auto); apply ins_of_in in Z; tauto).
      assert (A2 : e_tgt i2 = v) by (assert (Z : In i2 (ins_of (g_es g) v)) by (rewrite E1; cbn; auto); apply ins_of_in in Z; tauto).
      apply outs_of_in in B1 as [B1 S1], B2 as [B2 S2].
      destruct M1 as (K1 & _ & F1 & _). destruct M2 as (K2 & _ & F2 & _).
      assert (All : e_src i1 = v /\ e_src i2 = v).
      { rewrite E1 in Ge. destruct Ge as [<-|[<-|[]]].
        - assert (C1 : In o1 (ins_of (g_es g) v)) by (apply ins_of_in; split; [exact B1|congruence]).
          rewrite E1 in C1. destruct C1 as [C1|[C1|[]]]; [congruence|]. subst o1. split; congruence.
        - assert (C1 : In o2 (ins_of (g_es g) v)) by (apply ins_of_in; split; [exact B2|congruence]).
          rewrite E1 in C1. destruct C1 as [C1|[C1|[]]]; [|congruence]. subst o2. split; congruence. }
      rewrite E1 in Hi. apply (Permutation_in _ E2) in Ho. destruct All. destruct Hi as [<-|[<-|[]]], Ho as [<-|[<-|[]]]; congruence.
  Qed.

  (** the loop with failing reservations: it stops at a vertex and remembers its number *)
  Definition stopped (s : import) (vs : list nat) : Prop :=
    i_set s = true /\ exists v, In v vs /\ In (v, i_vertex s) (numbers (i_graph s)).

  Lemma number_of (g : graph) v x : get_vertex g v = Some x -> In (v, v_index x) (numbers g).
  Proof.
    intros E. pose proof (find_some _ _ E) as [A B]. apply Nat.eqb_eq in B. unfold numbers. apply in_map_iff. exists x. split; [rewrite B; reflexivity|exact A].
  Qed.
  Lemma number_ids (g : graph) v k : In (v, k) (numbers g) -> In v (vertex_ids g).
  Proof. intros Q. apply in_map_iff in Q as (x & E & Hx). injection E as E1 E2. rewrite <- E1. apply in_map. exact Hx. Qed.
  Lemma ids_number (g : graph) v : In v (vertex_ids g) -> exists k, In (v, k) (numbers g).
  Proof. intros Q. destruct (get_vertex_some g v Q) as [x E]. exists (v_index x). apply number_of. exact E. Qed.

  Lemma loop_mem complete g0 t0 : exact Bidirectional g0 -> drawn g0 -> forall vs (s : import) J c,
    refines complete g0 t0 (i_graph s) (i_tags s) J c -> ~ In NoEdge (i_mem s) -> NoDup (map fst (numbers (i_graph s))) ->
    NoDup vs -> incl vs (vertex_ids (i_graph s)) -> (forall w, In w J -> two_directions eqp g0 w) ->
    exists s' J' c' used, (simplify_loop eqp complete false vs s = Ok s' \/ (simplify_loop eqp complete false vs s = Throw s' /\ stopped s' vs /\ In NoLine used)) /\
      refines complete g0 t0 (i_graph s') (i_tags s') J' c' /\ i_mem s = used ++ i_mem s' /\ i_running s' = i_running s /\
      (forall w, In w J' -> two_directions eqp g0 w) /\ incl (numbers (i_graph s')) (numbers (i_graph s)).
  Proof.
    intros H0 D0. induction vs as [|v vs IH]; intros s J c R Em Nn Nv Hv Tj.
    - exists s, J, c, []. split; [left; reflexivity|]. split; [exact R|]. split; [reflexivity|]. split; [reflexivity|]. split; [exact Tj|apply incl_refl].
    - inversion Nv as [|? ? Nv1 Nv2]; subst. pose proof (rf_exact _ _ _ _ _ _ _ R) as H. pose proof (rf_drawn _ _ _ _ _ _ _ R) as D.
      assert (Hv0 : In v (vertex_ids (i_graph s))) by (apply Hv; left; reflexivity).
      assert (Next : forall s1 J1 c1 u, refines complete g0 t0 (i_graph s1) (i_tags s1) J1 c1 -> i_mem s = u ++ i_mem s1 -> i_running s1 = i_running s ->
        incl (numbers (i_graph s1)) (numbers (i_graph s)) -> (forall p, In p (numbers (i_graph s)) -> fst p <> v -> In p (numbers (i_graph s1))) ->
        (forall w, In w J1 -> two_directions eqp g0 w) ->
        exists s' J' c' used, (simplify_loop eqp complete false vs s1 = Ok s' \/ (simplify_loop eqp complete false vs s1 = Throw s' /\ stopped s' (v :: vs) /\ In NoLine used)) /\
          refines complete g0 t0 (i_graph s') (i_tags s') J' c' /\ i_mem s = used ++ i_mem s' /\ i_running s' = i_running s /\
          (forall w, In w J' -> two_directions eqp g0 w) /\ incl (numbers (i_graph s')) (numbers (i_graph s))).
      { intros s1 J1 c1 u R1 M1 Er1 Nu1 Nk1 T1.
        destruct (IH s1 J1 c1) as (s' & J' & c' & used & A1 & A2 & A3 & A4 & A5 & A6); auto.
        - intros Q. apply Em. rewrite M1. apply in_app_iff. auto.
        - pose proof (ex_vid _ _ (rf_exact _ _ _ _ _ _ _ R1)) as N1. unfold numbers. rewrite map_map. exact N1.
        - intros w Hw. destruct (ids_number (i_graph s) w) as [k Hk]; [apply Hv; right; exact Hw|]. apply (number_ids _ w k). apply Nk1; [exact Hk|]. cbn. intros ->. contradiction.
        - exists s', J', c', (u ++ used). split.
          + destruct A1 as [A1|(A1 & (Q1 & w & Hw & Q2) & A1')]; [left; exact A1|]. right. split; [exact A1|]. split; [|apply in_app_iff; auto].
            split; [exact Q1|]. exists w. split; [right; exact Hw|exact Q2].
          + split; [exact A2|]. split; [rewrite M1, <- app_assoc; f_equal; exact A3|]. split; [congruence|]. split; [exact A5|]. eapply incl_tran; eassumption. }
      assert (Skip : exists s' J' c' used, (simplify_loop eqp complete false vs s = Ok s' \/ (simplify_loop eqp complete false vs s = Throw s' /\ stopped s' (v :: vs) /\ In NoLine used)) /\
          refines complete g0 t0 (i_graph s') (i_tags s') J' c' /\ i_mem s = used ++ i_mem s' /\ i_running s' = i_running s /\
          (forall w, In w J' -> two_directions eqp g0 w) /\ incl (numbers (i_graph s')) (numbers (i_graph s))).
      { apply (Next s J c []); auto. apply incl_refl. }
      cbn [simplify_loop]. destruct (get_vertex_some (i_graph s) v Hv0) as [x E]. rewrite E. cbn [derefO andb].
      destruct (is_mergeable_ok eqp (i_graph s) H v Hv0) as (b & Eb & Mb). rewrite Eb. cbn [bindO].
      destruct b; [|exact Skip]. specialize (Mb eq_refl).
      rewrite (populate_ok (i_graph s) H (i_tags s) complete v Hv0). cbn [bindO].
      set (ms := pick_ins (i_tags s) complete (ins_of (g_es (i_graph s)) v) (outs_of (g_es (i_graph s)) v) []).
      assert (Ch : chosen (i_tags s) complete (ins_of (g_es (i_graph s)) v) (outs_of (g_es (i_graph s)) v) ms).
      { apply pick_chosen; [apply incl_refl|]. split; [constructor|split; [constructor|intros p []]]. }
      clearbody ms. destruct ms as [|[a b] ms]; [exact Skip|].
      set (s1 := mark (i_running s) true (v_index x) s). destruct Ch as (Nf & Ns & Ch).
      destruct (Ch (a, b) (or_introl eq_refl)) as (i & o & Hi & Ho & Ep & F).
      assert (Fio : e_src i <> e_tgt o) by (apply (fits_spec (i_graph s) H (i_tags s) complete i o v Hi Ho) in F; tauto).
      pose proof (mergeable_noloop (i_graph s) v i o Mb Hi Ho Fio) as NL.
      assert (Td : two_directions eqp g0 v).
      { destruct (in_dec Nat.eq_dec v J) as [Hj|Nj]; [apply Tj; exact Hj|].
        apply (mergeable_origin eqp complete g0 t0 (i_graph s) (i_tags s) J c H0 D0 R v i o Nj Mb Hi Ho Fio). }
      assert (Hms : forall p, In p ((a, b) :: ms) -> exists i o, In i (g_es (i_graph s)) /\ In o (g_es (i_graph s)) /\ p = (e_id i, e_id o) /\
         e_tgt i = v /\ e_src o = v /\ e_src i <> e_tgt o /\ (complete = false -> id_of i = id_of o)).
      { intros p Hp. destruct (Ch p Hp) as (i' & o' & Hi' & Ho' & Ep' & F').
        apply (fits_spec (i_graph s) H (i_tags s) complete i' o' v Hi' Ho') in F' as [F0 F']. apply ins_of_in in Hi' as [A1 A2]. apply outs_of_in in Ho' as [B1 B2].
        exists i', o'. repeat split; auto. intros Q. destruct F' as [F'|F']; [congruence|exact F']. }
      assert (R1 : refines complete g0 t0 (i_graph s1) (i_tags s1) (v :: J) c).
      { unfold s1. cbn [i_graph i_tags mark]. destruct R. constructor; auto.
        - intros e He. apply (course_mono J); auto. intros z Hz. right. exact Hz.
        - intros w Hw Nw. apply rf_keep; auto. intros Q. apply Nw. right. exact Q.
        - intros n k Hk. destruct (rf_from n k Hk) as (m & L & Hm). exists m. split; [|exact Hm]. apply (leads_mono _ J); [|exact L]. intros z Hz. right. exact Hz. }
      destruct (merge_all_mem complete g0 t0 (v :: J) v D0 (or_introl eq_refl) ((a, b) :: ms) s1 c R1 Em NL Nf Ns Hms)
        as (s' & c' & used & A1 & A2 & A3 & A4 & A5 & A6 & A7 & A8).
      change (i_graph s1) with (i_graph s) in A7, A8. change (i_mem s1) with (i_mem s) in A3.
      assert (Tj' : forall w, In w (v :: J) -> two_directions eqp g0 w) by (intros w [<-|Hw]; auto).
      destruct A1 as [A1|(A1 & A1' & A1'')]; rewrite A1; cbn [bindO].
      + apply (Next s' (v :: J) c' used); auto.
      + exists s', (v :: J), c', used. split; [right; split; [reflexivity|split; [|exact A1'']]|].
        * split; [rewrite A5; reflexivity|]. exists v. split; [left; reflexivity|]. rewrite A6. unfold s1. cbn [i_vertex mark].
          destruct (ids_number _ _ A1') as [k Hk]. assert (Q : In (v, k) (numbers (i_graph s))) by (apply A7; exact Hk).
          pose proof (number_of _ _ _ E) as Q'. assert (k = v_index x) as <-; [|exact Hk].
          clear - Nn Q Q'. revert Nn Q Q'. generalize (numbers (i_graph s)) as l. induction l as [|[w j] l IHl]; intros Nn Q Q'; [destruct Q|].
          cbn in Nn. inversion Nn as [|? ? N1 N2]; subst. destruct Q as [Q|Q], Q' as [Q'|Q']; try congruence.
          -- injection Q as -> ->. exfalso. apply N1. change v with (fst (v, v_index x)). apply in_map. exact Q'.
          -- injection Q' as -> ->. exfalso. apply N1. change v with (fst (v, k)). apply in_map. exact Q.
          -- apply IHl; auto.
        * split; [exact A2|]. split; [exact A3|]. split; [exact A4|]. split; [exact Tj'|exact A7].
  Qed.

  (** a resumed loop skips the vertices before the one it stopped at *)
  Lemma loop_resume complete (s : import) v : i_set s = true -> forall pre vs, incl pre (vertex_ids (i_graph s)) -> 
    (forall w k, In w pre -> In (w, k) (numbers (i_graph s)) -> k <> i_vertex s) -> In (v, i_vertex s) (numbers (i_graph s)) ->
    (forall k, In (v, k) (numbers (i_graph s)) -> k = i_vertex s) ->
    simplify_loop eqp complete true (pre ++ v :: vs) s = simplify_loop eqp complete false (v :: vs) s.
  Proof.
    intros Es pre vs Hp Np Hv Uv. induction pre as [|w pre IH]; cbn [app].
    - cbn [simplify_loop]. destruct (get_vertex_some (i_graph s) v (number_ids _ _ _ Hv)) as [x E]. rewrite E. cbn [derefO andb]. rewrite Es. cbn [andb].
      rewrite (Uv _ (number_of _ _ _ E)), Nat.eqb_refl. reflexivity.
    - cbn [simplify_loop]. destruct (get_vertex_some (i_graph s) w) as [x E]; [apply Hp; left; reflexivity|]. rewrite E. cbn [derefO andb]. rewrite Es. cbn [andb].
      replace (v_index x =? i_vertex s) with false; [cbn [negb]; apply IH; [intros z Hz; apply Hp; right; exact Hz|intros z k Hz; apply Np; right; exact Hz]|].
      symmetry. apply Nat.eqb_neq. apply (Np w); [left; reflexivity|]. apply number_of. exact E.
  Qed.

  (** the state between two attempts *)
  Definition resumable (complete : bool) (g0 : graph) (t0 : tags_state Str) (s : import) : Prop := exists J c,
    refines complete g0 t0 (i_graph s) (i_tags s) J c /\ (forall w, In w J -> two_directions eqp g0 w) /\ NoDup (map snd (numbers (i_graph s))) /\
    i_running s = true /\ i_set s = true /\ In (i_vertex s) (map snd (numbers (i_graph s))).

  Definition fresh (complete : bool) (g0 : graph) (t0 : tags_state Str) (s : import) : Prop :=
    i_graph s = g0 /\ i_tags s = t0 /\ NoDup (map snd (numbers g0)) /\ i_running s = false.

  Lemma numbers_ids (g : graph) : map fst (numbers g) = vertex_ids g.
  Proof. unfold numbers. rewrite map_map. reflexivity. Qed.

  Lemma NoDup_snd_sub (l l' : list (nat * nat)) : incl l' l -> NoDup (map snd l) -> NoDup (map fst l') -> NoDup (map snd l').
  Proof.
    intros I N N'. assert (Inj : forall p q, In p l -> In q l -> snd p = snd q -> p = q).
    { clear - N. induction l as [|a l IH]; intros p q Hp Hq E; [destruct Hp|]. cbn in N. inversion N as [|? ? N1 N2]; subst.
      destruct Hp as [->|Hp], Hq as [->|Hq]; auto; exfalso; apply N1; [rewrite E|rewrite <- E]; apply in_map; auto. }
    induction l' as [|a l' IH]; [constructor|]. cbn in *. inversion N' as [|? ? N1 N2]; subst. constructor.
    - intros Q. apply in_map_iff in Q as (b & Eb & Hb). assert (b = a) as -> by (apply Inj; auto; apply I; [right; exact Hb|left; reflexivity]).
      apply N1. apply in_map. exact Hb.
    - apply IH; auto. intros z Hz. apply I. right. exact Hz.
  Qed.

  Theorem simplify_mem complete g0 t0 (s : import) : exact Bidirectional g0 -> drawn g0 -> ~ In NoEdge (i_mem s) ->
    fresh complete g0 t0 s \/ resumable complete g0 t0 s ->
    exists s' used, i_mem s = used ++ i_mem s' /\
      ((simplify eqp complete s = Ok s' /\ i_running s' = false /\ i_set s' = false /\ indexed (i_graph s') /\ exists J c,
          refines complete g0 t0 (i_graph s') (i_tags s') J c /\ (forall w, In w J -> two_directions eqp g0 w)) \/
       (simplify eqp complete s = Throw s' /\ In NoLine used /\ resumable complete g0 t0 s')).
  Proof.
    intros H0 D0 Em Hs.
    assert (G : exists J c vs, simplify_loop eqp complete (i_running s) (map v_id (g_vs (i_graph s))) (mark true (i_set s) (i_vertex s) s) =
                  simplify_loop eqp complete false vs (mark true (i_set s) (i_vertex s) s) /\ NoDup vs /\ incl vs (vertex_ids (i_graph s)) /\
                  refines complete g0 t0 (i_graph s) (i_tags s) J c /\ (forall w, In w J -> two_directions eqp g0 w) /\ NoDup (map snd (numbers (i_graph s)))).
    { destruct Hs as [(Eg & Et & Ni & Er)|(J & c & R & Tj & Ni & Er & Es & Hv)].
      - exists [], (start g0), (map v_id (g_vs (i_graph s))). rewrite Er, Eg, Et. split; [reflexivity|]. split; [apply (ex_vid _ _ H0)|]. split; [apply incl_refl|].
        split; [apply refines_start; auto|]. split; [intros w []|exact Ni].
      - pose proof (rf_exact _ _ _ _ _ _ _ R) as H. pose proof (ex_vid _ _ H) as Nd.
        apply in_map_iff in Hv as ([v k] & Ek & Hv). cbn in Ek. subst k.
        destruct (in_split _ _ Hv) as (l1 & l2 & El).
        assert (Ei : map v_id (g_vs (i_graph s)) = map fst l1 ++ v :: map fst l2).
        { change (map v_id (g_vs (i_graph s))) with (vertex_ids (i_graph s)). rewrite <- numbers_ids, El, map_app. reflexivity. }
        change (map v_id (g_vs (i_graph s))) with (vertex_ids (i_graph s)) in *.
        exists J, c, (v :: map fst l2). split; [|split; [|split; [|split; [exact R|split; [exact Tj|exact Ni]]]]].
        + rewrite Er, Ei. set (s1 := mark true (i_set s) (i_vertex s) s).
          assert (Uq : forall w k, In (w, k) (numbers (i_graph s)) -> (w = v <-> k = i_vertex s)).
          { intros w k Hk. split; intros Q; subst.
            - assert (Nf : NoDup (map fst (numbers (i_graph s)))) by (rewrite numbers_ids; exact Nd).
              clear - Hk Hv Nf. revert Nf Hk Hv. induction (numbers (i_graph s)) as [|[a b] l IH]; intros Nf Hk Hv; [destruct Hk|].
              cbn in Nf. inversion Nf as [|? ? N1 N2]; subst. destruct Hk as [Hk|Hk], Hv as [Hv|Hv]; try congruence.
              + injection Hk as -> ->. exfalso. apply N1. change v with (fst (v, i_vertex s)). apply in_map. exact Hv.
              + injection Hv as -> ->. exfalso. apply N1. change v with (fst (v, k)). apply in_map. exact Hk.
              + auto.
            - clear - Hk Hv Ni. revert Ni Hk Hv. induction (numbers (i_graph s)) as [|[a b] l IH]; intros Nf Hk Hv; [destruct Hk|].
              cbn in Nf. inversion Nf as [|? ? N1 N2]; subst. destruct Hk as [Hk|Hk], Hv as [Hv|Hv]; try congruence.
              + injection Hk as -> ->. exfalso. apply N1. change (i_vertex s) with (snd (v, i_vertex s)). apply in_map. exact Hv.
              + injection Hv as -> Q. rewrite Q in *. exfalso. apply N1. change (i_vertex s) with (snd (w, i_vertex s)). apply in_map. exact Hk.
              + auto. }
          apply loop_resume; [exact Es| | |exact Hv|].
          * intros w Hw. change (In w (vertex_ids (i_graph s))). rewrite Ei. apply in_app_iff. left. exact Hw.
          * intros w k Hw Hk Q. apply (Uq w k Hk) in Q. subst w. rewrite Ei in Nd. apply NoDup_remove_2 in Nd. apply Nd. apply in_app_iff. left. exact Hw.
          * intros k Hk. apply (Uq v k Hk). reflexivity.
        + rewrite Ei in Nd. clear - Nd. induction (map fst l1) as [|a l IH]; [exact Nd|]. cbn in Nd. inversion Nd; subst. auto.
        + intros w Hw. rewrite Ei. apply in_app_iff. right. exact Hw. }
    destruct G as (J & c & vs & El & Nv & Iv & R & Tj & Ni). unfold simplify. rewrite El. set (s1 := mark true (i_set s) (i_vertex s) s).
    pose proof (rf_exact _ _ _ _ _ _ _ R) as H.
    destruct (loop_mem complete g0 t0 H0 D0 vs s1 J c) as (s' & J' & c' & used & A1 & A2 & A3 & A4 & A5 & A6); auto.
    { unfold s1. cbn [i_graph mark]. rewrite numbers_ids. apply (ex_vid _ _ H). }
    destruct A1 as [A1|(A1 & (B1 & v & B2 & B3) & B4)]; rewrite A1; cbn [bindO].
    - exists (mark false false (i_vertex s') (set_graph (reindex (i_graph s')) s')), used. split; [exact A3|]. left. split; [reflexivity|]. split; [reflexivity|]. split; [reflexivity|].
      split; [apply reindex_indexed|]. exists J', c'. split; [cbn [i_graph i_tags mark set_graph]; apply refines_reindex; exact A2|exact A5].
    - exists s', used. split; [exact A3|]. right. split; [reflexivity|]. split; [exact B4|]. exists J', c'. split; [exact A2|]. split; [exact A5|].
      split; [apply (NoDup_snd_sub (numbers (i_graph s))); auto; rewrite numbers_ids; apply (ex_vid _ _ (rf_exact _ _ _ _ _ _ _ A2))|].
      split; [rewrite A4; reflexivity|]. split; [exact B1|]. change (i_vertex s') with (snd (v, i_vertex s')). apply in_map. exact B3.
  Qed.
End Memory.
