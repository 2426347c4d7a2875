(** Proofs about the removal of duplicate nodes: the loop over the nodes. *)
From Coq Require Import String.
From Verif Require Import Base ListAux AdjList AdjListSpec AdjListProofs AdjListProofs2 AdjListProofs3 Tags TagsProps RichLine NetImport NetImportSpec
  NetImportProofs NetImportProofs2 NetImportProofs3 NetImportProofs4 NetImportProofs5 NetImportProofs7 NetImportProofs8 NetDupSpec NetDupProofs NetDupProofs2.

Section Dup3.
  Context {P Str : Type}.
  Variable eqp : P -> P -> bool.
  Hypothesis eqp_eq : forall p q, eqp p q = true <-> p = q.
  Notation graph := (graph (node P) (road P)).
  Notation edge := (@edge (road P)).
  Notation import := (import P Str).

  Lemma eqp_dec (p q : P) : {p = q} + {p <> q}.
  Proof. destruct (eqp p q) eqn:E; [left; apply eqp_eq; exact E|right; intros Q; apply eqp_eq in Q; congruence]. Qed.

  (** *** the map of positions *)
  Lemma lookup_cons (m : list (P * nat)) p v q : lookup eqp ((p, v) :: m) q = if eqp p q then Some v else lookup eqp m q.
  Proof. unfold lookup. cbn [find fst]. destruct (eqp p q); reflexivity. Qed.
  Lemma lookup_forget (m : list (P * nat)) p q : lookup eqp (forget eqp m p) q = if eqp p q then None else lookup eqp m q.
  Proof.
    unfold lookup, forget. induction m as [|[x v] m IH]; cbn [filter find fst]; [destruct (eqp p q); reflexivity|].
    destruct (eqp x p) eqn:A; cbn [negb].
    - rewrite IH. destruct (eqp p q) eqn:B; [reflexivity|]. destruct (eqp x q) eqn:C; [|reflexivity].
      apply eqp_eq in A, C. subst x. subst q. exfalso. assert (eqp p p = true) by (apply eqp_eq; reflexivity). congruence.
    - cbn [find fst]. destruct (eqp x q) eqn:C; [|exact IH]. destruct (eqp p q) eqn:B; [|reflexivity].
      apply eqp_eq in B, C. subst. exfalso. assert (eqp q q = true) by (apply eqp_eq; reflexivity). congruence.
  Qed.

  (** *** the nodes at a position *)
  Definition lies (g : graph) (p : P) (w : nat) : bool := match position g w with Some q => eqp q p | None => false end.
  Lemma lies_spec (g : graph) p w : lies g p w = true <-> position g w = Some p.
  Proof.
    unfold lies. destruct (position g w) as [q|]; [|split; discriminate]. rewrite eqp_eq. split; [intros ->; reflexivity|intros E; congruence].
  Qed.
  Lemma at_position_ids (g : graph) p : NoDup (vertex_ids g) -> at_position eqp g p = filter (lies g p) (vertex_ids g).
  Proof.
    intros N. unfold at_position, vertex_ids. rewrite filter_map_comm. f_equal. apply filter_ext_in'. intros x Hx. unfold lies, position.
    assert (E : get_vertex g (v_id x) = Some x).
    { unfold get_vertex, vertex_ids in *. clear p. induction (g_vs g) as [|y l IH]; [destruct Hx|]. cbn [map find] in *. inversion N as [|? ? N1 N2]; subst.
      destruct Hx as [->|Hx]; [rewrite Nat.eqb_refl; reflexivity|]. destruct (v_id y =? v_id x) eqn:Q; [|auto]. apply Nat.eqb_eq in Q. exfalso. apply N1. rewrite Q. apply in_map. exact Hx. }
    rewrite E. reflexivity.
  Qed.

  Section Loop.
    Variables simp complete : bool.
    Variable s0 : import.
    Let g0 := i_graph s0.
    Let t0 := i_tags s0.
    Hypothesis H0 : exact Bidirectional g0.
    Hypothesis D0 : drawn g0.

    Definition count (p : P) (l : list nat) : nat := length (filter (lies g0 p) l).
    Definition alive (g : graph) (p : P) (l : list nat) : nat := length (filter (fun w => lies g0 p w && existsb (Nat.eqb w) (vertex_ids g)) l).

    Record dup_inv (pre : list nat) (m : list (P * nat)) (s : import) (K : list P) (c : nat -> list edge) : Prop := {
      di_g : gathers complete g0 t0 (i_graph s) (i_tags s) K c;
      di_mem : i_mem s = [];
      di_marks : marks s = marks s0;
      di_map : forall p u, lookup eqp m p = Some u -> In u pre /\ In u (vertex_ids (i_graph s)) /\ position g0 u = Some p;
      di_first : forall w p, In w pre -> position g0 w = Some p -> ~ In p K -> exists u, lookup eqp m p = Some u /\
        hd_error (at_position eqp g0 p) = Some u /\ (In w (vertex_ids (i_graph s)) -> w = u);
      di_rest : forall w, In w (vertex_ids g0) -> ~ In w pre -> In w (vertex_ids (i_graph s)) /\ length (ins_of (g_es (i_graph s)) w) = length (ins_of (g_es g0) w);
      di_simp : simp = false -> K = [];
      di_two : forall p, In p K -> exists a b, a <> b /\ In a pre /\ In b pre /\ position g0 a = Some p /\ position g0 b = Some p;
      di_count : forall p, 2 * alive (i_graph s) p pre <= count p pre + match lookup eqp m p with Some _ => 1 | None => 0 end
    }.

    Lemma inv_start : i_mem s0 = [] -> dup_inv [] [] s0 [] (start g0).
    Proof.
      intros Em. constructor; auto.
      - apply gathers_start; auto.
      - discriminate.
      - intros w p [].
      - intros p [].
    Qed.

    Lemma alive_sub (g g' : graph) p l : incl (vertex_ids g') (vertex_ids g) -> alive g' p l <= alive g p l.
    Proof.
      intros I. unfold alive. induction l as [|w l IH]; [reflexivity|]. cbn [filter]. destruct (lies g0 p w); cbn [andb]; [|exact IH].
      destruct (existsb (Nat.eqb w) (vertex_ids g')) eqn:A.
      - apply existsb_eqb_In in A. apply I in A. apply existsb_eqb_In in A. rewrite A. cbn [length]. lia.
      - destruct (existsb (Nat.eqb w) (vertex_ids g)); cbn [length]; lia.
    Qed.
    Lemma alive_app (g : graph) p l v : alive g p (l ++ [v]) = alive g p l + (if lies g0 p v && existsb (Nat.eqb v) (vertex_ids g) then 1 else 0).
    Proof. unfold alive. rewrite filter_app, app_length. cbn [filter]. destruct (_ && _); reflexivity. Qed.
    Lemma count_app p l v : count p (l ++ [v]) = count p l + (if lies g0 p v then 1 else 0).
    Proof. unfold count. rewrite filter_app, app_length. cbn [filter]. destruct (lies g0 p v); reflexivity. Qed.

    Section Step.
      Variables (pre : list nat) (v : nat) (r : list nat) (m : list (P * nat)) (s : import) (K : list P) (c : nat -> list edge) (p : P).
      Hypothesis I : dup_inv pre m s K c.
      Hypothesis Ev : vertex_ids g0 = pre ++ v :: r.
      Hypothesis Ep : position g0 v = Some p.

      Let Nd : NoDup (pre ++ v :: r).
      Proof. rewrite <- Ev. apply (ex_vid _ _ H0). Qed.
      Lemma v_new : ~ In v pre.
      Proof. intros Q. apply NoDup_remove_2 in Nd. apply Nd. apply in_app_iff. auto. Qed.
      Lemma v_here : In v (vertex_ids g0).
      Proof. rewrite Ev. apply in_app_iff. right. left. reflexivity. Qed.
      Lemma v_alive : In v (vertex_ids (i_graph s)) /\ length (ins_of (g_es (i_graph s)) v) = length (ins_of (g_es g0) v).
      Proof. apply (di_rest _ _ _ _ _ I); [apply v_here|apply v_new]. Qed.
      Lemma v_point : exists x, get_vertex (i_graph s) v = Some x /\ n_point (v_data x) = p.
      Proof.
        destruct v_alive as [A _]. pose proof (gathers_position complete g0 t0 _ _ K c v (di_g _ _ _ _ _ I) A) as E. rewrite Ep in E. unfold position in E.
        destruct (get_vertex (i_graph s) v) as [x|]; [|discriminate]. exists x. split; [reflexivity|]. cbn in E. congruence.
      Qed.
      Lemma not_pre w : In w (vertex_ids g0) -> ~ In w (pre ++ [v]) -> ~ In w pre /\ w <> v.
      Proof. intros _ N. split; intros Q; apply N, in_app_iff; [left; exact Q|right; left; congruence]. Qed.

      (** a new position *)
      Lemma step_new : lookup eqp m p = None ->
        (forall freed, dup_nodes_loop eqp freed simp complete (v :: r) m s = dup_nodes_loop eqp freed simp complete r ((p, v) :: m) s) /\
        dup_inv (pre ++ [v]) ((p, v) :: m) s K c.
      Proof.
        intros El. destruct v_point as (x & Ex & Hx). split.
        { intros freed. cbn [dup_nodes_loop]. rewrite Ex. cbn [derefO]. rewrite Hx, El. reflexivity. }
        destruct I. constructor; auto.
        - intros q w. rewrite lookup_cons. destruct (eqp p q) eqn:Q.
          + intros E. injection E as <-. apply eqp_eq in Q as <-. split; [apply in_app_iff; right; left; reflexivity|]. split; [apply v_alive|exact Ep].
          + intros E. destruct (di_map0 q w E) as (A & B & C). split; [apply in_app_iff; auto|auto].
        - intros w q Hw Hq Nq. rewrite lookup_cons. destruct (eqp p q) eqn:Q.
          + apply eqp_eq in Q as <-. exists v. split; [reflexivity|]. split.
            * rewrite (at_position_ids g0 p (ex_vid _ _ H0)), Ev, filter_app.
              assert (E : filter (lies g0 p) pre = []).
              { destruct (filter (lies g0 p) pre) as [|z l] eqn:F; [reflexivity|exfalso]. assert (Hz : In z (filter (lies g0 p) pre)) by (rewrite F; left; reflexivity).
                apply filter_In in Hz as [Hz Lz]. apply lies_spec in Lz. destruct (di_first0 z p Hz Lz Nq) as (u & Eu & _). congruence. }
              rewrite E. cbn [app filter]. assert (Lv : lies g0 p v = true) by (apply lies_spec; exact Ep). rewrite Lv. reflexivity.
            * intros _. apply in_app_iff in Hw as [Hw|[Hw|[]]]; [|auto]. destruct (di_first0 w p Hw Hq Nq) as (u & Eu & _). congruence.
          + apply in_app_iff in Hw as [Hw|[<-|[]]]; [apply di_first0; auto|]. exfalso. rewrite Ep in Hq. injection Hq as ->. assert (eqp q q = true) by (apply eqp_eq; reflexivity). congruence.
        - intros w Hw Nw. destruct (not_pre w Hw Nw) as [A B]. apply di_rest0; auto.
        - intros q Hq. destruct (di_two0 q Hq) as (a & b & A & B & C & D). exists a, b. rewrite !in_app_iff. auto 8.
        - intros q. rewrite alive_app, count_app, lookup_cons. specialize (di_count0 q). destruct (eqp p q) eqn:Q.
          + apply eqp_eq in Q as <-. rewrite El in di_count0. assert (Lv : lies g0 p v = true) by (apply lies_spec; exact Ep). rewrite Lv. cbn [andb].
            destruct (existsb (Nat.eqb v) (vertex_ids (i_graph s))); lia.
          + replace (lies g0 q v) with false; [cbn [andb]; destruct (lookup eqp m q); lia|]. symmetry. unfold lies. rewrite Ep. exact Q.
      Qed.

      (** a known position *)
      Lemma later u : lookup eqp m p = Some u -> later_copy eqp g0 v /\ u <> v.
      Proof.
        intros El. destruct (di_map _ _ _ _ _ I p u El) as (A & B & C). split; [|intros ->; apply v_new; exact A].
        exists p, (filter (lies g0 p) pre), (filter (lies g0 p) r). split; [exact Ep|].
        assert (Lv : lies g0 p v = true) by (apply lies_spec; exact Ep).
        split; [rewrite (at_position_ids g0 p (ex_vid _ _ H0)), Ev, filter_app; cbn [filter]; rewrite Lv; reflexivity|].
        intros Q. assert (Z : In u (filter (lies g0 p) pre)) by (apply filter_In; split; [exact A|apply lies_spec; exact C]). rewrite Q in Z. destruct Z.
      Qed.
      Lemma step_freed u : lookup eqp m p = Some u -> 2 <= length (ins_of (g_es g0) v) -> dup_nodes_loop eqp true simp complete (v :: r) m s = UB.
      Proof.
        intros El L. destruct v_point as (x & Ex & Hx). destruct v_alive as [Va Vi]. destruct (di_map _ _ _ _ _ I p u El) as (A & B & C).
        destruct (later u El) as [_ N]. cbn [dup_nodes_loop]. rewrite Ex. cbn [derefO]. rewrite Hx, El.
        rewrite (move_edges_freed complete g0 t0 (i_tags s) K u v N (i_graph s) c (di_g _ _ _ _ _ I) B Va) by lia. reflexivity.
      Qed.

      Lemma count_dup (g : graph) q u : lookup eqp m p = Some u -> incl (vertex_ids g) (vertex_ids (i_graph s)) -> ~ In v (vertex_ids g) ->
        2 * alive g q (pre ++ [v]) <= count q (pre ++ [v]) + match lookup eqp (if eqp p q then [] else m) q with Some _ => 1 | None => 0 end.
      Proof.
        intros El In1 Nv. rewrite alive_app, count_app. assert (E : existsb (Nat.eqb v) (vertex_ids g) = false).
        { destruct (existsb (Nat.eqb v) (vertex_ids g)) eqn:Q; [apply existsb_eqb_In in Q; contradiction|reflexivity]. }
        rewrite E, andb_false_r. pose proof (alive_sub (i_graph s) g q pre In1). pose proof (di_count _ _ _ _ _ I q) as C.
        destruct (eqp p q) eqn:Q.
        - apply eqp_eq in Q as <-. rewrite El in C. assert (Lv : lies g0 p v = true) by (apply lies_spec; exact Ep). rewrite Lv. unfold lookup. cbn [find option_map]. lia.
        - replace (lies g0 q v) with false; [lia|]. symmetry. unfold lies. rewrite Ep. exact Q.
      Qed.

      Lemma step_dup freed u : lookup eqp m p = Some u -> (freed = true -> length (ins_of (g_es g0) v) <= 1) ->
        exists m' s' K' c', dup_nodes_loop eqp freed simp complete (v :: r) m s = dup_nodes_loop eqp freed simp complete r m' s' /\ dup_inv (pre ++ [v]) m' s' K' c'.
      Proof.
        intros El Hf. destruct v_point as (x & Ex & Hx). destruct v_alive as [Va Vi]. pose proof (di_map _ _ _ _ _ I p u El) as (Pu & Au & Lu).
        destruct (later u El) as [_ N]. pose proof (di_g _ _ _ _ _ I) as G.
        cbn [dup_nodes_loop]. rewrite Ex. cbn [derefO]. rewrite Hx, El.
        destruct (move_edges_ok complete g0 t0 (i_tags s) K u v N freed (i_graph s) c G Au Va) as (g1 & g2 & c2 & E1 & E2 & G2 & V2 & C2).
        { rewrite !(gathers_position complete g0 t0 _ _ K c _ G) by assumption. congruence. }
        { intros Q. rewrite Vi. auto. }
        rewrite E1. cbn [bindO]. rewrite E2. cbn [bindO].
        set (s2 := set_graph g2 s).
        assert (Uv : In u (vertex_ids g2)) by (apply V2; auto).
        assert (Nv2 : ~ In v (vertex_ids g2)) by (intros Q; apply V2 in Q; tauto).
        assert (Sub2 : incl (vertex_ids g2) (vertex_ids (i_graph s))) by (intros w Hw; apply V2 in Hw; tauto).
        (* the roads are moved, nothing is joined *)
        assert (Plain : dup_inv (pre ++ [v]) m s2 K c2).
        { pose proof (di_mem _ _ _ _ _ I) as Em. pose proof (di_marks _ _ _ _ _ I) as Mk. constructor.
          - exact G2.
          - exact Em.
          - exact Mk.
          - intros q w E. destruct (di_map _ _ _ _ _ I q w E) as (A & B & C). split; [apply in_app_iff; auto|]. split; [|exact C]. apply V2. split; [exact B|]. intros ->. apply v_new. exact A.
          - intros w q Hw Hq Nq. apply in_app_iff in Hw as [Hw|[<-|[]]].
            + destruct (di_first _ _ _ _ _ I w q Hw Hq Nq) as (z & Ez & Fz & Wz). exists z. split; [exact Ez|]. split; [exact Fz|]. intros Q. apply Wz. apply Sub2. exact Q.
            + assert (q = p) by congruence. subst q. destruct (di_first _ _ _ _ _ I u p Pu Lu Nq) as (z & Ez & Fz & Wz). exists z. split; [exact Ez|]. split; [exact Fz|]. intros Q. contradiction.
          - intros w Hw Nw. destruct (not_pre w Hw Nw) as [A B]. destruct (di_rest _ _ _ _ _ I w Hw A) as [R1 R2]. split; [apply V2; auto|].
            cbn [i_graph s2 set_graph]. rewrite C2; auto. intros ->. contradiction.
          - apply (di_simp _ _ _ _ _ I).
          - intros q Hq. destruct (di_two _ _ _ _ _ I q Hq) as (a & b & A & B & C & D). exists a, b. rewrite !in_app_iff. auto 8.
          - intros q. pose proof (count_dup g2 q u El Sub2 Nv2) as C. unfold s2. cbn [i_graph set_graph]. destruct (eqp p q) eqn:Q; [|exact C].
            apply eqp_eq in Q as <-. rewrite El. unfold lookup in C. cbn [find option_map] in C. lia. }
        destruct simp eqn:Es; [|exists m, s2, K, c2; split; [reflexivity|exact Plain]].
        destruct (visit_here eqp eqp_eq complete s2 u) as (b & Eb & Vb).
        { apply (gt_exact _ _ _ _ _ _ _ G2). }
        { apply (gt_drawn _ _ _ _ _ _ _ G2). }
        { apply (di_mem _ _ _ _ _ I). }
        { exact Uv. }
        change (i_graph s2) with g2 in Eb. rewrite Eb. cbn [bindO].
        destruct b; [|exists m, s2, K, c2; split; [reflexivity|exact Plain]].
        destruct (Vb eq_refl) as (ms & s' & d & Epm & Ema & R & Em' & Mk' & Sub' & Keep' & C').
        change (i_graph s2) with g2 in *. rewrite Epm. cbn [bindO]. rewrite Ema. cbn [bindO].
        exists (forget eqp m p), s', (p :: K), (fun k => flat_map (fun f => c2 (e_id f)) (d k)). split; [reflexivity|].
        assert (Sub1 : incl (vertex_ids (i_graph s')) (vertex_ids (i_graph s))) by (eapply incl_tran; eauto).
        constructor.
        - apply (gathers_refines complete g0 t0 g2 (i_tags s2) K c2 (i_graph s') (i_tags s') u d p D0 G2 R Lu).
        - exact Em'.
        - rewrite Mk'. apply (di_marks _ _ _ _ _ Plain).
        - intros q w. rewrite lookup_forget. destruct (eqp p q) eqn:Q; [discriminate|]. intros E. destruct (di_map _ _ _ _ _ Plain q w E) as (A & B & C). split; [exact A|]. split; [|exact C].
          apply Keep'; [exact B|]. intros ->. assert (p = q) by congruence. subst q. assert (eqp p p = true) by (apply eqp_eq; reflexivity). congruence.
        - intros w q Hw Hq Nq. destruct (di_first _ _ _ _ _ Plain w q Hw Hq) as (z & Ez & Fz & Wz); [intros Z; apply Nq; right; exact Z|].
          exists z. rewrite lookup_forget. destruct (eqp p q) eqn:Q; [apply eqp_eq in Q; exfalso; apply Nq; left; exact Q|]. split; [exact Ez|]. split; [exact Fz|]. intros Z. apply Wz. apply Sub'. exact Z.
        - intros w Hw Nw. destruct (di_rest _ _ _ _ _ Plain w Hw Nw) as [R1 R2]. destruct (not_pre w Hw Nw) as [A B].
          assert (Nu : w <> u) by (intros ->; contradiction). split; [apply Keep'; auto|]. rewrite C' by exact Nu. exact R2.
        - congruence.
        - intros q [<-|Hq]; [|apply (di_two _ _ _ _ _ Plain q Hq)]. exists u, v. rewrite !in_app_iff. cbn. auto 8.
        - intros q. rewrite lookup_forget. assert (Nv' : ~ In v (vertex_ids (i_graph s'))) by (intros Q; apply Nv2, Sub'; exact Q).
          pose proof (count_dup (i_graph s') q u El Sub1 Nv') as C. destruct (eqp p q); [unfold lookup in C; cbn [find option_map] in C; exact C|exact C].
      Qed.
    End Step.

    Lemma dup_loop_ok freed : forall r pre m s K c, dup_inv pre m s K c -> vertex_ids g0 = pre ++ r ->
      (freed = true -> forall v, In v r -> later_copy eqp g0 v -> length (ins_of (g_es g0) v) <= 1) ->
      exists m' s' K' c', dup_nodes_loop eqp freed simp complete r m s = Ok s' /\ dup_inv (vertex_ids g0) m' s' K' c'.
    Proof.
      induction r as [|v r IH]; intros pre m s K c I Ev Hf.
      - exists m, s, K, c. cbn. rewrite app_nil_r in Ev. rewrite Ev. auto.
      - assert (Hv : In v (vertex_ids g0)) by (rewrite Ev; apply in_app_iff; right; left; reflexivity). destruct (position_some g0 v Hv) as [p Ep].
        destruct (lookup eqp m p) as [u|] eqn:El.
        + destruct (later pre v r m s K c p I Ev Ep u El) as [Lc _].
          destruct (step_dup pre v r m s K c p I Ev Ep freed u El) as (m' & s' & K' & c' & E & I'); [intros Q; apply Hf; auto; left; reflexivity|].
          rewrite E. apply (IH (pre ++ [v]) m' s' K' c' I'); [rewrite Ev, <- app_assoc; reflexivity|]. intros Q w Hw. apply Hf; auto. right. exact Hw.
        + destruct (step_new pre v r m s K c p I Ev Ep El) as [E I']. rewrite (E freed).
          apply (IH (pre ++ [v]) _ _ _ _ I'); [rewrite Ev, <- app_assoc; reflexivity|]. intros Q w Hw. apply Hf; auto. right. exact Hw.
    Qed.

    (** reading the released entry *)
    Lemma dup_loop_freed v p : position g0 v = Some p -> 2 <= length (ins_of (g_es g0) v) ->
      forall r pre m s K c, dup_inv pre m s K c -> vertex_ids g0 = pre ++ r -> In v r ->
      (exists a b, at_position eqp g0 p = a ++ v :: b /\ (length a = 1 \/ a <> [] /\ simp = false)) ->
      dup_nodes_loop eqp true simp complete r m s = UB.
    Proof.
      intros Ep L. induction r as [|w r IH]; intros pre m s K c I Ev Hv C; [destruct Hv|].
      assert (Hw : In w (vertex_ids g0)) by (rewrite Ev; apply in_app_iff; right; left; reflexivity). destruct (position_some g0 w Hw) as [q Eq].
      destruct (Nat.eq_dec w v) as [->|Nwv].
      - assert (q = p) by congruence. subst q. destruct C as (a & b & E & C).
        assert (Ea : filter (lies g0 p) pre = a).
        { rewrite (at_position_ids g0 p (ex_vid _ _ H0)), Ev, filter_app in E. cbn [filter] in E. assert (Lv : lies g0 p v = true) by (apply lies_spec; exact Ep). rewrite Lv in E.
          pose proof (ex_vid _ _ H0) as Nd. rewrite Ev in Nd. apply NoDup_remove_2 in Nd.
          assert (N1 : ~ In v (filter (lies g0 p) pre)) by (intros Q; apply filter_In in Q as [Q _]; apply Nd, in_app_iff; auto).
          assert (N2 : ~ In v (filter (lies g0 p) r)) by (intros Q; apply filter_In in Q as [Q _]; apply Nd, in_app_iff; auto).
          clear - E N1 N2. revert a E. induction (filter (lies g0 p) pre) as [|x l IH]; intros a E.
          - destruct a as [|y a]; [reflexivity|]. cbn in E. injection E as -> E. exfalso. apply N2. rewrite E. apply in_app_iff. right. left. reflexivity.
          - destruct a as [|y a]; cbn in E; injection E as -> E; [exfalso; apply N1; left; reflexivity|]. f_equal. apply IH; [intros Q; apply N1; right; exact Q|exact E]. }
        assert (Nk : ~ In p K).
        { intros Q. destruct C as [C|[_ C]]; [|rewrite (di_simp _ _ _ _ _ I C) in Q; destruct Q].
          destruct (di_two _ _ _ _ _ I p Q) as (x & y & Nxy & Hx & Hy & Lx & Ly).
          assert (Ix : In x a) by (rewrite <- Ea; apply filter_In; split; [exact Hx|apply lies_spec; exact Lx]).
          assert (Iy : In y a) by (rewrite <- Ea; apply filter_In; split; [exact Hy|apply lies_spec; exact Ly]).
          destruct a as [|z [|z' a]]; try discriminate. destruct Ix as [<-|[]], Iy as [<-|[]]. congruence. }
        assert (Hz : exists z, In z pre /\ position g0 z = Some p).
        { destruct a as [|z a]; [destruct C as [C|[C _]]; [discriminate|congruence]|]. assert (Q : In z (filter (lies g0 p) pre)) by (rewrite Ea; left; reflexivity).
          apply filter_In in Q as [Q1 Q2]. apply lies_spec in Q2. eauto. }
        destruct Hz as (z & Hz & Lz). destruct (di_first _ _ _ _ _ I z p Hz Lz Nk) as (u & El & _).
        apply (step_freed pre v r m s K c p I Ev Ep u El L).
      - destruct Hv as [Hv|Hv]; [congruence|]. destruct (lookup eqp m q) as [u|] eqn:El.
        + destruct (Nat.le_gt_cases 2 (length (ins_of (g_es g0) w))) as [L2|L2]; [apply (step_freed pre w r m s K c q I Ev Eq u El L2)|].
          destruct (step_dup pre w r m s K c q I Ev Eq true u El) as (m' & s' & K' & c' & E & I'); [intros _; lia|].
          rewrite E. apply (IH (pre ++ [w]) m' s' K' c' I'); auto. rewrite Ev, <- app_assoc. reflexivity.
        + destruct (step_new pre w r m s K c q I Ev Eq El) as [E I']. rewrite (E true).
          apply (IH (pre ++ [w]) _ _ _ _ I'); auto. rewrite Ev, <- app_assoc. reflexivity.
    Qed.
  End Loop.
End Dup3.
