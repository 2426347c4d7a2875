(** Proofs about the simplification pass (network_import.hpp 68-115). *)
From Coq Require Import String.
From Verif Require Import Base ListAux AdjList AdjListSpec AdjListProofs AdjListProofs2 AdjListProofs3 Tags TagsProps RichLine NetImport NetImportSpec
  NetImportProofs NetImportProofs2 NetImportProofs3.

Section Pass.
  Context {P Str : Type}.
  Variable eqp : P -> P -> bool.
  Hypothesis eqp_refl : forall p, eqp p p = true.
  Notation graph := (graph (node P) (road P)).
  Notation edge := (@edge (road P)).
  Notation import := (import P Str).

  Definition noloop (es : list edge) (v : nat) : Prop := forall e, In e es -> e_src e = v -> e_tgt e <> v.

  (** all merges at one vertex *)
  Lemma merge_all_ok complete g0 t0 J v : drawn g0 -> In v J -> forall ms (s : import) c,
    refines complete g0 t0 (i_graph s) (i_tags s) J c -> i_mem s = [] -> noloop (g_es (i_graph s)) v ->
    NoDup (map fst ms) -> NoDup (map snd ms) ->
    (forall p, In p ms -> exists i o, In i (g_es (i_graph s)) /\ In o (g_es (i_graph s)) /\ p = (e_id i, e_id o) /\
       e_tgt i = v /\ e_src o = v /\ e_src i <> e_tgt o /\ (complete = false -> id_of i = id_of o)) ->
    exists s' c', merge_all eqp s ms = Ok s' /\ refines complete g0 t0 (i_graph s') (i_tags s') J c' /\
      i_mem s' = [] /\ i_running s' = i_running s /\ i_set s' = i_set s /\ i_vertex s' = i_vertex s /\
      incl (vertex_ids (i_graph s')) (vertex_ids (i_graph s)) /\
      (forall w, In w (vertex_ids (i_graph s)) -> w <> v -> In w (vertex_ids (i_graph s'))) /\
      (forall e, In e (touching (g_es (i_graph s')) v) ->
         In e (g_es (i_graph s)) /\ ~ In (e_id e) (map fst ms) /\ ~ In (e_id e) (map snd ms)) /\
      (ms <> [] -> In v (vertex_ids (i_graph s')) -> touching (g_es (i_graph s')) v <> []) /\
      (forall e, In e (g_es (i_graph s')) -> e_src e = e_tgt e -> In e (g_es (i_graph s))).
  Proof.
    intros D0 Hj. induction ms as [|[a b] ms IH]; intros s c R Em NL Nf Ns Hms.
    - exists s, c. cbn [merge_all]. split; [reflexivity|]. split; [exact R|]. split; [exact Em|]. split; [reflexivity|]. split; [reflexivity|].
      split; [reflexivity|]. split; [apply incl_refl|]. split; [auto|]. split; [|split; [congruence|auto]].
      intros e He. apply touching_in in He as [He _]. cbn. tauto.
    - destruct (Hms (a, b) (or_introl eq_refl)) as (i & o & Hi & Ho & Ep & Ti & So & Nl & Hid). injection Ep as -> ->.
      pose proof (rf_exact _ _ _ _ _ _ _ R) as H.
      assert (Nio : e_id i <> e_id o).
      { intros Q. pose proof (eid_inj _ _ _ _ H Hi Ho Q) as ->. apply (NL o Ho So Ti). }
      destruct (refines_merge eqp eqp_refl complete g0 t0 s J c i o D0 R Em Hi Ho Nio) as (Eq & c1 & R1); [congruence|congruence|exact Hid|].
      cbn [merge_all]. rewrite Eq. cbn [bindO]. set (s1 := set_graph _ (set_tags _ s)) in *.
      cbn [map fst snd] in Nf, Ns. inversion Nf as [|? ? Nf1 Nf2]; subst. inversion Ns as [|? ? Ns1 Ns2]; subst.
      destruct (merged_vertices (i_graph s) i o (joined_road i o)) as (_ & Vsub & Vkeep & Vt).
      assert (NewT : ~ (e_src i = e_tgt i \/ e_tgt o = e_tgt i)).
      { intros [Q|Q]; [apply (NL i Hi); congruence|apply (NL o Ho); congruence]. }
      destruct (IH s1 c1) as (s' & c' & A1 & A2 & A3 & A4 & A5 & A6 & A7 & A7' & A8 & A9 & A10).
      + exact R1.
      + exact Em.
      + intros e He. unfold s1 in He. cbn [i_graph set_graph] in He. rewrite merged_edges in He.
        apply in_app_iff in He as [He|[<-|[]]]; [apply rest_in in He as [He _]; apply NL; exact He|]. cbn. intros _ Q. apply NewT. right. exact Q.
      + exact Nf2.
      + exact Ns2.
      + intros [x y] Hp. destruct (Hms (x, y) (or_intror Hp)) as (i' & o' & Hi' & Ho' & Ep & Ti' & So' & Nl' & Hid').
        injection Ep as -> ->. exists i', o'.
        assert (K1 : e_id i' <> e_id i) by (intros Q; apply Nf1; rewrite <- Q; apply (in_map fst ms _ Hp)).
        assert (K2 : e_id o' <> e_id o) by (intros Q; apply Ns1; rewrite <- Q; apply (in_map snd ms _ Hp)).
        assert (K3 : e_id i' <> e_id o) by (intros Q; pose proof (eid_inj _ _ _ _ H Hi' Ho Q) as ->; apply (NL o Ho So); exact Ti').
        assert (K4 : e_id o' <> e_id i) by (intros Q; pose proof (eid_inj _ _ _ _ H Ho' Hi Q) as ->; apply (NL i Hi So'); reflexivity).
        unfold s1. cbn [i_graph set_graph]. rewrite merged_edges. unfold merged_es.
        split; [apply in_app_iff; left; apply rest_in; auto|]. split; [apply in_app_iff; left; apply rest_in; auto|]. auto.
      + exists s', c'. split; [exact A1|]. split; [exact A2|]. split; [exact A3|]. split; [exact A4|]. split; [exact A5|]. split; [exact A6|].
        split; [intros w Hw; apply Vsub; apply A7; exact Hw|].
        split; [intros w Hw Nw; apply A7'; [apply Vkeep; auto|exact Nw]|]. split; [|split].
        * intros e He. destruct (A8 e He) as (B1 & B2 & B3). unfold s1 in B1. cbn [i_graph set_graph] in B1. rewrite merged_edges in B1.
          apply touching_in in He as [_ He]. apply in_app_iff in B1 as [B1|[<-|[]]]; [|exfalso; cbn in He; tauto].
          apply rest_in in B1 as (B1 & B4 & B5). split; [exact B1|]. cbn. split; intros [Q|Q]; auto.
        * intros _ Hv. destruct ms as [|p ms]; [|apply A9; [discriminate|exact Hv]].
          cbn in A1. injection A1 as <-. unfold s1 in *. cbn [i_graph set_graph] in *. rewrite merged_edges. apply Vt. exact Hv.
        * intros e He Hl. specialize (A10 e He Hl). unfold s1 in A10. cbn [i_graph set_graph] in A10. rewrite merged_edges in A10.
          apply in_app_iff in A10 as [B|[<-|[]]]; [apply rest_in in B as [B _]; exact B|]. cbn in Hl. contradiction.
  Qed.

  (** *** where the roads at an untouched vertex come from *)
  Lemma Permutation_filter {A} (p : A -> bool) l l' : Permutation l l' -> Permutation (filter p l) (filter p l').
  Proof.
    induction 1 as [|x l l' H IH|x y l|l l' l'' H1 IH1 H2 IH2]; cbn.
    - constructor.
    - destruct (p x); [constructor|]; exact IH.
    - destruct (p x), (p y); try reflexivity. constructor.
    - etransitivity; eassumption.
  Qed.
  Lemma filter_flat_map {A B} (p : B -> bool) (f : A -> list B) l : filter p (flat_map f l) = flat_map (fun a => filter p (f a)) l.
  Proof. induction l as [|a l IH]; [reflexivity|]. cbn. rewrite filter_app, IH. reflexivity. Qed.

  Lemma linked_ins J v (c : list edge) d : linked J c -> ~ In v J -> c <> [] ->
    filter (fun e => e_tgt e =? v) c = if e_tgt (last c d) =? v then [last c d] else [].
  Proof.
    intros L N. induction c as [|e c IH]; intros Nc; [contradiction|]. destruct c as [|f c].
    - cbn. reflexivity.
    - cbn [linked] in L. destruct L as [[E Hj] L]. cbn [filter]. destruct (e_tgt e =? v) eqn:Q; [apply Nat.eqb_eq in Q; subst; contradiction|].
      change (last (e :: f :: c) d) with (last (f :: c) d). apply IH; [exact L|discriminate].
  Qed.
  Lemma linked_outs J v (c : list edge) h r : linked J c -> ~ In v J -> c = h :: r ->
    filter (fun e => e_src e =? v) c = if e_src h =? v then [h] else [].
  Proof.
    intros L N ->. cbn [filter]. replace (filter (fun e => e_src e =? v) r) with (@nil edge); [destruct (e_src h =? v); reflexivity|].
    symmetry. revert h L. induction r as [|f r IH]; intros h L; [reflexivity|]. cbn [linked] in L. destruct L as [[E Hj] L].
    cbn [filter]. destruct (e_src f =? v) eqn:Q; [apply Nat.eqb_eq in Q; exfalso; apply N; rewrite <- Q, <- E; exact Hj|]. apply (IH f). exact L.
  Qed.

  Section R.
    Variables (complete : bool) (g0 : graph) (t0 : tags_state Str) (g : graph) (t : tags_state Str) (J : list nat) (c : nat -> list edge).
    Hypothesis H0 : exact Bidirectional g0.
    Hypothesis D0 : drawn g0.
    Hypothesis R : refines complete g0 t0 g t J c.

    Lemma origin_ins v : ~ In v J -> Permutation (map (fun e => last (c (e_id e)) e) (ins_of (g_es g) v)) (ins_of (g_es g0) v).
    Proof.
      intros N. unfold ins_of. rewrite <- (Permutation_filter (fun e => e_tgt e =? v) _ _ (rf_all _ _ _ _ _ _ _ R)).
      rewrite filter_flat_map. pose proof (rf_course _ _ _ _ _ _ _ R) as C. induction (g_es g) as [|e es IH]; [reflexivity|].
      cbn [filter flat_map]. destruct (C e (or_introl eq_refl)) as (f & r & E & L & _ & T & _).
      rewrite (linked_ins J v (c (e_id e)) e L N) by (rewrite E; discriminate).
      rewrite (last_map_default (c (e_id e)) e f) by (rewrite E; discriminate). rewrite <- T.
      assert (IH' := IH (fun x Hx => C x (or_intror Hx))).
      destruct (e_tgt e =? v); cbn [map app]; [|exact IH']. rewrite (last_map_default (c (e_id e)) e f) by (rewrite E; discriminate).
      constructor. exact IH'.
    Qed.

    Lemma origin_outs v : ~ In v J -> Permutation (map (fun e => hd e (c (e_id e))) (outs_of (g_es g) v)) (outs_of (g_es g0) v).
    Proof.
      intros N. unfold outs_of. rewrite <- (Permutation_filter (fun e => e_src e =? v) _ _ (rf_all _ _ _ _ _ _ _ R)).
      rewrite filter_flat_map. pose proof (rf_course _ _ _ _ _ _ _ R) as C. induction (g_es g) as [|e es IH]; [reflexivity|].
      cbn [filter flat_map]. destruct (C e (or_introl eq_refl)) as (f & r & E & L & S' & _).
      rewrite (linked_outs J v (c (e_id e)) f r L N E). rewrite <- S'.
      assert (IH' := IH (fun x Hx => C x (or_intror Hx))).
      destruct (e_src e =? v); cbn [map app]; [|exact IH']. rewrite E at 1. cbn [hd]. constructor. exact IH'.
    Qed.

    Lemma origin_in e f : In e (g_es g) -> In f (c (e_id e)) -> In f (g_es g0).
    Proof. intros He Hf. apply (Permutation_in f (rf_all _ _ _ _ _ _ _ R)). apply in_flat_map. eauto. Qed.

    Lemma join_ends (ch : list edge) d : linked J ch -> ch <> [] -> incl ch (g_es g0) -> exists u, join (map line_of ch) = u ++ line_of (last ch d).
    Proof.
      induction ch as [|e ch IH]; intros L Nc Hin; [contradiction|]. destruct ch as [|f ch].
      - exists []. cbn. apply app_nil_r.
      - cbn [linked] in L. destruct L as [[E _] L].
        destruct (IH L) as (u & Eu); [discriminate|intros z Hz; apply Hin; right; exact Hz|].
        change (last (e :: f :: ch) d) with (last (f :: ch) d).
        destruct (D0 e (Hin e (or_introl eq_refl))) as (L1 & _ & T1). destruct (D0 f (Hin f (or_intror (or_introl eq_refl)))) as (L2 & S2 & _).
        rewrite E, <- S2 in T1. cbn [map join flat_map]. cbn [map join] in Eu.
        destruct (line_of f) as [|q m]; [cbn in L2; lia|]. cbn [hd_error] in T1. cbn [tl].
        assert (Ne : line_of e <> []) by (intros Z; rewrite Z in L1; cbn in L1; lia).
        rewrite (hd_rev_last _ q Ne) in T1. injection T1 as T1.
        exists (removelast (line_of e) ++ u). rewrite <- app_assoc, <- Eu.
        rewrite (app_removelast_last q Ne) at 1. rewrite T1, <- app_assoc. reflexivity.
    Qed.

    Lemma nth_error_app_end {A} (u l : list A) k : k < length l -> nth_error (rev (u ++ l)) k = nth_error (rev l) k.
    Proof. intros Hk. rewrite rev_app_distr, nth_error_app1; [reflexivity|]. rewrite rev_length. exact Hk. Qed.

    Lemma line_end e : In e (g_es g) -> nth_error (rev (line_of e)) 1 = nth_error (rev (line_of (last (c (e_id e)) e))) 1.
    Proof.
      intros He. destruct (rf_course _ _ _ _ _ _ _ R e He) as (f & r & E & L & _ & _ & _ & El). rewrite El.
      assert (Nc : c (e_id e) <> []) by (rewrite E; discriminate).
      destruct (join_ends (c (e_id e)) e L Nc) as (u & Eu); [intros z Hz; eapply origin_in; eauto|].
      rewrite Eu. apply nth_error_app_end.
      destruct (D0 (last (c (e_id e)) e)) as (L1 & _); [eapply origin_in; [exact He|apply last_in; exact Nc]|]. lia.
    Qed.
    Lemma line_start e : In e (g_es g) -> nth_error (line_of e) 1 = nth_error (line_of (hd e (c (e_id e)))) 1.
    Proof.
      intros He. destruct (rf_course _ _ _ _ _ _ _ R e He) as (f & r & E & L & _ & _ & _ & El). rewrite El, E. cbn [hd map join].
      apply nth_error_app1. destruct (D0 f) as (L1 & _); [eapply origin_in; [exact He|rewrite E; left; reflexivity]|]. lia.
    Qed.

    Lemma mate_faces i o : In i (g_es g) -> In o (g_es g) -> mate eqp i o -> faces eqp i o.
    Proof.
      intros Hi Ho (_ & _ & _ & M). destruct (lines_are_reversed_ok eqp (line_of i) (line_of o)) as (b & Eb & Q).
      rewrite M in Eb. injection Eb as <-. destruct (proj1 Q eq_refl) as (Ne & Le & F).
      destruct (rf_drawn _ _ _ _ _ _ _ R i Hi) as (L1 & _). destruct (rf_drawn _ _ _ _ _ _ _ R o Ho) as (L2 & _).
      destruct (nth_error (line_of i) (length (line_of i) - 2)) as [p|] eqn:Ep; [|apply nth_error_None in Ep; lia].
      destruct (nth_error (line_of o) 1) as [q|] eqn:Eq; [|apply nth_error_None in Eq; lia].
      exists p, q. split.
      - rewrite (nth_error_nth' (rev (line_of i)) p) by (rewrite rev_length; lia). rewrite rev_nth by lia.
        replace (length (line_of i) - 2) with (length (line_of i) - 2) by lia.
        rewrite (nth_error_nth' (line_of i) p) in Ep by lia. exact Ep.
      - split; [exact Eq|]. apply (F (length (line_of i) - 2)); [lia|exact Ep|].
        replace (length (line_of o) - 1 - (length (line_of i) - 2)) with 1 by lia. exact Eq.
    Qed.

    Lemma faces_origin i o : In i (g_es g) -> In o (g_es g) -> faces eqp i o -> faces eqp (last (c (e_id i)) i) (hd o (c (e_id o))).
    Proof.
      intros Hi Ho (p & q & A & B & C). exists p, q. rewrite <- line_end, <- line_start by assumption. auto.
    Qed.

    (** a vertex where roads are merged had two directions in the first place *)
    Lemma mergeable_origin v i o : ~ In v J -> mergeable eqp g v -> In i (ins_of (g_es g) v) -> In o (outs_of (g_es g) v) -> e_src i <> e_tgt o ->
      two_directions eqp g0 v /\ noloop (g_es g) v.
    Proof.
      intros N M Hi Ho Nio. pose proof (origin_ins v N) as Pi. pose proof (origin_outs v N) as Po.
      pose proof (rf_exact _ _ _ _ _ _ _ R) as H.
      destruct M as [(i1 & o1 & E1 & E2)|(i1 & i2 & o1 & o2 & E1 & E2 & M1 & M2)].
      - rewrite E1 in *. rewrite E2 in *. destruct Hi as [<-|[]], Ho as [<-|[]]. cbn [map] in Pi, Po.
        apply Permutation_length_1_inv in Pi. apply Permutation_length_1_inv in Po.
        assert (Hi1 : In i1 (ins_of (g_es g) v)) by (rewrite E1; left; reflexivity).
        assert (Ho1 : In o1 (outs_of (g_es g) v)) by (rewrite E2; left; reflexivity).
        apply ins_of_in in Hi1 as [Hi1 Ti]. apply outs_of_in in Ho1 as [Ho1 So].
        assert (NL : noloop (g_es g) v).
        { intros e He Hs Ht. assert (A : In e (ins_of (g_es g) v)) by (apply ins_of_in; auto). assert (B : In e (outs_of (g_es g) v)) by (apply outs_of_in; auto).
          rewrite E1 in A. rewrite E2 in B. destruct A as [<-|[]], B as [<-|[]]. congruence. }
        split; [|exact NL]. left. eexists; eexists. split; [exact Pi|]. split; [exact Po|].
        intros Q. apply Nio.
        destruct (rf_course _ _ _ _ _ _ _ R i1 Hi1) as (f & r & Ef & Lf & Sf & Tf & _).
        destruct (rf_course _ _ _ _ _ _ _ R o1 Ho1) as (h & k & Eh & Lh & Sh & Th & _).
        assert (X : In (last (c (e_id i1)) i1) (c (e_id i1))) by (apply last_in; rewrite Ef; discriminate).
        assert (Y : hd o1 (c (e_id o1)) = h) by (rewrite Eh; reflexivity).
        rewrite Y in Q. rewrite Q in X.
        assert (Z : In h (c (e_id o1))) by (rewrite Eh; left; reflexivity).
        assert (i1 = o1) as <-.
        { assert (Nd : NoDup (flat_map (fun e => c (e_id e)) (g_es g))).
          { apply (Permutation_NoDup (Permutation_sym (rf_all _ _ _ _ _ _ _ R))). apply (NoDup_map_inv e_id). apply (ex_eid _ _ H0). }
          clear - Nd X Z Hi1 Ho1. revert Nd Hi1 Ho1. induction (g_es g) as [|e es IH]; intros Nd Hi1 Ho1; [destruct Hi1|].
          cbn [flat_map] in Nd. assert (Dj : forall x, In x (c (e_id e)) -> ~ In x (flat_map (fun e => c (e_id e)) es)).
          { clear -Nd. induction (c (e_id e)) as [|a l IHl]; intros x [].
            - subst. cbn in Nd. inversion Nd; subst. intros Q. apply H1. apply in_app_iff. right. exact Q.
            - cbn in Nd. inversion Nd; subst. apply IHl; auto. }
          assert (Nd2 : NoDup (flat_map (fun e => c (e_id e)) es)) by (clear -Nd; induction (c (e_id e)); [exact Nd|cbn in Nd; inversion Nd; auto]).
          destruct Hi1 as [->|Hi1], Ho1 as [->|Ho1]; auto; exfalso.
          - apply (Dj h X). apply in_flat_map. eauto.
          - apply (Dj h Z). apply in_flat_map. eauto. }
        exfalso. apply (NL i1 Hi1); congruence.
      - assert (A1 : In i1 (ins_of (g_es g) v)) by (rewrite E1; left; reflexivity).
        assert (A2 : In i2 (ins_of (g_es g) v)) by (rewrite E1; right; left; reflexivity).
        assert (B1 : In o1 (outs_of (g_es g) v)) by (apply (Permutation_in _ (Permutation_sym E2)); left; reflexivity).
        assert (B2 : In o2 (outs_of (g_es g) v)) by (apply (Permutation_in _ (Permutation_sym E2)); right; left; reflexivity).
        apply ins_of_in in A1 as [A1 T1], A2 as [A2 T2]. apply outs_of_in in B1 as [B1 S1], B2 as [B2 S2].
        split.
        + right. exists (last (c (e_id i1)) i1), (last (c (e_id i2)) i2), (hd o1 (c (e_id o1))), (hd o2 (c (e_id o2))).
          split; [rewrite <- Pi, E1; reflexivity|]. split; [rewrite <- Po; rewrite (Permutation_map (fun e => hd e (c (e_id e))) E2); reflexivity|].
          split; apply faces_origin; auto; apply mate_faces; auto.
        + intros e He Hs Ht.
          assert (Ge : In e (ins_of (g_es g) v)) by (apply ins_of_in; auto).
          assert (Fe : In e (outs_of (g_es g) v)) by (apply outs_of_in; auto).
          destruct M1 as (K1 & _ & F1 & _). destruct M2 as (K2 & _ & F2 & _).
          rewrite E1 in Ge, Hi. apply (Permutation_in _ E2) in Fe, Ho.
          (* the loop's mate is a loop, too, and with it all roads are *)
          assert (All : e_src i1 = v /\ e_src i2 = v /\ e_tgt o1 = v /\ e_tgt o2 = v).
          { destruct Ge as [<-|[<-|[]]].
            - assert (C1 : In o1 (ins_of (g_es g) v)) by (apply ins_of_in; split; [exact B1|congruence]).
              rewrite E1 in C1. destruct C1 as [C1|[C1|[]]]; [congruence|]. subst o1. repeat split; congruence.
            - assert (C1 : In o2 (ins_of (g_es g) v)) by (apply ins_of_in; split; [exact B2|congruence]).
              rewrite E1 in C1. destruct C1 as [C1|[C1|[]]]; [|congruence]. subst o2. repeat split; congruence. }
          destruct All as (Q1 & Q2 & Q3 & Q4).
          destruct Hi as [<-|[<-|[]]], Ho as [<-|[<-|[]]]; congruence.
    Qed.
  End R.
End Pass.
