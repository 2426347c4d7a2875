(** Proofs about the importer interface with its vertex index map. *)
From Verif Require Import Base ListAux AdjList AdjListSpec AdjListProofs AdjListProofs2 AdjListProofs3 GraphHelper.

(** *** Specification vocabulary *)
Section Spec.
  Context {VD ED : Type}.
  Variable dir : direction.
  Notation graph := (graph VD ED).
  Notation helper := (helper VD ED).

  (** index [i] of the map is the descriptor of the [i]-th vertex, whose stored index is [i] *)
  Definition aligned (h : helper) : Prop :=
    length (h_map h) = length (g_vs (h_graph h)) /\
    forall i x, nth_error (g_vs (h_graph h)) i = Some x ->
                v_index x = i /\ nth_error (h_map h) i = Some (v_id x) /\ get_vertex (h_graph h) (v_id x) = Some x.

  (** what has been imported, in terms of positions: vertex data in order; edges as (index, index, data) *)
  Definition road := (nat * nat * ED)%type.
  Definition joins (g : graph) (e : @edge ED) (r : road) : Prop :=
    nth_error (vertex_ids g) (fst (fst r)) = Some (e_src e) /\
    nth_error (vertex_ids g) (snd (fst r)) = Some (e_tgt e) /\ e_data e = snd r.
  Definition holds (h : helper) (vs : list VD) (es : list road) : Prop :=
    map v_data (g_vs (h_graph h)) = vs /\ Forall2 (joins (h_graph h)) (g_es (h_graph h)) es.

  (** an attempt succeeds if every allocation in it does *)
  Definition va_good (a : vertex_answers) : bool := va_tags a && good (va_list a) && good (va_map a).
  Definition ea_good (i j : nat) (a : edge_answers) : bool :=
    ea_data a && add_edge_succeeds dir i j (ea_1 a) (ea_2 a) (ea_3 a).

  (** the effect of a call on the imported data and its visible answer: [Val (Some i)] the new vertex index,
      [Val None] an edge descriptor *)
  Definition import_spec (mmap : bool) (c : list VD * list road) (o : import_op VD ED)
    : (list VD * list road) * res (option nat) :=
    let '(vs, es) := c in
    match o with
    | AddV d a1 a2 =>
      if va_good a1 || (mmap && va_good a2) then ((vs ++ [d], es), Val (Some (length vs))) else ((vs, es), Exn BadAlloc)
    | AddE i j d a1 a2 =>
      if (i <? length vs) && (j <? length vs) then
        if ea_good i j a1 || (mmap && ea_good i j a2) then ((vs, es ++ [(i, j, d)]), Val None) else ((vs, es), Exn BadAlloc)
      else ((vs, es), Exn OutOfRange)
    end.

  Fixpoint import_specs (mmap : bool) (c : list VD * list road) (os : list (import_op VD ED))
    : (list VD * list road) * list (res (option nat)) :=
    match os with
    | [] => (c, [])
    | o :: r => let (c1, x) := import_spec mmap c o in
                let (c2, xs) := import_specs mmap c1 r in (c2, x :: xs)
    end.

  Definition agrees (r : res nat) (s : res (option nat)) : Prop :=
    match r, s with
    | Val a, Val (Some b) => a = b
    | Val _, Val None => True
    | Exn e, Exn e' => e = e'
    | _, _ => False
    end.
End Spec.

Section Proofs.
  Context {VD ED : Type}.
  Variable dir : direction.
  Notation graph := (graph VD ED).
  Notation helper := (helper VD ED).
  Implicit Types (h : helper) (g : graph).

  Record good_helper h : Prop := {
    gh_exact : exact dir (h_graph h);
    gh_map : h_map h = vertex_ids (h_graph h);
    gh_idx : indexed (h_graph h)
  }.

  Lemma good_aligned h : good_helper h -> aligned h.
  Proof.
    intros [E M I]. split; [rewrite M; unfold vertex_ids; apply map_length|].
    intros i x Hx. split; [|split].
    - pose proof (map_nth_error v_index _ _ Hx) as N. unfold indexed in I. rewrite I in N.
      assert (L : i < length (g_vs (h_graph h))) by (apply nth_error_Some; congruence).
      assert (S : nth_error (seq 0 (length (g_vs (h_graph h)))) i = Some i).
      { rewrite (nth_error_nth' _ 0) by (rewrite seq_length; exact L). rewrite seq_nth by exact L. reflexivity. }
      congruence.
    - rewrite M. apply map_nth_error; exact Hx.
    - eapply get_vertex_unique; [exact E|]. eapply nth_error_In; exact Hx.
  Qed.

  Lemma good_empty : good_helper empty_helper.
  Proof. constructor; [apply exact_empty|reflexivity|reflexivity]. Qed.

  Lemma holds_empty : holds (ED:=ED) (@empty_helper VD ED) [] [].
  Proof. split; [reflexivity|constructor]. Qed.

  Lemma try_add_bad' {A} (c : list A) x k : try_add c x (Bad k) = (c, false).
  Proof. apply try_add_bad. Qed.

  Lemma filter_new g d :
    exact dir g -> filter (fun y => negb (v_id y =? g_next g)) (g_vs g ++ [new_vertex g d]) = g_vs g.
  Proof.
    intros E. rewrite filter_app; cbn. rewrite Nat.eqb_refl; cbn. rewrite app_nil_r.
    apply filter_true. intros x Hx. pose proof (ex_vlt _ _ E x Hx). apply negb_true_iff, Nat.eqb_neq. lia.
  Qed.

  Lemma add_vertex_once_spec h d a vs es :
    good_helper h -> holds h vs es ->
    exists h', good_helper h' /\
      if va_good a then add_vertex_once d a h = Ok (h', Val (length vs)) /\ holds h' (vs ++ [d]) es
      else add_vertex_once d a h = Throw (h', Exn BadAlloc) /\ holds h' vs es.
  Proof.
    intros G [HV HE]. destruct G as [E M I]. destruct h as [g m]; cbn [h_graph h_map] in *.
    destruct a as [at_ al am]; unfold va_good, add_vertex_once; cbn [va_tags va_list va_map].
    destruct at_; cbn [negb andb]; [|exists (mkH g m); split; [constructor; auto|]; split; [reflexivity|split; auto]].
    destruct al as [|k]; cbn [good andb].
    2: { rewrite add_vertex_bad. exists (mkH g m); split; [constructor; auto|]. split; [reflexivity|split; auto]. }
    rewrite add_vertex_good. set (g1 := mkG (g_vs g ++ [new_vertex g d]) (g_es g) (S (g_next g))).
    assert (E1 : exact dir g1) by (apply add_vertex_exact; exact E).
    assert (I1 : indexed g1).
    { unfold indexed, g1 in *; cbn [g_vs]. rewrite map_app, I, app_length; cbn. rewrite seq_app. reflexivity. }
    assert (X : get_vertex g1 (g_next g) = Some (new_vertex g d)).
    { change (g_next g) with (v_id (new_vertex g d)). eapply get_vertex_unique; [exact E1|].
      unfold g1; cbn [g_vs]. apply in_app_iff; right; left; reflexivity. }
    unfold add_to_vertex_index_map; cbn [h_graph h_map]. fold g1. rewrite X; cbn [derefO v_index new_vertex].
    assert (Lm : length m = length (g_vs g)) by (rewrite M; apply map_length).
    rewrite Lm, Nat.eqb_refl; cbn [negb].
    destruct am as [|k]; cbn [good].
    - unfold try_add. exists (mkH g1 (m ++ [g_next g])). split; [|split].
      + constructor; cbn [h_graph h_map]; auto. rewrite M. unfold vertex_ids, g1; cbn. rewrite map_app. reflexivity.
      + rewrite <- HV, map_length. reflexivity.
      + split; cbn [h_graph].
        * unfold g1; cbn. rewrite map_app, HV. reflexivity.
        * eapply Forall2_impl'; [|exact HE]. intros e [[i j] dd] (J1 & J2 & J3); cbn in *.
          assert (V : vertex_ids g1 = vertex_ids g ++ [g_next g]) by (unfold vertex_ids, g1; cbn; rewrite map_app; reflexivity).
          unfold joins. rewrite V. rewrite !nth_error_app1 by (apply nth_error_Some; cbn; congruence). auto.
    - rewrite try_add_bad'. unfold remove_vertex. rewrite X; cbn [derefO v_out new_vertex].
      unfold g1; cbn [g_vs g_es g_next]. rewrite (filter_new g d E).
      exists (mkH (mkG (g_vs g) (g_es g) (S (g_next g))) m). split; [|split; [reflexivity|split; [exact HV|exact HE]]].
      constructor; cbn [h_graph h_map]; auto.
      constructor; cbn; try apply E.
      + intros x Hx. pose proof (ex_vlt _ _ E x Hx). lia.
      + intros x Hx. pose proof (ex_elt _ _ E x Hx). lia.
  Qed.

  Lemma NoDup_nth_eqb (l : list nat) i j a b :
    NoDup l -> nth_error l i = Some a -> nth_error l j = Some b -> (a =? b) = (i =? j).
  Proof.
    intros N Ha Hb. destruct (Nat.eqb_spec i j) as [->|Ne].
    - rewrite Ha in Hb. injection Hb as ->. apply Nat.eqb_refl.
    - apply Nat.eqb_neq. intros ->. apply Ne. eapply (proj1 (NoDup_nth_error l) N).
      + apply nth_error_Some. congruence.
      + congruence.
  Qed.

  Lemma add_edge_once_spec h i j d a vs es :
    good_helper h -> holds h vs es ->
    exists h', good_helper h' /\
      if (i <? length vs) && (j <? length vs) then
        if ea_good dir i j a
        then exists e, add_edge_once dir i j d a h = Ok (h', Val e) /\ holds h' vs (es ++ [(i, j, d)])
        else add_edge_once dir i j d a h = Throw (h', Exn BadAlloc) /\ holds h' vs es
      else add_edge_once dir i j d a h = Throw (h', Exn OutOfRange) /\ holds h' vs es.
  Proof.
    intros G [HV HE]. destruct G as [E M I]. destruct h as [g m]; cbn [h_graph h_map] in *.
    assert (L : length m = length vs) by (rewrite M, <- HV; unfold vertex_ids; rewrite !map_length; reflexivity).
    rewrite <- L. unfold add_edge_once; cbn [h_graph h_map].
    destruct (Nat.ltb_spec i (length m)) as [Li|Li]; cbn [andb].
    2: { exists (mkH g m). rewrite (proj2 (nth_error_None m i) Li). (split; [constructor; auto|]; split; [reflexivity|split; auto]). }
    destruct (nth_error m i) as [s|] eqn:Es; [|apply nth_error_Some in Es; [destruct Es|exact Li]].
    destruct (Nat.ltb_spec j (length m)) as [Lj|Lj]; cbn [andb].
    2: { exists (mkH g m). rewrite (proj2 (nth_error_None m j) Lj). (split; [constructor; auto|]; split; [reflexivity|split; auto]). }
    destruct (nth_error m j) as [t|] eqn:Et; [|apply nth_error_Some in Et; [destruct Et|exact Lj]].
    unfold ea_good. destruct (ea_data a); cbn [negb andb]; [|exists (mkH g m); split; [constructor; auto|]; split; [reflexivity|split; auto]].
    rewrite M in Es, Et.
    assert (Hs : In s (vertex_ids g)) by (eapply nth_error_In; exact Es).
    assert (Ht : In t (vertex_ids g)) by (eapply nth_error_In; exact Et).
    rewrite (add_edge_effect dir g s t d _ _ _ E Hs Ht).
    assert (Q : add_edge_succeeds dir s t (ea_1 a) (ea_2 a) (ea_3 a) = add_edge_succeeds dir i j (ea_1 a) (ea_2 a) (ea_3 a)).
    { unfold add_edge_succeeds. rewrite (NoDup_nth_eqb _ _ _ _ _ (ex_vid _ _ E) Es Et). reflexivity. }
    rewrite Q. destruct (add_edge_succeeds dir i j (ea_1 a) (ea_2 a) (ea_3 a)).
    2: { exists (mkH g m). (split; [constructor; auto|]; split; [reflexivity|split; auto]). }
    set (g1 := canon dir g (g_es g ++ [new_edge g s t d]) (S (g_next g))).
    assert (V : vertex_ids g1 = vertex_ids g) by apply canon_ids.
    exists (mkH g1 m). split; [|eexists; split; [reflexivity|split]].
    - constructor; cbn [h_graph h_map].
      + apply add_edge_exact; assumption.
      + rewrite V. exact M.
      + unfold indexed, g1, canon in *; cbn. rewrite map_map, map_length. exact I.
    - unfold g1, canon; cbn. rewrite map_map. exact HV.
    - cbn [h_graph]. unfold g1 at 2; cbn [g_es canon]. apply Forall2_app.
      + eapply Forall2_impl'; [|exact HE]. unfold joins. intros e r J. rewrite V. exact J.
      + constructor; [|constructor]. unfold joins. rewrite V. cbn; auto.
  Qed.

  Lemma import_step_spec mmap h o vs es :
    good_helper h -> holds h vs es ->
    exists h' r, (import_step dir mmap h o = Ok (h', r) \/ import_step dir mmap h o = Throw (h', r)) /\
      good_helper h' /\
      agrees r (snd (import_spec dir mmap (vs, es) o)) /\
      holds h' (fst (fst (import_spec dir mmap (vs, es) o))) (snd (fst (import_spec dir mmap (vs, es) o))).
  Proof.
    intros G H. destruct o as [d a1 a2|i j d a1 a2]; cbn [import_step import_spec].
    - unfold add_vertex_with_index_mapping, retry.
      destruct (add_vertex_once_spec h d a1 vs es G H) as (h1 & G1 & S1).
      destruct (va_good a1); destruct S1 as [R1 H1]; rewrite R1; cbn [orb].
      { exists h1, (Val (length vs)). cbn. auto. }
      destruct mmap; cbn [andb].
      + destruct (add_vertex_once_spec h1 d a2 vs es G1 H1) as (h2 & G2 & S2).
        destruct (va_good a2); destruct S2 as [R2 H2]; rewrite R2; eexists; eexists; (split; [auto|]); cbn; auto.
      + eexists; eexists; (split; [right; reflexivity|]); cbn; auto.
    - unfold add_edge_with_indices, retry.
      destruct (add_edge_once_spec h i j d a1 vs es G H) as (h1 & G1 & S1).
      destruct ((i <? length vs) && (j <? length vs)) eqn:Q.
      + destruct (ea_good dir i j a1); cbn [orb].
        { destruct S1 as (e & R1 & H1). rewrite R1. exists h1, (Val e). cbn. auto. }
        destruct S1 as [R1 H1]. rewrite R1. destruct mmap; cbn [andb].
        * destruct (add_edge_once_spec h1 i j d a2 vs es G1 H1) as (h2 & G2 & S2). rewrite Q in S2.
          destruct (ea_good dir i j a2).
          -- destruct S2 as (e & R2 & H2). rewrite R2. exists h2, (Val e). cbn. auto.
          -- destruct S2 as [R2 H2]. rewrite R2. exists h2, (Exn BadAlloc). cbn. auto.
        * exists h1, (Exn BadAlloc). cbn. auto.
      + destruct S1 as [R1 H1]. rewrite R1. exists h1, (Exn OutOfRange). cbn. auto.
  Qed.

  Lemma import_run_spec mmap os : forall h vs es,
    good_helper h -> holds h vs es ->
    exists h' rs, import_run dir mmap h os = Some (h', rs) /\ good_helper h' /\
      Forall2 agrees rs (snd (import_specs dir mmap (vs, es) os)) /\
      holds h' (fst (fst (import_specs dir mmap (vs, es) os))) (snd (fst (import_specs dir mmap (vs, es) os))).
  Proof.
    induction os as [|o os IH]; intros h vs es G H; cbn [import_run import_specs].
    - exists h, []. cbn. auto.
    - destruct (import_step_spec mmap h o vs es G H) as (h1 & r & S & G1 & A1 & H1).
      destruct (import_spec dir mmap (vs, es) o) as [[vs1 es1] x]; cbn [fst snd] in *.
      destruct (IH h1 vs1 es1 G1 H1) as (h2 & rs & R2 & G2 & A2 & H2).
      destruct (import_specs dir mmap (vs1, es1) os) as [[vs2 es2] xs]; cbn [fst snd] in *.
      exists h2, (r :: rs). destruct S as [S|S]; rewrite S, R2; (split; [reflexivity|split; [exact G2|split; [constructor; assumption|exact H2]]]).
  Qed.
End Proofs.
