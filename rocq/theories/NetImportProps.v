(** C16: simplification of imported networks (network_import.hpp 68-115). *)
From Coq Require Import String.
From Verif Require Import Base ListAux AdjList AdjListSpec AdjListProofs AdjListProofs2 AdjListProofs3 AdjListProps Tags TagsProps RichLine NetImport NetImportSpec
  NetImportProofs NetImportProofs2 NetImportProofs3 NetImportProofs4 NetImportProofs5 NetImportProofs6 NetImportProofs7 NetImportProofs8.

Section C16.
  Context {P Str : Type}.
  Variable eqp : P -> P -> bool.
  Hypothesis eqp_refl : forall p, eqp p p = true.
  Notation graph := (graph (node P) (road P)).
  Notation edge := (@edge (road P)).
  Notation import := (import P Str).

  (** What the simplification of a network may do.  [J] are the vertices where roads were joined, [c] the
      roads of the original network which the road with a given identity of the new network runs along. *)
  Definition simplified (complete : bool) (s s' : import) (J : list nat) (c : nat -> list edge) : Prop :=
    let g := i_graph s in
    let g' := i_graph s' in
    exact Bidirectional g' /\ drawn g' /\
    (* every road follows roads of the original network, every original road is part of exactly one *)
    (forall e, In e (g_es g') -> course J (c (e_id e)) e) /\
    Permutation (flat_map (fun e => c (e_id e)) (g_es g')) (g_es g) /\
    (* roads are joined only where at most two directions met *)
    (forall v, In v J -> two_directions eqp g v) /\
    (* the vertices left are as before, all others than [J] are left and keep their roads *)
    seen_vertices g' = filter (fun x => existsb (Nat.eqb (fst x)) (vertex_ids g')) (seen_vertices g) /\
    (forall v, In v (vertex_ids g) -> ~ In v J -> In v (vertex_ids g')) /\
    (forall v, ~ In v J -> length (ins_of (g_es g') v) = length (ins_of (g_es g) v) /\
                           length (outs_of (g_es g') v) = length (outs_of (g_es g) v)) /\
    (* tags *)
    (complete = false -> i_tags s' = i_tags s /\ forall e f, In e (g_es g') -> In f (c (e_id e)) -> id_of f = id_of e) /\
    (forall e f, In e (g_es g') -> In f (c (e_id e)) -> incl (edge_tags (i_tags s) (id_of f)) (edge_tags (i_tags s') (id_of e))) /\
    (forall n, node_tags (i_tags s') n = node_tags (i_tags s) n).

  Lemma simplified_refines complete (s s' : import) J c : exact Bidirectional (i_graph s) -> drawn (i_graph s) ->
    refines complete (i_graph s) (i_tags s) (i_graph s') (i_tags s') J c -> (forall v, In v J -> two_directions eqp (i_graph s) v) ->
    simplified complete s s' J c.
  Proof.
    intros H D R T. unfold simplified. cbn zeta. split; [apply (rf_exact _ _ _ _ _ _ _ R)|]. split; [apply (rf_drawn _ _ _ _ _ _ _ R)|].
    split; [apply (rf_course _ _ _ _ _ _ _ R)|]. split; [apply (rf_all _ _ _ _ _ _ _ R)|]. split; [exact T|]. split; [apply (rf_vs _ _ _ _ _ _ _ R)|].
    split; [apply (rf_keep _ _ _ _ _ _ _ R)|]. split.
    - intros v Nv. rewrite <- (Permutation_length (origin_ins _ _ _ _ _ _ _ R v Nv)), <- (Permutation_length (origin_outs _ _ _ _ _ _ _ R v Nv)), !map_length. auto.
    - split; [apply (rf_aware _ _ _ _ _ _ _ R)|]. split; [apply (rf_tags _ _ _ _ _ _ _ R)|apply (rf_nodes _ _ _ _ _ _ _ R)].
  Qed.

  (** Simplification of any properly drawn network succeeds and joins roads end to end, at vertices where
      at most two directions meet, and changes nothing else.  Complete simplification removes exactly
      the vertices it joins at, and leaves no vertex on a single road unless all its roads lead to one
      other vertex. *)
  Theorem C16_simplify complete (s : import) : exact Bidirectional (i_graph s) -> drawn (i_graph s) -> i_running s = false -> i_mem s = [] ->
    exists s' J c, simplify eqp complete s = Ok s' /\ simplified complete s s' J c /\ indexed (i_graph s') /\
      i_running s' = false /\ i_set s' = false /\
      (complete = true -> forall v, In v (vertex_ids (i_graph s)) -> (In v J <-> ~ In v (vertex_ids (i_graph s')))) /\
      (complete = true -> forall v, In v (vertex_ids (i_graph s')) -> on_one_way (i_graph s) v \/ on_two_way eqp (i_graph s) v ->
         one_neighbour (i_graph s') v).
  Proof.
    intros H D Er Em. destruct (simplify_ok eqp eqp_refl complete s H D Er Em) as (s' & J & c & E & R & Ix & _ & A & B & Nj & Tj & T).
    exists s', J, c. split; [exact E|]. split; [apply simplified_refines; auto|]. split; [exact Ix|]. split; [exact A|]. split; [exact B|]. split.
    - intros Hc v Hv. destruct (T Hc) as [T0 _]. split; [apply T0|]. intros N. destruct (in_dec Nat.eq_dec v J) as [Q|Q]; [exact Q|].
      exfalso. apply N. apply (rf_keep _ _ _ _ _ _ _ R); auto.
    - intros Hc. apply (T Hc).
  Qed.

  (** hence the line pieces of all roads together are the same, and with them all lengths *)
  Lemma pieces_app (l m : list P) : l <> [] -> hd_error (rev l) = hd_error m -> pieces_of (l ++ tl m) = pieces_of l ++ pieces_of m.
  Proof.
    intros Ne. induction l as [|p l IH]; intros E; [contradiction|]. destruct l as [|q l].
    - cbn in E. destruct m as [|x m]; [discriminate|]. injection E as ->. reflexivity.
    - cbn [app] in *. cbn [pieces_of app]. f_equal. apply IH; [discriminate|]. rewrite <- E. cbn [rev].
      destruct (rev l) as [|r k]; reflexivity.
  Qed.
  Lemma pieces_course (g : graph) J (c : list edge) : drawn g -> linked J c -> c <> [] -> incl c (g_es g) ->
    pieces_of (join (map line_of c)) = flat_map (fun e => pieces_of (line_of e)) c /\ hd_error (join (map line_of c)) = hd_error (line_of (hd (last c (hd (mkE 0 0 0 0 (mkRoad 0 [])) c)) c)).
  Proof.
    intros D. induction c as [|e c IH]; intros L Nc Hin; [contradiction|]. destruct c as [|f c].
    - cbn. rewrite !app_nil_r. auto.
    - cbn [linked] in L. destruct L as [[E _] L]. destruct (IH L) as [IH1 IH2]; [discriminate|intros z Hz; apply Hin; right; exact Hz|].
      destruct (D e (Hin e (or_introl eq_refl))) as (L1 & _ & T1). destruct (D f (Hin f (or_intror (or_introl eq_refl)))) as (L2 & S2 & _).
      cbn [map join flat_map hd] in *.
      assert (Q : line_of e ++ tl (line_of f) ++ flat_map (@tl P) (map line_of c) = line_of e ++ tl (line_of f ++ flat_map (@tl P) (map line_of c))).
      { destruct (line_of f); [cbn in L2; lia|reflexivity]. }
      split.
      + rewrite Q, pieces_app; [rewrite IH1; reflexivity|intros Z; rewrite Z in L1; cbn in L1; lia|]. rewrite IH2, T1, S2, E. reflexivity.
      + destruct (line_of e); [cbn in L1; lia|reflexivity].
  Qed.
  Theorem C16_pieces complete (s s' : import) : exact Bidirectional (i_graph s) -> drawn (i_graph s) -> i_running s = false -> i_mem s = [] ->
    simplify eqp complete s = Ok s' -> Permutation (all_pieces (i_graph s')) (all_pieces (i_graph s)).
  Proof.
    intros H D Er Em E. destruct (C16_simplify complete s H D Er Em) as (s2 & J & c & E2 & S & _). rewrite E in E2. injection E2 as <-.
    destruct S as (_ & _ & C & A & _). unfold all_pieces. rewrite <- A.
    assert (I : forall e, In e (g_es (i_graph s')) -> incl (c (e_id e)) (g_es (i_graph s))).
    { intros e He f Hf. apply (Permutation_in _ A). apply in_flat_map. eauto. }
    clear A E. induction (g_es (i_graph s')) as [|e es IH]; [reflexivity|]. cbn [flat_map]. rewrite flat_map_app.
    rewrite (IH (fun x Hx => C x (or_intror Hx)) (fun x Hx => I x (or_intror Hx))). apply Permutation_app_tail.
    destruct (C e (or_introl eq_refl)) as (f & r & Ec & L & _ & _ & _ & El). rewrite El.
    destruct (pieces_course (i_graph s) J (c (e_id e)) D L) as [Q _]; [rewrite Ec; discriminate|apply I; left; reflexivity|]. rewrite Q. reflexivity.
  Qed.

  (** Which vertices are joints and which pairs are joined, decided locally. *)
  Theorem C16_joint (g : graph) v : exact Bidirectional g -> drawn g -> In v (vertex_ids g) ->
    exists b, is_mergeable eqp g v = Ok b /\ (b = true -> on_one_way g v \/ on_two_way eqp g v) /\
      (on_one_way g v -> b = true) /\ (on_two_way eqp g v -> ~ one_neighbour g v -> b = true).
  Proof.
    intros H D Hv. destruct (is_mergeable_ok eqp g H v Hv) as (b & E & M). exists b. split; [exact E|]. split; [|split].
    - intros Hb. destruct (M Hb) as [M1|(i1 & i2 & o1 & o2 & E1 & E2 & M1 & M2)]; [left; exact M1|right]. exists i1, i2, o1, o2.
      assert (A : forall i, In i [i1; i2] -> In i (g_es g)) by (intros i Hi; rewrite <- E1 in Hi; apply ins_of_in in Hi; tauto).
      assert (B : forall o, In o [o1; o2] -> In o (g_es g)) by (intros o Ho; apply (Permutation_in _ (Permutation_sym E2)) in Ho; apply outs_of_in in Ho; tauto).
      split; [rewrite E1; reflexivity|]. split; [exact E2|]. split; [apply (mate_iff eqp g)|apply (mate_iff eqp g)]; auto; first [solve [apply A; cbn; auto]|solve [apply B; cbn; auto]].
    - intros W. rewrite (mergeable_yes eqp g H v Hv (or_introl W)) in E. congruence.
    - intros W N. destruct (single_merges eqp g v H D Hv (or_intror W)) as [Q|[_ Q]]; [contradiction|congruence].
  Qed.

  Theorem C16_pairs complete (t : tags_state Str) (g : graph) v : exact Bidirectional g -> In v (vertex_ids g) -> is_mergeable eqp g v = Ok true ->
    exists ms, populate_merges g t complete v = Ok ms /\ NoDup (map fst ms) /\ NoDup (map snd ms) /\
      forall a b, In (a, b) ms <-> exists i o, In i (ins_of (g_es g) v) /\ In o (outs_of (g_es g) v) /\ e_id i = a /\ e_id o = b /\
        e_src i <> e_tgt o /\ (complete = true \/ id_of i = id_of o).
  Proof.
    intros H Hv E. destruct (is_mergeable_ok eqp g H v Hv) as (b & Eb & M). rewrite E in Eb. injection Eb as <-. specialize (M eq_refl).
    exists (pick_ins t complete (ins_of (g_es g) v) (outs_of (g_es g) v) []). split; [apply populate_ok; auto|].
    destruct (pick_chosen t complete (ins_of (g_es g) v) (outs_of (g_es g) v) (ins_of (g_es g) v) [] (incl_refl _)) as (A & B & C).
    { split; [constructor|split; [constructor|intros p []]]. }
    split; [exact A|]. split; [exact B|]. intros x y. split.
    - intros Q. destruct (C _ Q) as (i & o & Hi & Ho & Ep & F). injection Ep as -> ->. exists i, o. split; [exact Hi|]. split; [exact Ho|].
      split; [reflexivity|]. split; [reflexivity|]. apply (fits_spec g H t complete i o v Hi Ho) in F. exact F.
    - intros (i & o & Hi & Ho & <- & <- & F). apply (pick_fitting eqp g H t complete v M i o Hi Ho). apply (fits_spec g H t complete i o v Hi Ho). exact F.
  Qed.

  (** The comparison of two lines: the second is the first backwards. *)
  Theorem C16_reversed (a b : list P) : exists r, lines_are_reversed eqp a b = Ok r /\
    (r = true <-> a <> [] /\ Forall2 (fun p q => eqp p q = true) a (rev b)).
  Proof.
    destruct (lines_are_reversed_ok eqp a b) as (r & E & Q). exists r. split; [exact E|]. destruct a as [|x a].
    - split; [intros Hr; exfalso; apply (proj1 Q) in Hr; tauto|intros [N _]; contradiction].
    - pose proof (reversed_iff eqp (x :: a) b ltac:(discriminate)) as R. rewrite E in R. split.
      + intros ->. split; [discriminate|]. apply R. reflexivity.
      + intros [_ F]. apply R in F. congruence.
  Qed.

  (** Failed allocations of joined lines (memory mapped networks): no road is lost, and the pass can be
      taken up again any number of times. *)
  Theorem C16_memory complete (s0 s : import) : exact Bidirectional (i_graph s0) -> drawn (i_graph s0) -> ~ In NoEdge (i_mem s) ->
    fresh complete (i_graph s0) (i_tags s0) s \/ resumable eqp complete (i_graph s0) (i_tags s0) s ->
    exists s', (simplify eqp complete s = Ok s' /\ indexed (i_graph s') /\ i_running s' = false /\ exists J c, simplified complete s0 s' J c) \/
               (simplify eqp complete s = Throw s' /\ resumable eqp complete (i_graph s0) (i_tags s0) s' /\ (exists J c, simplified complete s0 s' J c) /\
                exists used, i_mem s = used ++ i_mem s' /\ In NoLine used).
  Proof.
    intros H D Em Hs. destruct (simplify_mem eqp eqp_refl complete (i_graph s0) (i_tags s0) s H D Em Hs) as (s' & used & Eu & [(E & A & _ & Ix & J & c & R & T)|(E & Hu & Rs)]).
    - exists s'. left. split; [exact E|]. split; [exact Ix|]. split; [exact A|]. exists J, c. apply simplified_refines; auto.
    - exists s'. right. split; [exact E|]. split; [exact Rs|]. split; [|eauto]. destruct Rs as (J & c & R & T & _). exists J, c. apply simplified_refines; auto.
  Qed.

  Lemma one_noline k m used r : repeat Fine k ++ NoLine :: repeat Fine m = used ++ r -> In NoLine used -> ~ In NoLine r.
  Proof.
    revert k. induction used as [|a used IH]; intros k E Hu; [destruct Hu|]. destruct k as [|k]; cbn in E; injection E as <- E.
    - intros Q. assert (Z : In NoLine (repeat Fine m)) by (rewrite E; apply in_app_iff; auto). apply repeat_spec in Z. discriminate.
    - destruct Hu as [Hu|Hu]; [discriminate|]. apply (IH k E Hu).
  Qed.
  (** ... so a memory mapped network survives one failure *)
  Theorem C16_retry complete (s : import) k m : exact Bidirectional (i_graph s) -> drawn (i_graph s) -> NoDup (map v_index (g_vs (i_graph s))) ->
    i_running s = false -> i_mem s = repeat Fine k ++ NoLine :: repeat Fine m ->
    exists s' J c, helper_simplify eqp true complete s = Ok s' /\ indexed (i_graph s') /\ simplified complete s s' J c.
  Proof.
    intros H D Ni Er Em.
    assert (Fr : fresh complete (i_graph s) (i_tags s) s).
    { split; [reflexivity|]. split; [reflexivity|]. split; [|exact Er]. unfold numbers. rewrite map_map. exact Ni. }
    assert (Ne : ~ In NoEdge (i_mem s)).
    { rewrite Em. intros Q. apply in_app_iff in Q as [Q|[Q|Q]]; [apply repeat_spec in Q; discriminate|discriminate|apply repeat_spec in Q; discriminate]. }
    unfold helper_simplify.
    destruct (C16_memory complete s s H D Ne (or_introl Fr)) as (s1 & [(E & Ix & _ & J & c & S)|(E & Rs & _ & used & Eu & Hu)]); rewrite E; [exists s1, J, c; auto|].
    destruct (C16_memory complete s s1 H D) as (s2 & [(E2 & Ix & _ & J & c & S)|(E2 & _ & _ & u2 & Eu2 & Hu2)]).
    - intros Q. apply Ne. rewrite Eu. apply in_app_iff. auto.
    - right. exact Rs.
    - rewrite E2. exists s2, J, c. auto.
    - exfalso. rewrite Em in Eu. apply (one_noline _ _ _ _ Eu Hu). rewrite Eu2. apply in_app_iff. auto.
  Qed.
End C16.

(** *** Examples *)
Definition nd (i : nat) : node nat := mkNode i (10 * i).
Definition rd (i : nat) (l : list nat) : road nat := mkRoad i l.
Definition make (os : list (op (node nat) (road nat))) : graph (node nat) (road nat) :=
  match run Bidirectional empty_graph os with Some g => reindex g | None => empty_graph end.
Definition fresh_import (os : list (op (node nat) (road nat))) (mem : list answer) : import nat string :=
  mkImp (make os) empty_tags false false 0 mem.
Lemma make_exact os : legal_history Bidirectional empty_graph os -> exact Bidirectional (make os).
Proof.
  intros L. destruct (C01_incidence_exact Bidirectional os L) as (g & E & X & _). unfold make. rewrite E. apply reindex_exact. exact X.
Qed.

Definition eq_opt (a b : option nat) : bool := match a, b with Some x, Some y => x =? y | None, None => true | _, _ => false end.
Definition drawnb (g : graph (node nat) (road nat)) : bool := forallb (fun e =>
  (2 <=? length (line_of e)) && eq_opt (hd_error (line_of e)) (position g (e_src e)) && eq_opt (hd_error (rev (line_of e))) (position g (e_tgt e))) (g_es g).
Lemma drawnb_ok g : drawnb g = true -> drawn g.
Proof.
  assert (E : forall a b, eq_opt a b = true -> a = b) by (intros [a|] [b|] Q; cbn in Q; try discriminate; [apply Nat.eqb_eq in Q; congruence|reflexivity]).
  intros H e He. unfold drawnb in H. rewrite forallb_forall in H. specialize (H e He). apply andb_true_iff in H as [H C]. apply andb_true_iff in H as [A B].
  apply Nat.leb_le in A. auto.
Qed.

(** a one-way road 0 -> 1 -> 2 continued both ways to 3, where 4 and 5 branch off *)
Definition street : list (op (node nat) (road nat)) :=
  [AddVertex (nd 0) Good; AddVertex (nd 1) Good; AddVertex (nd 2) Good; AddVertex (nd 3) Good; AddVertex (nd 4) Good;
   AddEdge 0 1 (rd 7 [0; 5; 10]) Good Good Good; AddEdge 1 2 (rd 7 [10; 20]) Good Good Good;
   AddEdge 2 3 (rd 8 [20; 25; 30]) Good Good Good; AddEdge 3 2 (rd 8 [30; 25; 20]) Good Good Good;
   AddEdge 3 4 (rd 9 [30; 40]) Good Good Good; AddEdge 4 3 (rd 9 [40; 30]) Good Good Good].
Definition street_s := fresh_import street [].
Example street_legal : legal_history Bidirectional empty_graph street.
Proof. vm_compute. repeat split; auto 20. Qed.
Example C16_case : exact Bidirectional (i_graph street_s) /\ drawn (i_graph street_s) /\ i_running street_s = false /\ i_mem street_s = [].
Proof.
  split; [apply make_exact, street_legal|]. split; [|split; reflexivity].
  apply drawnb_ok. vm_compute. reflexivity.
Qed.
Definition roads_of (o : outcome (import nat string)) : list (nat * nat * list nat) :=
  match o with Ok s | Throw s => map (fun e => (e_src e, e_tgt e, r_line (e_data e))) (g_es (i_graph s)) | _ => [] end.
Example C16_case_osm : roads_of (simplify Nat.eqb false street_s) =
  [(2, 3, [20; 25; 30]); (3, 2, [30; 25; 20]); (3, 4, [30; 40]); (4, 3, [40; 30]); (0, 2, [0; 5; 10; 20])].
Proof. vm_compute. reflexivity. Qed.
Example C16_case_complete : roads_of (simplify Nat.eqb true street_s) =
  [(0, 2, [0; 5; 10; 20]); (2, 4, [20; 25; 30; 40]); (4, 2, [40; 30; 25; 20])].
Proof. vm_compute. reflexivity. Qed.
Example C16_case_retry : helper_simplify Nat.eqb true true (fresh_import street [Fine; NoLine; Fine]) =
  match simplify Nat.eqb true street_s with Ok s => Ok s | x => x end.
Proof. vm_compute. reflexivity. Qed.
Example C16_case_joint : is_mergeable Nat.eqb (i_graph street_s) 3 = Ok true /\ is_mergeable Nat.eqb (i_graph street_s) 2 = Ok false /\
  populate_merges (i_graph street_s) (i_tags street_s) true 3 = Ok [(7, 9); (10, 8)].
Proof. vm_compute. auto. Qed.

(** *** What does not hold *)
(** One pass is not enough: whether roads can be joined at a vertex depends on joints handled later.  Here
    the way back from 2 to 1 leads through 3, which is removed after 1 has been looked at. *)
Definition detour : list (op (node nat) (road nat)) :=
  [AddVertex (nd 0) Good; AddVertex (nd 1) Good; AddVertex (nd 2) Good; AddVertex (nd 3) Good; AddVertex (nd 4) Good;
   AddEdge 0 1 (rd 7 [0; 10]) Good Good Good; AddEdge 1 0 (rd 7 [10; 0]) Good Good Good;
   AddEdge 1 2 (rd 8 [10; 30; 20]) Good Good Good; AddEdge 2 3 (rd 8 [20; 30]) Good Good Good; AddEdge 3 1 (rd 8 [30; 10]) Good Good Good;
   AddEdge 2 4 (rd 9 [20; 40]) Good Good Good; AddEdge 4 2 (rd 9 [40; 20]) Good Good Good].
Theorem C16_idempotent_refuted : exists (s s1 s2 : import nat string),
  exact Bidirectional (i_graph s) /\ drawn (i_graph s) /\ simplify Nat.eqb true s = Ok s1 /\ simplify Nat.eqb true s1 = Ok s2 /\
  length (g_es (i_graph s1)) = 6 /\ length (g_es (i_graph s2)) = 2.
Proof.
  exists (fresh_import detour []). eexists; eexists. split; [apply make_exact; vm_compute; repeat split; auto 20|]. split.
  - apply drawnb_ok. vm_compute. reflexivity.
  - split; [vm_compute; reflexivity|]. split; [vm_compute; reflexivity|]. split; reflexivity.
Qed.

(** If the insertion of the joined road fails, both its parts have been removed already: the repeated pass
    succeeds and the road is lost. *)
Theorem C16_out_of_memory_refuted : exists (s s' : import nat string),
  exact Bidirectional (i_graph s) /\ drawn (i_graph s) /\ helper_simplify Nat.eqb true true s = Ok s' /\
  length (g_es (i_graph s)) = 2 /\ g_es (i_graph s') = [].
Proof.
  exists (fresh_import [AddVertex (nd 0) Good; AddVertex (nd 1) Good; AddVertex (nd 2) Good;
                        AddEdge 0 1 (rd 7 [0; 10]) Good Good Good; AddEdge 1 2 (rd 7 [10; 20]) Good Good Good] [NoEdge]).
  eexists. split; [apply make_exact; vm_compute; repeat split; auto 20|]. split.
  - apply drawnb_ok. vm_compute. reflexivity.
  - split; [vm_compute; reflexivity|]. split; reflexivity.
Qed.

Print Assumptions C16_simplify.
Print Assumptions C16_pieces.
Print Assumptions C16_joint.
Print Assumptions C16_pairs.
Print Assumptions C16_reversed.
Print Assumptions C16_memory.
Print Assumptions C16_retry.
Print Assumptions C16_idempotent_refuted.
Print Assumptions C16_out_of_memory_refuted.
