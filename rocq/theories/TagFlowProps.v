(** C97: where the tags of joined roads come from (network_import.hpp 272-298, 390-441, tag_helper.hpp: tags belong to numbers of ways, not to
    roads). *)
From Coq Require Import String.
From Verif Require Import Base ListAux AdjList AdjListSpec AdjListProofs AdjListProofs2 AdjListProofs3 AdjListProps Tags TagsProps RichLine NetImport NetImportSpec
  NetImportProofs NetImportProofs2 NetImportProofs3 NetImportProofs4 NetImportProofs5 NetImportProofs6 NetImportProofs7 NetImportProofs8 NetImportProps.

Section C97.
  Context {P Str : Type}.
  Variable eqp : P -> P -> bool.
  Hypothesis eqp_refl : forall p, eqp p p = true.
  Notation graph := (graph (node P) (road P)).
  Notation edge := (@edge (road P)).
  Notation import := (import P Str).

  (** What a way has after the simplification: all it had, for every road all tags of the ways it now runs along, and only tags of ways one comes
      to by passing vertices where at most two directions met.  The tags of nodes stay. *)
  Definition tagged_from (s s' : import) : Prop := exists J c,
    (forall v, In v J -> two_directions eqp (i_graph s) v) /\
    (forall e, In e (g_es (i_graph s')) -> course J (c (e_id e)) e /\ incl (c (e_id e)) (g_es (i_graph s)) /\
       forall f, In f (c (e_id e)) -> incl (edge_tags (i_tags s) (id_of f)) (edge_tags (i_tags s') (id_of e))) /\
    (forall n k, In k (edge_tags (i_tags s') n) -> exists m, leads (i_graph s) J n m /\ In k (edge_tags (i_tags s) m)) /\
    (forall n, node_tags (i_tags s') n = node_tags (i_tags s) n).

  Lemma tagged_refines complete (s s' : import) J c : refines complete (i_graph s) (i_tags s) (i_graph s') (i_tags s') J c ->
    (forall v, In v J -> two_directions eqp (i_graph s) v) -> tagged_from s s'.
  Proof.
    intros R T. exists J, c. split; [exact T|]. split; [|split; [apply (rf_from _ _ _ _ _ _ _ R)|apply (rf_nodes _ _ _ _ _ _ _ R)]].
    intros e He. split; [apply (rf_course _ _ _ _ _ _ _ R); exact He|]. split.
    - intros f Hf. apply (Permutation_in f (rf_all _ _ _ _ _ _ _ R)). apply in_flat_map. eauto.
    - intros f Hf. apply (rf_tags _ _ _ _ _ _ _ R e f He Hf).
  Qed.

  Theorem C97_from complete (s s' : import) : exact Bidirectional (i_graph s) -> drawn (i_graph s) -> i_running s = false -> i_mem s = [] ->
    simplify eqp complete s = Ok s' -> tagged_from s s'.
  Proof.
    intros H D Er Em E. destruct (simplify_ok eqp eqp_refl complete s H D Er Em) as (s2 & J & c & E2 & R & _ & _ & _ & _ & _ & Tj & _).
    rewrite E in E2. injection E2 as <-. apply (tagged_refines complete s s' J c R Tj).
  Qed.

  (** Also when memory for joined lines runs out any number of times (the tags of a pair are then taken over although its roads are not joined yet),
      and whenever the pass is taken up again. *)
  Theorem C97_memory complete (s0 s s' : import) : exact Bidirectional (i_graph s0) -> drawn (i_graph s0) -> ~ In NoEdge (i_mem s) ->
    fresh complete (i_graph s0) (i_tags s0) s \/ resumable eqp complete (i_graph s0) (i_tags s0) s ->
    simplify eqp complete s = Ok s' \/ simplify eqp complete s = Throw s' -> tagged_from s0 s'.
  Proof.
    intros H D Em Hs E. destruct (simplify_mem eqp eqp_refl complete (i_graph s0) (i_tags s0) s H D Em Hs) as (s2 & used & _ & [(E2 & _ & _ & _ & J & c & R & T)|(E2 & _ & J & c & R & T & _)]);
      rewrite E2 in E; destruct E as [E|E]; try discriminate; injection E as <-; apply (tagged_refines complete s0 s2 J c R T).
  Qed.

  (** Ways keep what they had. *)
  Lemma merge_edge_tags_grow (t : tags_state Str) a b n : incl (edge_tags t n) (edge_tags (merge_edge_tags a b t) n).
  Proof.
    destruct (C51_merge_edge_tags t a b) as (_ & T1 & T2 & _). intros k Hk. destruct (Nat.eq_dec n a) as [->|N]; [apply T1; auto|rewrite T2 by exact N; exact Hk].
  Qed.
  Definition state_of {A} (o : outcome A) : option A := match o with Ok a | Throw a => Some a | _ => None end.
  Definition grows (t : tags_state Str) (o : outcome import) : Prop := forall s n, state_of o = Some s -> incl (edge_tags t n) (edge_tags (i_tags s) n).
  Lemma grows_bind {A} (t : tags_state Str) (x : outcome A) conv k : (forall a, x = Throw a -> forall n, incl (edge_tags t n) (edge_tags (i_tags (conv a)) n)) ->
    (forall a, x = Ok a -> grows t (k a)) -> grows t (bindO x conv k).
  Proof. intros C K. destruct x as [a|a| |]; cbn [bindO]; [apply K; reflexivity|intros s n E; injection E as <-; apply C; reflexivity|intros s n E; discriminate|intros s n E; discriminate]. Qed.
  Lemma grows_deref {A} (t : tags_state Str) (x : option A) k : (forall a, x = Some a -> grows t (k a)) -> grows t (derefO x k).
  Proof. intros K. destruct x; cbn [derefO]; [apply K; reflexivity|intros s n E; discriminate]. Qed.
  Lemma merge_grows (s : import) i o : grows (i_tags s) (merge eqp s i o).
  Proof.
    unfold merge. apply grows_deref. intros ei _. apply grows_deref. intros eo _. set (s1 := set_tags _ s).
    assert (G : forall g n m, incl (edge_tags (i_tags s) n) (edge_tags (i_tags (set_graph g (set_mem m s1))) n)) by (intros; apply merge_edge_tags_grow).
    assert (Q : exists a m, next_answer s1 = (a, set_mem m s1)).
    { unfold next_answer. destruct (i_mem s1) as [|a m] eqn:Em; [exists Fine, []; rewrite <- Em; destruct s1; reflexivity|exists a, m; reflexivity]. }
    destruct Q as (a & m & ->).
    assert (G0 : forall n, incl (edge_tags (i_tags s) n) (edge_tags (i_tags (set_mem m s1)) n)) by (intros; apply merge_edge_tags_grow).
    assert (B : grows (i_tags s) (bindO (merge_road eqp (e_data ei) (e_data eo)) (fun _ => set_mem m s1) (fun new =>
      bindO (remove_edge Bidirectional false (i_graph (set_mem m s1)) i) (fun g => set_graph g (set_mem m s1)) (fun g1 =>
      bindO (remove_edge Bidirectional false g1 o) (fun g => set_graph g (set_mem m s1)) (fun g2 =>
      bindO (add_edge Bidirectional g2 (e_src ei) (e_tgt eo) new (match a with NoEdge => Bad 0 | _ => Good end) Good Good)
            (fun p => set_graph (fst p) (set_mem m s1)) (fun p =>
      let g3 := fst p in
      derefO (degree g3 (e_tgt ei)) (fun d =>
      if d =? 0 then bindO (remove_vertex g3 (e_tgt ei)) (fun g => set_graph g (set_mem m s1)) (fun g4 => Ok (set_graph g4 (set_mem m s1)))
      else Ok (set_graph g3 (set_mem m s1))))))))).
    { repeat (apply grows_bind; [intros; first [apply G0|apply G]|intros ? _]). cbn zeta. apply grows_deref. intros d _.
      destruct (d =? 0); [apply grows_bind; [intros; apply G|intros g4 _]|]; intros s' n E; injection E as <-; apply G. }
    destruct a; [exact B| |exact B]. intros s' n E. injection E as <-. apply G0.
  Qed.
  Lemma merge_all_grows l : forall s : import, grows (i_tags s) (merge_all eqp s l).
  Proof.
    induction l as [|[i o] l IH]; intros s; cbn [merge_all]; [intros s' n E; injection E as <-; apply incl_refl|].
    pose proof (merge_grows s i o) as G. apply grows_bind; [intros a E n; apply G; rewrite E; reflexivity|].
    intros a E s' n E'. eapply incl_tran; [apply (G a n); rewrite E; reflexivity|apply (IH a s' n E')].
  Qed.
  Lemma loop_grows complete vs : forall was (s : import), grows (i_tags s) (simplify_loop eqp complete was vs s).
  Proof.
    induction vs as [|v vs IH]; intros was s; cbn [simplify_loop]; [intros s' n E; injection E as <-; apply incl_refl|].
    apply grows_deref. intros x _. destruct (was && i_set s && negb (v_index x =? i_vertex s)); [apply IH|]. cbn zeta.
    apply grows_bind; [intros; apply incl_refl|]. intros b _. destruct b; [|apply IH].
    apply grows_bind; [intros; apply incl_refl|]. intros ms _. destruct ms as [|m ms]; [apply IH|].
    pose proof (merge_all_grows (m :: ms) (mark (i_running s) true (v_index x) s)) as G.
    apply grows_bind; [intros a E n; apply (G a n); rewrite E; reflexivity|].
    intros a E s' n E'. eapply incl_tran; [apply (G a n); rewrite E; reflexivity|apply (IH _ a s' n E')].
  Qed.
  (** Nothing is ever taken from a way, whatever the network, whatever is out of memory, and however the pass ends. *)
  Theorem C97_kept complete (s s' : import) n : simplify eqp complete s = Ok s' \/ simplify eqp complete s = Throw s' ->
    incl (edge_tags (i_tags s) n) (edge_tags (i_tags s') n).
  Proof.
    assert (G : grows (i_tags s) (simplify eqp complete s)).
    { unfold simplify. pose proof (loop_grows complete (map v_id (g_vs (i_graph s))) (i_running s) (mark true (i_set s) (i_vertex s) s)) as G.
      apply grows_bind; [intros a E k; apply (G a k); rewrite E; reflexivity|]. intros a E s2 k E2. injection E2 as <-. apply (G a k). rewrite E. reflexivity. }
    intros [E|E]; apply (G s' n); rewrite E; reflexivity.
  Qed.

  (** Ways no road of which leads into another way at a place where at most two directions meet keep exactly their tags. *)
  Theorem C97_alone complete (s s' : import) n : exact Bidirectional (i_graph s) -> drawn (i_graph s) -> i_running s = false -> i_mem s = [] ->
    simplify eqp complete s = Ok s' ->
    (forall f h, In f (g_es (i_graph s)) -> In h (g_es (i_graph s)) -> id_of f = n -> e_tgt f = e_src h -> two_directions eqp (i_graph s) (e_tgt f) -> id_of h = n) ->
    forall k, In k (edge_tags (i_tags s') n) <-> In k (edge_tags (i_tags s) n).
  Proof.
    intros H D Er Em E A k. split; [|apply (C97_kept complete); auto]. intros Hk.
    destruct (C97_from complete s s' H D Er Em E) as (J & c & T & _ & F & _). destruct (F n k Hk) as (m & L & Hm).
    assert (Q : m = n); [|subst m; exact Hm]. clear Hk Hm. induction L as [m|f h m Hf Hh Eq Hj L IH]; [reflexivity|].
    assert (En : id_of h = id_of f) by (apply (A f h); auto). rewrite En in IH. apply IH. exact A.
  Qed.
End C97.

(** *** Examples *)
(** way 7 from 0 to 1, continued both ways by way 8 to 2; way 7 also has a road from 3 to 4 elsewhere, and way 9 one from 4 to 3 *)
Definition far : list (op (node nat) (road nat)) :=
  [AddVertex (nd 0) Good; AddVertex (nd 1) Good; AddVertex (nd 2) Good; AddVertex (nd 3) Good; AddVertex (nd 4) Good;
   AddEdge 0 1 (rd 7 [0; 10]) Good Good Good; AddEdge 1 0 (rd 7 [10; 0]) Good Good Good;
   AddEdge 1 2 (rd 8 [10; 20]) Good Good Good; AddEdge 2 1 (rd 8 [20; 10]) Good Good Good;
   AddEdge 3 4 (rd 7 [30; 40]) Good Good Good; AddEdge 4 3 (rd 9 [40; 30]) Good Good Good].
Definition far_s : import nat string :=
  mkImp (make far) (set_edge_tags 7 [1; 2] (set_edge_tags 8 [2; 3] (set_edge_tags 9 [4] empty_tags))) false false 0 [].
Example far_case : exact Bidirectional (i_graph far_s) /\ drawn (i_graph far_s) /\ i_running far_s = false /\ i_mem far_s = [].
Proof.
  split; [apply make_exact; vm_compute; repeat split; auto 20|]. split; [|split; reflexivity].
  apply drawnb_ok. vm_compute. reflexivity.
Qed.
Definition after (o : outcome (import nat string)) : list (nat * nat * nat * list nat) :=
  match o with Ok s | Throw s => map (fun e => (e_src e, e_tgt e, id_of e, edge_tags (i_tags s) (id_of e))) (g_es (i_graph s)) | _ => [] end.
Example C97_case : after (simplify Nat.eqb true far_s) = [(3, 4, 7, [1; 2; 3]); (4, 3, 9, [4]); (0, 2, 7, [1; 2; 3]); (2, 0, 8, [2; 3; 1])].
Proof. vm_compute. reflexivity. Qed.
Example C97_case_osm : after (simplify Nat.eqb false far_s) = after (Ok far_s).
Proof. vm_compute. reflexivity. Qed.
(** way 8 leads into way 7, which ends there: the joined road is of way 8, way 7 keeps its tags *)
Definition lone_s : import nat string :=
  mkImp (make [AddVertex (nd 0) Good; AddVertex (nd 1) Good; AddVertex (nd 2) Good;
               AddEdge 2 0 (rd 8 [20; 0]) Good Good Good; AddEdge 0 1 (rd 7 [0; 10]) Good Good Good])
        (set_edge_tags 7 [1; 2] (set_edge_tags 8 [2; 3] empty_tags)) false false 0 [].
Example C97_alone_case : exact Bidirectional (i_graph lone_s) /\ drawn (i_graph lone_s) /\ after (simplify Nat.eqb true lone_s) = [(2, 1, 8, [2; 3; 1])] /\
  forall f h, In f (g_es (i_graph lone_s)) -> In h (g_es (i_graph lone_s)) -> id_of f = 7 -> e_tgt f = e_src h -> id_of h = 7.
Proof.
  split; [apply make_exact; vm_compute; repeat split; auto 20|]. split; [apply drawnb_ok; vm_compute; reflexivity|]. split; [vm_compute; reflexivity|].
  intros f h Hf Hh. vm_compute in Hf, Hh. destruct Hf as [<-|[<-|[]]]; destruct Hh as [<-|[<-|[]]]; cbn; congruence.
Qed.

(** *** What does not hold *)
(** A road that is joined with no other keeps its tags: no, tags belong to ways, and another road of its way, elsewhere, may have been joined with a
    road of another way. *)
Theorem C97_other_roads_refuted : exists (s s' : import nat string) e k,
  exact Bidirectional (i_graph s) /\ drawn (i_graph s) /\ i_running s = false /\ i_mem s = [] /\ simplify Nat.eqb true s = Ok s' /\
  (exists x, In x (g_es (i_graph s)) /\ e_id x = e_id e /\ e_src x = e_src e /\ e_tgt x = e_tgt e /\ e_data x = e_data e) /\ In e (g_es (i_graph s')) /\
  In k (edge_tags (i_tags s') (id_of e)) /\ ~ In k (edge_tags (i_tags s) (id_of e)).
Proof.
  exists far_s. destruct far_case as (H & D & A & B). eexists.
  exists (mkE 9 0 3 4 (rd 7 [30; 40])), 3. split; [exact H|]. split; [exact D|]. split; [exact A|]. split; [exact B|]. split; [vm_compute; reflexivity|]. split.
  - exists (mkE 9 4 3 4 (rd 7 [30; 40])). split; [vm_compute; auto 20|]. auto.
  - split; [vm_compute; auto|]. split; [vm_compute; auto|]. vm_compute. intros [Q|[Q|[]]]; discriminate.
Qed.

(** The two directions of a road keep the same number: no, every joined road gets the number of the road it begins with. *)
Definition both_s : import nat string := fresh_import (firstn 3 far ++ firstn 4 (skipn 5 far)) [].
Lemma both_edges : g_es (i_graph both_s) = ltac:(let x := eval vm_compute in (g_es (i_graph both_s)) in exact x).
Proof. vm_compute. reflexivity. Qed.
Theorem C97_number_refuted : exists (s s' : import nat string), exact Bidirectional (i_graph s) /\ drawn (i_graph s) /\ i_running s = false /\ i_mem s = [] /\
  simplify Nat.eqb true s = Ok s' /\
  (forall e f, In e (g_es (i_graph s)) -> In f (g_es (i_graph s)) -> line_of f = rev (line_of e) -> id_of f = id_of e) /\
  exists e f, In e (g_es (i_graph s')) /\ In f (g_es (i_graph s')) /\ line_of f = rev (line_of e) /\ id_of f <> id_of e.
Proof.
  exists both_s. eexists. split; [apply make_exact; vm_compute; repeat split; auto 20|].
  split; [apply drawnb_ok; vm_compute; reflexivity|]. split; [reflexivity|]. split; [reflexivity|]. split; [vm_compute; reflexivity|]. split.
  - intros e f He Hf. rewrite both_edges in He, Hf. destruct He as [<-|[<-|[<-|[<-|[]]]]]; destruct Hf as [<-|[<-|[<-|[<-|[]]]]]; cbn; intros Q; first [reflexivity|discriminate].
  - exists (mkE 7 0 0 2 (rd 7 [0; 10; 20])), (mkE 8 1 2 0 (rd 8 [20; 10; 0])). split; [vm_compute; auto|]. split; [vm_compute; auto|]. split; [reflexivity|]. discriminate.
Qed.

Print Assumptions C97_from. Print Assumptions C97_memory. Print Assumptions C97_kept. Print Assumptions C97_alone. Print Assumptions C97_other_roads_refuted.
Print Assumptions C97_number_refuted.
