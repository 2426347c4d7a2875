(** Properties C29 and C30: the OpenStreetMap importer. *)
From Coq Require Import Ascii String.
From Verif Require Import Base ListAux AdjList AdjListSpec AdjListProofs AdjListProofs2 AdjListProofs3
  GraphHelper GraphHelperProofs Osm OsmProofs OsmFilter.
Local Open Scope nat_scope.
Local Open Scope list_scope.

Section C30.
  Context {P : Type}.
  Variable sort : list (osm_vertex P) -> list (osm_vertex P).

  (** a history of calls to the node table; [ok1 ok2]: memory suffices in the first / second attempt *)
  Inductive table_op :=
  | Seen (mmap visible : bool) (id : nat) (p : P) (ok1 ok2 : bool)
  | Contains (id : nat)
  | Get (id : nat).
  Inductive table_answer := ADone | AFailed | AContains (b : bool) | AFound (id : nat) (p : P) | AOutOfRange.

  Definition table_call (s : osm P) (o : table_op) : option (osm P * table_answer) :=
    match o with
    | Seen mmap v id p ok1 ok2 =>
      match node sort mmap v id p ok1 ok2 s with Ok s1 => Some (s1, ADone) | Throw s1 => Some (s1, AFailed) | _ => None end
    | Contains id => match contains_node sort id s with Ok (s1, b) => Some (s1, AContains b) | _ => None end
    | Get id => match get_node sort id s with
                | Ok (s1, Some k) => match nth_error (o_vs s1) k with Some x => Some (s1, AFound (ov_id x) (ov_point x)) | None => None end
                | Throw (s1, _) => Some (s1, AOutOfRange)
                | _ => None
                end
    end.
  Fixpoint table_calls (s : osm P) (os : list table_op) : option (list table_answer) :=
    match os with
    | [] => Some []
    | o :: r => match table_call s o with
                | None => None
                | Some (s1, a) => option_map (cons a) (table_calls s1 r)
                end
    end.

  (** the abstract table: for every id the point of its first stored addition *)
  Definition first_wins (m : nat -> option P) (id : nat) (p : P) : nat -> option P :=
    fun n => if n =? id then match m id with None => Some p | Some q => Some q end else m n.
  Fixpoint expected (m : nat -> option P) (os : list table_op) : list table_answer :=
    match os with
    | [] => []
    | Seen mmap v id p ok1 ok2 :: r =>
      if negb v then ADone :: expected m r
      else match m id with
           | Some _ => ADone :: expected m r
           | None => if ok1 || (mmap && ok2) then ADone :: expected (first_wins m id p) r else AFailed :: expected m r
           end
    | Contains id :: r => AContains (match m id with Some _ => true | None => false end) :: expected m r
    | Get id :: r => match m id with Some p => AFound id p | None => AOutOfRange end :: expected m r
    end.

  (** C30: for every history, whatever the order of ids and wherever memory runs out, lookups answer exactly as the
      abstract table: a node is found iff it was stored before, with the data of its first addition. *)
  Theorem C30_lookup_history (os : list table_op) :
    sorts sort -> table_calls empty_osm os = Some (expected (fun _ => None) os).
  Proof.
    intros Hs.
    assert (K : forall (os : list table_op) s known m, table s known -> (forall n, m n = lookup known n) ->
                table_calls s os = Some (expected m os)).
    { clear os. induction os as [|o os IH]; intros s known m H M; [reflexivity|].
      destruct o as [mmap v id p ok1 ok2|id|id]; cbn [table_calls table_call expected].
      - destruct (node_spec sort Hs mmap v id p ok1 ok2 s known H) as (s1 & T1 & _ & E).
        destruct v; cbn [negb].
        2: { destruct E as [E|[E _]]; [|unfold node in E; discriminate].
             rewrite E. rewrite (IH s1 known m T1 M). reflexivity. }
        rewrite (M id). destruct (lookup known id) as [q|] eqn:L.
        { destruct E as [E|[E _]].
          - rewrite E. rewrite (IH s1 known m T1 M). reflexivity.
          - exfalso. unfold node in E. destruct (contains_spec sort Hs s known id H) as (s2 & E2 & _).
            rewrite E2, L in E. discriminate. }
        assert (EE : node sort mmap true id p ok1 ok2 s = if ok1 || (mmap && ok2) then Ok s1 else Throw s1).
        { clear IH. revert E. unfold node. destruct (contains_spec sort Hs s known id H) as (s2 & E2 & _).
          rewrite E2, L. unfold add_node, add_node_once.
          destruct ok1; cbn [orb]; [intros [E|[E _]]; congruence|].
          destruct mmap; cbn [andb]; [|intros [E|[E _]]; congruence].
          destruct ok2; intros [E|[E _]]; congruence. }
        rewrite EE. destruct (ok1 || (mmap && ok2)).
        + rewrite (IH s1 _ (first_wins m id p) T1); [reflexivity|].
          intros n. unfold first_wins. rewrite lookup_app, (M id), L, (M n). cbn [lookup].
          destruct (Nat.eqb_spec n id) as [->|Ne].
          * rewrite L, Nat.eqb_refl. reflexivity.
          * destruct (Nat.eqb_spec id n); [congruence|]. destruct (lookup known n); reflexivity.
        + rewrite (IH s1 known m T1 M). reflexivity.
      - destruct (contains_spec sort Hs s known id H) as (s1 & E & T1 & _). rewrite E, (IH s1 known m T1 M), (M id). reflexivity.
      - destruct (get_spec sort Hs s known id H) as (s1 & T1 & _ & _ & _ & R). rewrite (M id).
        destruct (lookup known id) as [p|].
        + destruct R as (k & x & E & X & Ei & Ept). rewrite E, X, (IH s1 known m T1 M), Ei, Ept. reflexivity.
        + rewrite R, (IH s1 known m T1 M). reflexivity. }
    apply (K os empty_osm []); [|reflexivity].
    constructor; cbn; [constructor|constructor|]. intros _ i j x y _ Hx. destruct i; discriminate.
  Qed.
End C30.
Arguments table_op P : clear implicits.

(** an implementation of the sorting contract *)
Fixpoint insert {P} (x : osm_vertex P) (l : list (osm_vertex P)) : list (osm_vertex P) :=
  match l with
  | [] => [x]
  | y :: r => if ov_id x <=? ov_id y then x :: l else y :: insert x r
  end.
Definition isort {P} (l : list (osm_vertex P)) : list (osm_vertex P) := fold_right insert [] l.
Lemma insert_perm {P} (x : osm_vertex P) l : Permutation (x :: l) (insert x l).
Proof.
  induction l as [|y r IH]; cbn; [constructor; constructor|]. destruct (ov_id x <=? ov_id y); [reflexivity|].
  rewrite perm_swap. constructor. exact IH.
Qed.
Lemma ordered_cons {P} (x : osm_vertex P) l : ordered (x :: l) <-> (forall y, In y l -> ov_id x <= ov_id y) /\ ordered l.
Proof.
  split.
  - intros O. split.
    + intros y Hy. apply In_nth_error in Hy as [j Hj]. apply (O 0 (S j) x y); [lia|reflexivity|exact Hj].
    + intros i j a b L A B. apply (O (S i) (S j) a b); [lia|exact A|exact B].
  - intros [A O] i j a b L Ha Hb. destruct j as [|j]; [lia|]. destruct i as [|i]; cbn in Ha, Hb.
    + injection Ha as <-. apply A. eapply nth_error_In; exact Hb.
    + apply (O i j a b); [lia|exact Ha|exact Hb].
Qed.
Lemma insert_ordered {P} (x : osm_vertex P) l : ordered l -> ordered (insert x l).
Proof.
  induction l as [|y r IH]; intros O; cbn.
  - apply ordered_cons. split; [intros ? []|exact O].
  - destruct (Nat.leb_spec (ov_id x) (ov_id y)) as [Le|Gt].
    + apply ordered_cons. split; [|exact O]. apply ordered_cons in O as [A _].
      intros z [<-|Hz]; [exact Le|]. specialize (A z Hz). lia.
    + apply ordered_cons in O as [A O]. apply ordered_cons. split; [|apply IH; exact O].
      intros z Hz. apply (Permutation_in _ (Permutation_sym (insert_perm x r))) in Hz as [<-|Hz]; [lia|apply A; exact Hz].
Qed.
Example isort_sorts {P} : sorts (@isort P).
Proof.
  intros l. induction l as [|x l [Hp Ho]]; cbn [isort fold_right].
  - split; [constructor|]. intros i j a b _ Ha. destruct i; discriminate.
  - split; [|apply insert_ordered; exact Ho]. rewrite <- insert_perm. constructor. exact Hp.
Qed.

Example C30_demo :
  table_calls isort (@empty_osm nat)
    [Seen true true 7 70 true true; Seen true true 3 30 true true; Get 7; Seen true true 7 71 true true; Seen true true 5 50 false true;
     Seen true true 9 90 false false; Contains 9; Get 7; Get 5; Contains 3; Get 4]
  = Some [ADone; ADone; AFound 7 70; ADone; ADone; AFailed; AContains false; AFound 7 70; AFound 5 50; AContains true; AOutOfRange].
Proof. vm_compute. reflexivity. Qed.

Section C29.
  Context {P T : Type}.
  Variable sort : list (osm_vertex P) -> list (osm_vertex P).
  Variables query filter_ oneway oneway_reverse : T -> bool.
  Variable dir : direction.

  (** C29: after handling any sequence of nodes and ways (no kept way being empty) the graph contains, in this order:
      one vertex for every known node met on a kept way, at its first meeting, and for every consecutive pair of
      known nodes of every kept way the drivable edges, carrying the way id and the two points. *)
  Theorem C29_import (xs : list (entity P T)) :
    sorts sort -> ways_nonempty query filter_ xs ->
    exists s h, import sort query filter_ oneway oneway_reverse dir xs = Ok (s, h) /\ exact dir (h_graph h) /\
      let '(known, vs, es) := world_of query filter_ oneway oneway_reverse xs in
      map v_data (g_vs (h_graph h)) = vs /\ Forall2 (is_link (h_graph h)) (g_es (h_graph h)) es.
  Proof.
    intros Hs W.
    destruct (handles_spec sort Hs query filter_ oneway oneway_reverse dir xs empty_osm empty_helper [] [] [] (inv_empty dir) W)
      as (s & h & E & I).
    exists s, h. split; [exact E|]. unfold world_of.
    destruct (fold_left (world_step query filter_ oneway oneway_reverse) xs ([], [], [])) as [[known vs] es].
    destruct I as [It Il Ig (rs & Hh & Hr) Ii In_]. split; [apply Ig|].
    split; [apply Hh|]. exact (holds_links dir h vs rs es Ig Hh Hr).
  Qed.

  (** a vertex is a known node on a kept way, each exactly once *)
  Theorem C29_vertices_exactly_once (xs : list (entity P T)) :
    let '(known, vs, es) := world_of query filter_ oneway oneway_reverse xs in
    NoDup (map fst vs) /\ incl vs known /\ NoDup (map fst known) /\
    (forall id p, In (id, p) known -> In (Node true id p) xs) /\
    (forall v w ns ts n p xs1 xs2, xs = xs1 ++ Way v w ns ts :: xs2 -> v && kept query filter_ ts = true -> In n ns ->
       In (Node true n p) xs1 -> exists q, In (n, q) vs).
  Proof.
    unfold world_of.
    set (step := world_step query filter_ oneway oneway_reverse).
    assert (KI : forall known id (p : P), NoDup (map fst known) -> NoDup (map fst (know known id p)) /\ incl known (know known id p)
                 /\ (forall q, In q (know known id p) -> In q known \/ q = (id, p)) /\ exists q, In (id, q) (know known id p)).
    { intros known id p N. unfold know. destruct (lookup known id) as [q|] eqn:L.
      - split; [exact N|]. split; [apply incl_refl|]. split; [auto|]. exists q. apply lookup_in'; exact L.
      - split; [rewrite map_app; cbn; apply NoDup_app'; [exact N|constructor; [intros []|constructor]|]|].
        { intros x Hx [<-|[]]. apply lookup_None in L. contradiction. }
        split; [intros q Hq; apply in_app_iff; auto|]. split.
        + intros q Hq. apply in_app_iff in Hq as [Hq|[<-|[]]]; auto.
        + exists p. apply in_app_iff; right; left; reflexivity. }
    assert (MI : forall (known : list (nat * P)) ns vs, NoDup (map fst known) -> NoDup (map fst vs) -> incl vs known ->
                 NoDup (map fst (fold_left (meet known) ns vs)) /\ incl (fold_left (meet known) ns vs) known).
    { intros known ns. induction ns as [|n ns IH]; intros vs Nk Nv Hi; cbn; [auto|].
      apply IH; auto; unfold meet; destruct (lookup known n) as [p|] eqn:L; auto.
      - apply KI; exact Nv.
      - intros q Hq. destruct (KI vs n p Nv) as (_ & _ & K & _). apply K in Hq as [Hq| ->]; [auto|apply lookup_in'; exact L]. }
    assert (Inv : forall xs known vs es, NoDup (map fst known) -> NoDup (map fst vs) -> incl vs known ->
              let '(known1, vs1, es1) := fold_left step xs (known, vs, es) in
              NoDup (map fst vs1) /\ incl vs1 known1 /\ NoDup (map fst known1) /\ incl known known1 /\ incl vs vs1 /\
              (forall id p, In (id, p) known1 -> In (id, p) known \/ In (Node true id p) xs) /\
              (forall id p, In (Node true id p) xs -> exists q, In (id, q) known1)).
    { clear xs. induction xs as [|x xs IH]; intros known vs es Nk Nv Hi; cbn [fold_left].
      { repeat split; auto using incl_refl. intros id p []. }
      destruct (step (known, vs, es) x) as [[known1 vs1] es1] eqn:S.
      assert (A : NoDup (map fst known1) /\ NoDup (map fst vs1) /\ incl vs1 known1 /\ incl known known1 /\ incl vs vs1 /\
                  (forall id p, In (id, p) known1 -> In (id, p) known \/ x = Node true id p) /\
                  (forall id p, x = Node true id p -> exists q, In (id, q) known1)).
      { destruct x as [v id p|v w ns ts]; cbn in S.
        - injection S as <- <- <-. destruct v.
          + destruct (KI known id p Nk) as (K1 & K2 & K3 & K4). repeat split; auto using incl_refl.
            * intros q Hq. apply K2, Hi, Hq.
            * intros id' p' H. apply K3 in H as [H|[= -> ->]]; auto.
            * intros id' p' [= <- <-]. exact K4.
          + repeat split; auto using incl_refl. discriminate.
        - destruct (v && kept query filter_ ts).
          + injection S as <- <- <-. destruct (MI known ns vs Nk Nv Hi) as [M1 M2].
            repeat split; auto using incl_refl, meets_incl. discriminate.
          + injection S as <- <- <-. repeat split; auto using incl_refl. discriminate. }
      destruct A as (A1 & A2 & A3 & A4 & A5 & A6 & A7). specialize (IH known1 vs1 es1 A1 A2 A3).
      destruct (fold_left step xs (known1, vs1, es1)) as [[known2 vs2] es2].
      destruct IH as (B1 & B2 & B3 & B4 & B5 & B6 & B7).
      repeat split; auto; try (eapply incl_tran; eassumption).
      - intros id p H. apply B6 in H as [H|H]; [|right; right; exact H]. apply A6 in H as [H| ->]; [auto|right; left; reflexivity].
      - intros id p [->|H]; [|eauto]. destruct (A7 id p eq_refl) as [q Hq]. exists q. apply B4, Hq. }
    destruct (fold_left step xs ([], [], [])) as [[known vs] es] eqn:F.
    pose proof (Inv xs [] [] [] (NoDup_nil _) (NoDup_nil _) (incl_refl _)) as I. rewrite F in I.
    destruct I as (B1 & B2 & B3 & _ & _ & B6 & _).
    split; [exact B1|]. split; [exact B2|]. split; [exact B3|].
    split. { intros id p H. apply B6 in H as [[]|H]; exact H. }
    intros v w ns ts n p xs1 xs2 -> K Hn Hp.
    rewrite fold_left_app in F; cbn [fold_left] in F.
    pose proof (Inv xs1 [] [] [] (NoDup_nil _) (NoDup_nil _) (incl_refl _)) as I1.
    destruct (fold_left step xs1 ([], [], [])) as [[known1 vs1] es1]. destruct I1 as (C1 & C2 & C3 & _ & _ & _ & C7).
    destruct (C7 n p Hp) as [q Hq]. unfold step at 2 in F. cbn [world_step] in F. rewrite K in F.
    destruct (MI known1 ns vs1 C3 C1 C2) as [M1 M2].
    pose proof (Inv xs2 known1 (fold_left (meet known1) ns vs1)
                  (es1 ++ flat_map (links_of w (existsb oneway ts) (existsb oneway_reverse ts) known1) (steps_of ns)) C3 M1 M2) as I2.
    rewrite F in I2. destruct I2 as (_ & _ & _ & _ & D5 & _). exists q. apply D5.
    apply meets_has; auto. apply lookup_In; assumption.
  Qed.

  (** the roads of one way, read directly: an edge from [a] to [b] is created for the [i]-th pair exactly if both
      nodes are known and the classification allows that direction *)
  Theorem C29_links (w : nat) (ow rv : bool) (known : list (nat * P)) (ns : list nat) (l : link P) :
    In l (flat_map (links_of w ow rv known) (steps_of ns)) <->
    exists i a b pa pb, nth_error ns i = Some a /\ nth_error ns (S i) = Some b /\
      lookup known a = Some pa /\ lookup known b = Some pb /\
      ((~ (ow = true /\ rv = true) /\ l = ((a, pa), (b, pb), (w, (pa, pb)))) \/
       (~ (ow = true /\ rv = false) /\ l = ((b, pb), (a, pa), (w, (pb, pa))))).
  Proof.
    assert (S : forall ns a b, In (a, b) (steps_of ns) <-> exists i, nth_error ns i = Some a /\ nth_error ns (S i) = Some b).
    { clear ns. intros ns a b. unfold steps_of. induction ns as [|n ns IH]; cbn [tl combine].
      - split; [intros []|intros ([|i] & H & _); discriminate].
      - destruct ns as [|m ns]; cbn [combine].
        + split; [intros []|]. intros ([|i] & H1 & H2); cbn in *; [discriminate|destruct i; discriminate].
        + cbn [tl] in IH. cbn [In]. rewrite IH. split.
          * intros [[= -> ->]|(i & H1 & H2)]; [exists 0; auto|exists (S i); auto].
          * intros ([|i] & H1 & H2); [left; cbn in *; congruence|right; exists i; auto]. }
    rewrite in_flat_map. split.
    - intros ([a b] & H & Hl). apply S in H as (i & Ha & Hb). unfold links_of in Hl; cbn [fst snd] in Hl.
      destruct (lookup known a) as [pa|] eqn:La; [|destruct Hl]. destruct (lookup known b) as [pb|] eqn:Lb; [|destruct Hl].
      exists i, a, b, pa, pb. repeat (split; [assumption|]).
      destruct ow, rv; cbn in Hl; intuition (subst; auto; try (left; split; [intros [? ?]; discriminate|reflexivity]);
                                             try (right; split; [intros [? ?]; discriminate|reflexivity])).
    - intros (i & a & b & pa & pb & Ha & Hb & La & Lb & Hl). exists (a, b). split; [apply S; exists i; auto|].
      unfold links_of; cbn [fst snd]. rewrite La, Lb.
      destruct Hl as [[N ->]|[N ->]]; destruct ow, rv; cbn; auto; exfalso; apply N; auto.
  Qed.
End C29.

(** a way over known nodes 1, 2, 3, an unknown node 4, back over 2; node 3 is announced twice; a second way, one-way *)
Definition demo_entities : list (entity nat nat) :=
  [Node true 3 30; Node true 1 10; Node true 2 20; Node true 3 31; Node false 4 40;
   Way true 100 [1; 2; 4; 3; 2] [0]; Way true 200 [3; 1] [0; 1]; Way true 300 [3; 1] [5]].
Example C29_demo :
  world_of (fun t => t =? 0) (fun _ => true) (fun t => t =? 1) (fun t => t =? 2) demo_entities =
  ([(3, 30); (1, 10); (2, 20)], [(1, 10); (2, 20); (3, 30)],
   [((1, 10), (2, 20), (100, (10, 20))); ((2, 20), (1, 10), (100, (20, 10)));
    ((3, 30), (2, 20), (100, (30, 20))); ((2, 20), (3, 30), (100, (20, 30)));
    ((3, 30), (1, 10), (200, (30, 10)))]) /\
  ways_nonempty (fun t => t =? 0) (fun _ => true) demo_entities.
Proof.
  split; [vm_compute; reflexivity|]. intros v w ts H.
  repeat (destruct H as [H|H]; [discriminate H|]). destruct H.
Qed.

(** *** Refuted *)
Definition tag := (str * str)%type.
Definition mktag (k v : string) : tag := (of_string k, of_string v).

(** With the importer's default filters a way tagged oneway = -1 (or reverse) gets edges in both directions: the
    reverse filter is only read for ways that the one-way filter already matched, and that filter has no rule for
    these values.  So "an edge is created only in a permitted direction" is false of the default set-up. *)
Theorem C29_reversed_oneway_refuted :
  exists (xs : list (entity nat tag)) s h ts,
    In (Way true 100 [1; 2] ts) xs /\ In (mktag "oneway" "-1") ts /\
    import isort (apply_filter default_query) (apply_filter default_filter) (apply_filter default_oneway)
      (apply_filter default_oneway_reverse) Bidirectional xs = Ok (s, h) /\
    List.length (g_es (h_graph h)) = 2.
Proof.
  exists [Node true 1 10; Node true 2 20; Way true 100 [1; 2] [mktag "highway" "residential"; mktag "oneway" "-1"]].
  eexists; eexists; exists [mktag "highway" "residential"; mktag "oneway" "-1"].
  split; [right; right; left; reflexivity|]. split; [right; left; reflexivity|]. vm_compute. split; reflexivity.
Qed.

(** A kept way without nodes runs into undefined behaviour (the loop bound wraps around). *)
Theorem C29_empty_way_refuted :
  exists (xs : list (entity nat tag)),
    import isort (apply_filter default_query) (apply_filter default_filter) (apply_filter default_oneway)
      (apply_filter default_oneway_reverse) Bidirectional xs = UB.
Proof. exists [Way true 100 [] [mktag "highway" "residential"]]. vm_compute. reflexivity. Qed.

Print Assumptions C30_lookup_history.
Print Assumptions C29_import.
Print Assumptions C29_vertices_exactly_once.
Print Assumptions C29_links.
Print Assumptions C29_reversed_oneway_refuted.
Print Assumptions C29_empty_way_refuted.
