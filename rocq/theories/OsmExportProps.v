(** Property C69: writing the network as an OpenStreetMap file and reading the file again. *)
From Coq Require Import Ascii String Permutation.
From Verif Require Import Base ListAux AdjList AdjListSpec GraphHelper Osm OsmProofs OsmProps OsmFilter Convert OsmExport OsmExportProofs.
Local Open Scope nat_scope.
Local Open Scope list_scope.

Section C69.
  Context {P K L : Type}.
  Variable eqp : P -> P -> bool.
  Variable reproject : P -> K.
  Variable keqb : K -> K -> bool.
  Variable loc : K -> L.
  Variable order : list (K * nat) -> list (K * nat).
  Hypothesis eqp_eq : forall p q, eqp p q = true <-> p = q.
  Hypothesis keqb_eq : forall a b, keqb a b = true <-> a = b.
  Hypothesis order_perm : forall m, Permutation m (order m).
  Notation tag := (str * str)%type.

  (** the out-edges of a vertex are the edges that start there *)
  Definition outs_ok (n : net P) : Prop :=
    forall v j, In j (n_out n v) <-> exists r, nth_error (n_roads n) j = Some r /\ r_source r = v.
  (** [b] leads back along [a] *)
  Definition opposite (n : net P) (a b : road P) : Prop :=
    In a (n_roads n) /\ In b (n_roads n) /\ r_source b = r_target a /\ r_line b = rev (r_line a).
  (** every vertex is a point of some edge *)
  Definition no_lonely (n : net P) : Prop :=
    forall p, In p (n_points n) -> exists r q, In r (n_roads n) /\ In q (r_line r) /\ reproject q = reproject p.

  (** the place of a written way: the locations of its nodes in the file *)
  Definition drawn (xs : list (entity L tag)) (ns : list nat) (ls : list L) : Prop :=
    Forall2 (fun i l => In (Node true i l) xs) ns ls.

  Lemma known_key (n : net P) : let m := fst (index_points reproject keqb (n_roads n)) in
    forall r p, In r (n_roads n) -> In p (r_line r) -> find_point keqb m (reproject p) <> None.
  Proof.
    intros m r p Hr Hp H. destruct (index_points_spec reproject keqb loc keqb_eq (n_roads n)) as (_ & _ & C).
    apply (find_none keqb loc keqb_eq) in H. apply H. apply C. exists r, p. auto.
  Qed.

  Lemma export_spec n : outs_ok n -> no_lonely n -> (forall r, In r (n_roads n) -> r_line r <> []) ->
    let m := fst (index_points reproject keqb (n_roads n)) in
    exists nodes ways chosen, export eqp reproject keqb loc order n = Ok (nodes ++ ways) /\ all_nodes keqb loc m nodes /\
      Forall2 (way_for reproject keqb n m) chosen ways /\ map way_id ways = seq (length m) (length ways) /\
      (forall e, e < length (n_roads n) -> covered n chosen e).
  Proof.
    intros Out Lone Ne m. pose proof (known_key n) as Known. cbn zeta in Known. fold m in Known.
    destruct (index_points_spec reproject keqb loc keqb_eq (n_roads n)) as ((Nd & Sq) & Len & Ks).
    unfold export. destruct (index_points reproject keqb (n_roads n)) as [m0 index] eqn:E0. cbn [fst snd] in *. subst m.
    assert (Vk : forall p, In p (n_points n) -> find_point keqb m0 (reproject p) <> None).
    { intros p Hp. destruct (Lone p Hp) as (r & q & Hr & Hq & <-). exact (Known r q Hr Hq). }
    destruct (add_nodes_spec reproject keqb loc m0 (n_points n) Vk [] []) as (nodes & -> & F). cbn [app].
    assert (Oj : forall r j, In r (n_roads n) -> In j (n_out n (r_target r)) -> nth_error (n_roads n) j <> None).
    { intros r j _ Hj. apply Out in Hj as (o & -> & _). discriminate. }
    destruct (add_ways_spec (L := L) eqp reproject keqb eqp_eq n m0 Ne Oj Known (n_roads n) [] [] index eq_refl)
      as (ways & chosen & Ew & A & B & C). cbn [length] in Ew. rewrite Ew.
    exists (nodes ++ add_rest keqb loc order m0 (map reproject (n_points n))), ways, chosen. rewrite <- app_assoc. split; [reflexivity|].
    split; [apply (nodes_rest reproject keqb loc order keqb_eq order_perm m0 (n_points n) nodes Nd F)|]. split; [exact A|].
    split; [rewrite B, Len; reflexivity|]. intros e He. destruct (C e) as [[]|X]; [cbn; lia|exact X].
  Qed.

  (** C69 (file): the file has exactly one location per node number and one node number per place; every way of the file belongs to an
      edge, drawn with its points in order, with its tags (without those of reversed one-ways) and marked one-way exactly if no
      edge leads back; every edge has such a way, or an edge it leads back along has one, not marked; ways are numbered without repetition. *)
  Theorem C69_file n : outs_ok n -> no_lonely n -> (forall r, In r (n_roads n) -> r_line r <> []) ->
    exists xs, export eqp reproject keqb loc order n = Ok xs /\
      (forall v i l l', In (Node v i l) xs -> In (Node v i l') xs -> l = l') /\
      (forall v w ns ts, In (Way v w ns ts) xs -> v = true /\ exists r, In r (n_roads n) /\
         drawn xs ns (map (fun p => loc (reproject p)) (r_line r)) /\
         forall t, In t ts <-> (In t (r_tags r) /\ ~ reverse_tag t) \/ ((forall b, ~ opposite n r b) /\ t = (oneway_key, yes))) /\
      (forall r, In r (n_roads n) -> exists r' w ns ts, In (Way true w ns ts) xs /\ In r' (n_roads n) /\ (r' = r \/ opposite n r' r) /\
         drawn xs ns (map (fun p => loc (reproject p)) (r_line r')) /\
         (forall t, In t ts <-> (In t (r_tags r') /\ ~ reverse_tag t) \/ ((forall b, ~ opposite n r' b) /\ t = (oneway_key, yes)))) /\
      NoDup (flat_map (fun x => match x with Way _ w _ _ => [w] | _ => [] end) xs).
  Proof.
    intros Out Lone Ne. destruct (export_spec n Out Lone Ne) as (nodes & ways & chosen & E & Ns & Ws & Ids & Cov).
    set (m := fst (index_points reproject keqb (n_roads n))) in *.
    destruct (index_points_spec reproject keqb loc keqb_eq (n_roads n)) as (Num & _ & _). fold m in Num.
    assert (NoN : forall v i l, In (Node v i l) ways -> False).
    { intros v i l H. destruct (Forall2_in_r _ _ _ Ws _ H) as (c & _ & r & w & ns & _ & X & _). discriminate. }
    assert (NoW : forall v w ns ts, In (Way v w ns ts) nodes -> False).
    { intros v w ns ts H. destruct (proj1 Ns _ H) as (k & i & _ & X). discriminate. }
    assert (Opp : forall r e, In r (n_roads n) -> (In e (n_out n (r_target r)) /\ backwards (n_roads n) (r_line r) e) ->
              exists b, nth_error (n_roads n) e = Some b /\ opposite n r b).
    { intros r e Hr (Ho & b & Hb & Lb). exists b. split; [exact Hb|]. apply Out in Ho as (b1 & Hb1 & Sb). rewrite Hb in Hb1. injection Hb1 as <-.
      split; [exact Hr|]. split; [exact (nth_error_In _ _ Hb)|]. split; [exact Sb|]. rewrite Lb, rev_involutive. reflexivity. }
    assert (Opp' : forall r b, opposite n r b -> exists e, In e (n_out n (r_target r)) /\ backwards (n_roads n) (r_line r) e).
    { intros r b (Hr & Hb & Sb & Lb). apply In_nth_error in Hb as [e He]. exists e. split; [apply Out; exists b; auto|].
      exists b. split; [exact He|]. rewrite Lb, rev_involutive. reflexivity. }
    assert (Dr : forall r ns, Forall2 (fun p i => find_point keqb m (reproject p) = Some i) (r_line r) ns ->
              drawn (nodes ++ ways) ns (map (fun p => loc (reproject p)) (r_line r))).
    { intros r ns F. unfold drawn. induction F as [|p i l ns H F IH]; cbn; constructor; [|exact IH]. apply in_or_app. left. apply Ns. exact H. }
    assert (One : forall r b, In r (n_roads n) -> (b = false <-> exists j, In j (n_out n (r_target r)) /\ backwards (n_roads n) (r_line r) j) ->
              (b = true <-> forall o, ~ opposite n r o)).
    { intros r b Hr Hb. split.
      - intros -> o Ho. apply Opp' in Ho. apply Hb in Ho. discriminate.
      - intros H. destruct b; [reflexivity|]. destruct (proj1 Hb eq_refl) as (j & Hj). destruct (Opp r j Hr Hj) as (o & _ & Ho). destruct (H o Ho). }
    exists (nodes ++ ways). split; [exact E|]. split; [|split; [|split]].
    - intros v i l l' H H'. apply in_app_or in H as [H|H]; [|destruct (NoN _ _ _ H)]. apply in_app_or in H' as [H'|H']; [|destruct (NoN _ _ _ H')].
      destruct (proj1 Ns _ H) as (k & j & F & X). injection X as -> -> ->. destruct (proj1 Ns _ H') as (k' & j' & F' & X). injection X as <- ->.
      rewrite (numbered_inj keqb keqb_eq m k k' j Num F F'). reflexivity.
    - intros v w ns ts H. apply in_app_or in H as [H|H]; [destruct (NoW _ _ _ _ H)|].
      destruct (Forall2_in_r _ _ _ Ws _ H) as ([e b] & _ & r & w1 & ns1 & Hr & X & F & Hb). cbn [fst snd] in *. injection X as -> -> -> ->.
      pose proof (nth_error_In _ _ Hr) as Ir. split; [reflexivity|]. exists r. split; [exact Ir|]. split; [apply Dr; exact F|].
      intros t. rewrite way_tags_spec, (One r b Ir Hb). reflexivity.
    - intros r Hr. apply In_nth_error in Hr as [e He].
      assert (Le : e < length (n_roads n)) by (apply nth_error_Some; congruence).
      assert (Go : forall f b r', In (f, b) chosen -> nth_error (n_roads n) f = Some r' -> (r' = r \/ opposite n r' r) ->
        exists r' w ns ts, In (Way true w ns ts) (nodes ++ ways) /\ In r' (n_roads n) /\ (r' = r \/ opposite n r' r) /\
         drawn (nodes ++ ways) ns (map (fun p => loc (reproject p)) (r_line r')) /\
         (forall t, In t ts <-> (In t (r_tags r') /\ ~ reverse_tag t) \/ ((forall b, ~ opposite n r' b) /\ t = (oneway_key, yes)))).
      { intros f b r' Hc Hf Hr. destruct (Forall2_in_l _ _ _ Ws _ Hc) as (x & Hx & r1 & w & ns & Hr1 & -> & F & Hb). cbn [fst snd] in *.
        rewrite Hf in Hr1. injection Hr1 as <-. pose proof (nth_error_In _ _ Hf) as Ir.
        exists r', w, ns, (way_tags (r_tags r') b). split; [apply in_or_app; right; exact Hx|]. split; [exact Ir|]. split; [exact Hr|].
        split; [apply Dr; exact F|]. intros t. rewrite way_tags_spec, (One r' b Ir Hb). reflexivity. }
      destruct (Cov e Le) as [[b Hc]|(f & r1 & Hc & Hf & Ho & Hb)].
      + apply (Go e b r Hc He). left. reflexivity.
      + apply (Go f false r1 Hc Hf). right. destruct (Opp r1 e (nth_error_In _ _ Hf) (conj Ho Hb)) as (o & Eo & Op).
        rewrite He in Eo. injection Eo as <-. exact Op.
    - assert (A : flat_map (fun x : entity L tag => match x with Way _ w _ _ => [w] | _ => [] end) nodes = []).
      { clear -NoW. induction nodes as [|x nodes IH]; [reflexivity|]. cbn. rewrite IH by (intros v w ns ts H; exact (NoW v w ns ts (or_intror H))).
        destruct x as [v i l|v w ns ts]; [reflexivity|]. destruct (NoW v w ns ts (or_introl eq_refl)). }
      assert (B : flat_map (fun x : entity L tag => match x with Way _ w _ _ => [w] | _ => [] end) ways = map way_id ways).
      { clear -NoN. induction ways as [|x ways IH]; [reflexivity|]. cbn. rewrite IH by (intros v w ns H; exact (NoN v w ns (or_intror H))).
        destruct x as [v i l|v w ns ts]; [|reflexivity]. destruct (NoN v i l (or_introl eq_refl)). }
      rewrite flat_map_app, A, B, Ids. apply seq_NoDup.
  Qed.

  Variables query filter_ oneway oneway_reverse : tag -> bool.
  Notation world_step := (world_step query filter_ oneway oneway_reverse).

  Lemma know_lookup (known : list (nat * L)) id p i l : lookup (know known id p) i = Some l <->
    lookup known i = Some l \/ (lookup known i = None /\ i = id /\ l = p).
  Proof.
    unfold know. destruct (lookup known id) as [q|] eqn:E.
    - split; [auto|]. intros [H|(H & -> & _)]; congruence.
    - assert (A : lookup (known ++ [(id, p)]) i = match lookup known i with Some q => Some q | None => if id =? i then Some p else None end).
      { clear E. induction known as [|[k q] known IH]; cbn; [reflexivity|]. destruct (k =? i); [reflexivity|exact IH]. }
      rewrite A. destruct (lookup known i) as [q|] eqn:F.
      + split; [auto|]. intros [H|(H & _)]; [exact H|discriminate].
      + destruct (Nat.eqb_spec id i) as [->|N].
        * split; [intros H; injection H as <-; auto|]. intros [H|(_ & _ & ->)]; [discriminate|reflexivity].
        * split; [discriminate|]. intros [H|(_ & -> & _)]; [discriminate|contradiction].
  Qed.

  Lemma world_nodes m nodes : numbered m -> all_nodes keqb loc m nodes ->
    exists known, fold_left world_step nodes ([], [], []) = (known, [], []) /\
      forall i l, lookup known i = Some l <-> exists k, find_point keqb m k = Some i /\ l = loc k.
  Proof.
    intros Num [A B].
    assert (G : forall xs known, (forall x, In x xs -> exists k i, find_point keqb m k = Some i /\ x = Node true i (loc k)) ->
      (forall i l, lookup known i = Some l -> exists k, find_point keqb m k = Some i /\ l = loc k) ->
      exists known1, fold_left world_step xs (known, [], []) = (known1, [], []) /\
        (forall i l, lookup known1 i = Some l -> exists k, find_point keqb m k = Some i /\ l = loc k) /\
        (forall i, lookup known i <> None -> lookup known1 i <> None) /\
        (forall i l, In (Node true i l) xs -> lookup known1 i <> None)).
    { induction xs as [|x xs IH]; intros known H I; cbn [fold_left].
      - exists known. split; [reflexivity|]. split; [exact I|]. split; [auto|]. intros i l [].
      - destruct (H x (or_introl eq_refl)) as (k & j & F & ->). cbn [OsmProofs.world_step].
        destruct (IH (know known j (loc k)) (fun y Y => H y (or_intror Y))) as (known1 & E & C & D & G).
        { intros i l Hl. apply know_lookup in Hl as [Hl|(_ & -> & ->)]; [apply I; exact Hl|exists k; auto]. }
        exists known1. split; [exact E|]. split; [exact C|].
        assert (Dj : lookup (know known j (loc k)) j <> None).
        { unfold know. destruct (lookup known j) as [q|] eqn:Ej; [congruence|].
          assert (X : lookup (know known j (loc k)) j = Some (loc k)) by (apply know_lookup; right; auto).
          unfold know in X. rewrite Ej in X. congruence. }
        split.
        + intros i Hi. apply D. destruct (lookup known i) as [l|] eqn:El; [|congruence].
          rewrite (proj2 (know_lookup known j (loc k) i l) (or_introl El)). discriminate.
        + intros i l [X|X]; [injection X as <- <-; apply D; exact Dj|exact (G i l X)]. }
    destruct (G nodes [] A) as (known & E & C & _ & D); [intros i l H; discriminate|].
    exists known. split; [exact E|]. intros i l. split; [apply C|]. intros (k & F & ->).
    specialize (D i (loc k) (B k i F)). destruct (lookup known i) as [l|] eqn:El; [|congruence].
    destruct (C i l El) as (k' & F' & ->). rewrite (numbered_inj keqb keqb_eq m k k' i Num F F'). reflexivity.
  Qed.

  Lemma world_ways (known : list (nat * L)) ws : (forall x, In x ws -> exists w ns ts, x = Way true w ns ts /\ kept query filter_ ts = true) ->
    forall vs es, (forall i l, In (i, l) vs -> lookup known i = Some l) ->
    exists vs1 es1, fold_left world_step ws (known, vs, es) = (known, vs1, es1) /\
      (forall i l, In (i, l) vs1 <-> In (i, l) vs \/ exists w ns ts, In (Way true w ns ts) ws /\ In i ns /\ lookup known i = Some l) /\
      (forall k, In k es1 <-> In k es \/ exists w ns ts, In (Way true w ns ts) ws /\
                 In k (flat_map (links_of w (existsb oneway ts) (existsb oneway_reverse ts) known) (steps_of ns))).
  Proof.
    assert (M : forall ns vs, (forall i l, In (i, l) vs -> lookup known i = Some l) ->
              forall i l, In (i, l) (fold_left (meet known) ns vs) <-> In (i, l) vs \/ (In i ns /\ lookup known i = Some l)).
    { induction ns as [|n ns IH]; intros vs H i l; cbn [fold_left]; [cbn; tauto|].
      assert (S : forall i l, In (i, l) (meet known vs n) <-> In (i, l) vs \/ (i = n /\ lookup known i = Some l)).
      { clear i l. intros i l. unfold meet. destruct (lookup known n) as [p|] eqn:En.
        - unfold know. destruct (lookup vs n) as [q|] eqn:Eq.
          + split; [auto|]. intros [X|[-> X]]; [exact X|]. assert (Y : In (n, q) vs).
            { clear -Eq. induction vs as [|[k r] vs IH]; cbn in *; [discriminate|]. destruct (Nat.eqb_spec k n) as [->|]; [injection Eq as ->; auto|auto]. }
            rewrite (H _ _ Y) in X. injection X as <-. exact Y.
          + rewrite in_app_iff. cbn. split.
            * intros [X|[X|[]]]; [auto|]. injection X as <- <-. auto.
            * intros [X|[-> X]]; [auto|]. right. left. congruence.
        - split; [auto|]. intros [X|[-> X]]; [exact X|congruence]. }
      rewrite IH.
      - rewrite S. cbn. split.
        + intros [[X|[-> X]]|[X Y]]; auto.
        + intros [X|[[<-|X] Y]]; auto.
      - intros i' l' X. apply S in X as [X|[_ X]]; [exact (H _ _ X)|exact X]. }
    induction ws as [|x ws IH]; intros H vs es Hv; cbn [fold_left].
    - exists vs, es. split; [reflexivity|]. split; intros; (split; [auto|]); intros [X|(w & ns & ts & [] & _)]; exact X.
    - destruct (H x (or_introl eq_refl)) as (w & ns & ts & -> & Kt). cbn [OsmProofs.world_step]. rewrite Kt. cbn [andb].
      specialize (IH (fun y Y => H y (or_intror Y)) (fold_left (meet known) ns vs)
        (es ++ flat_map (links_of w (existsb oneway ts) (existsb oneway_reverse ts) known) (steps_of ns))).
      destruct IH as (vs1 & es1 & E & A & B).
      { intros i l X. apply (M ns vs Hv) in X as [X|[_ X]]; [exact (Hv _ _ X)|exact X]. }
      exists vs1, es1. split; [exact E|]. split.
      + intros i l. rewrite A, (M ns vs Hv). split.
        * intros [[X|[X Y]]|(w' & ns' & ts' & X & Y)]; [auto|right; exists w, ns, ts; cbn; auto|right; exists w', ns', ts'; cbn; auto].
        * intros [X|(w' & ns' & ts' & [X|X] & Y & Z)]; [auto|injection X as <- <- <-; auto|right; exists w', ns', ts'; auto].
      + intros k. rewrite B, in_app_iff. split.
        * intros [[X|X]|(w' & ns' & ts' & X & Y)]; [auto|right; exists w, ns, ts; cbn; auto|right; exists w', ns', ts'; cbn; auto].
        * intros [X|(w' & ns' & ts' & [X|X] & Y)]; [auto|injection X as <- <- <-; auto|right; exists w', ns', ts'; auto].
  Qed.

  (** the importer reads the tag the exporter writes as one-way, takes nothing as reversed but the tags the exporter leaves out, and
      keeps every road by the tags that are written *)
  Record readable (n : net P) : Prop := {
    rd_yes : oneway (oneway_key, yes) = true;
    rd_keep : filter_ (oneway_key, yes) = true;
    rd_rev : forall t, oneway_reverse t = true -> reverse_tag t;
    rd_query : forall r, In r (n_roads n) -> exists t, In t (r_tags r) /\ ~ reverse_tag t /\ query t = true;
    rd_filter : forall r t, In r (n_roads n) -> In t (r_tags r) -> filter_ t = true
  }.
  (** a road that can be driven back along is not tagged one-way *)
  Definition oneways_ok (n : net P) : Prop :=
    forall a b, opposite n a b -> forall t, In t (r_tags a) -> ~ reverse_tag t -> oneway t = false.

  (** [p] then [q] in the line of a road *)
  Definition drawn_step (n : net P) (p q : P) : Prop :=
    exists r i, In r (n_roads n) /\ nth_error (r_line r) i = Some p /\ nth_error (r_line r) (S i) = Some q.

  Variable sort : list (osm_vertex L) -> list (osm_vertex L).
  Variable dir : direction.

  (** C69 (round trip): reading the written file gives a graph with exactly one vertex per place on the roads, at its location, and
      with an edge from one vertex to another exactly if some road is drawn from the one place directly to the other. *)
  Theorem C69_round_trip n : sorts sort -> outs_ok n -> no_lonely n -> (forall r, In r (n_roads n) -> r_line r <> []) ->
    readable n -> oneways_ok n ->
    exists xs s h (num : K -> nat), export eqp reproject keqb loc order n = Ok xs /\
      import sort query filter_ oneway oneway_reverse dir xs = Ok (s, h) /\ exact dir (h_graph h) /\
      (forall a b, num a = num b -> on_road reproject (n_roads n) a -> on_road reproject (n_roads n) b -> a = b) /\
      NoDup (map (fun v => fst (v_data v)) (g_vs (h_graph h))) /\
      (forall d, In d (map v_data (g_vs (h_graph h))) <-> exists k, on_road reproject (n_roads n) k /\ d = (num k, loc k)) /\
      (forall d1 d2, (exists e x y, In e (g_es (h_graph h)) /\ get_vertex (h_graph h) (e_src e) = Some x /\
                        get_vertex (h_graph h) (e_tgt e) = Some y /\ v_data x = d1 /\ v_data y = d2) <->
                     (exists p q, drawn_step n p q /\ d1 = (num (reproject p), loc (reproject p)) /\ d2 = (num (reproject q), loc (reproject q)))).
  Proof.
    intros Hs Out Lone Ne Rd Ow. destruct (export_spec n Out Lone Ne) as (nodes & ways & chosen & E & Ns & Ws & Ids & Cov).
    set (m := fst (index_points reproject keqb (n_roads n))) in *.
    destruct (index_points_spec reproject keqb loc keqb_eq (n_roads n)) as (Num & _ & Ks). fold m in Num, Ks.
    assert (Wk : forall x, In x ways -> exists w ns ts, x = Way true w ns ts /\ kept query filter_ ts = true).
    { intros x Hx. destruct (Forall2_in_r _ _ _ Ws _ Hx) as ([e b] & _ & r & w & ns & Hr & -> & _ & _). cbn [fst snd] in *.
      exists w, ns, (way_tags (r_tags r) b). split; [reflexivity|]. apply nth_error_In in Hr. unfold kept. apply andb_true_iff. split.
      - apply existsb_exists. destruct (rd_query n Rd r Hr) as (t & A & B & C). exists t. split; [|exact C]. apply way_tags_spec. auto.
      - apply forallb_forall. intros t Ht. apply way_tags_spec in Ht as [[A _]|[_ ->]]; [exact (rd_filter n Rd r t Hr A)|exact (rd_keep n Rd)]. }
    destruct (world_nodes m nodes Num Ns) as (known & En & Lk).
    destruct (world_ways known ways Wk [] []) as (vs & es & Ew & Vs & Es); [intros i l []|].
    assert (Wo : world_of query filter_ oneway oneway_reverse (nodes ++ ways) = (known, vs, es)).
    { unfold world_of. rewrite fold_left_app, En. exact Ew. }
    destruct (C29_import sort query filter_ oneway oneway_reverse dir (nodes ++ ways) Hs) as (s & h & Ei & Ex & W).
    { intros v w ts H. apply in_app_or in H as [H|H]; [destruct (proj1 Ns _ H) as (k & i & _ & X); discriminate|].
      destruct (Forall2_in_r _ _ _ Ws _ H) as ([e b] & _ & r & w1 & ns & Hr & X & F & _). cbn [fst snd] in *. injection X as -> _ <- _.
      apply nth_error_In in Hr. inversion F as [A|]. destruct (Ne r Hr). symmetry. exact A. }
    pose proof (C29_vertices_exactly_once query filter_ oneway oneway_reverse (nodes ++ ways)) as Once.
    rewrite Wo in W, Once. destruct W as [Wv We]. destruct Once as (Nd & _).
    set (num := fun k => match find_point keqb m k with Some i => i | None => 0 end).
    assert (Fk : forall k, on_road reproject (n_roads n) k -> find_point keqb m k = Some (num k)).
    { intros k H. unfold num. destruct (find_point keqb m k) eqn:F; [reflexivity|]. apply (find_none keqb loc keqb_eq) in F. destruct F. apply Ks. exact H. }
    assert (Fr : forall r p, In r (n_roads n) -> In p (r_line r) -> find_point keqb m (reproject p) = Some (num (reproject p))).
    { intros r p Hr Hp. apply Fk. exists r, p. auto. }
    assert (Way_of : forall x, In x ways -> exists r w b, In r (n_roads n) /\
              x = Way true w (map (fun p => num (reproject p)) (r_line r)) (way_tags (r_tags r) b) /\
              (b = false <-> exists j, In j (n_out n (r_target r)) /\ backwards (n_roads n) (r_line r) j)).
    { intros x Hx. destruct (Forall2_in_r _ _ _ Ws _ Hx) as ([e b] & _ & r & w & ns & Hr & -> & F & Hb). cbn [fst snd] in *.
      apply nth_error_In in Hr. exists r, w, b. split; [exact Hr|]. split; [|exact Hb]. f_equal.
      assert (Fi : forall p, In p (r_line r) -> find_point keqb m (reproject p) = Some (num (reproject p))) by (intros p; apply Fr; exact Hr).
      clear -F Fi. induction F as [|p i l ns H F IH]; [reflexivity|]. cbn. rewrite IH by (intros q Q; apply Fi; right; exact Q).
      f_equal. rewrite (Fi p (or_introl eq_refl)) in H. congruence. }
    assert (Opp : forall r e o, In r (n_roads n) -> In e (n_out n (r_target r)) -> backwards (n_roads n) (r_line r) e ->
              nth_error (n_roads n) e = Some o -> opposite n r o).
    { intros r e o Hr Ho (b & Hb & Lb) He. rewrite He in Hb. injection Hb as <-. apply Out in Ho as (b1 & Hb1 & Sb). rewrite He in Hb1. injection Hb1 as <-.
      split; [exact Hr|]. split; [exact (nth_error_In _ _ He)|]. split; [exact Sb|]. rewrite Lb, rev_involutive. reflexivity. }
    assert (NoRev : forall (r : road P) b, existsb oneway_reverse (way_tags (r_tags r) b) = false).
    { intros r b. destruct (existsb oneway_reverse (way_tags (r_tags r) b)) eqn:X; [|reflexivity]. apply existsb_exists in X as (t & A & B).
      apply (rd_rev n Rd) in B. apply way_tags_spec in A as [[_ A]|[_ ->]]; [contradiction|]. destruct B as [_ [B|B]]; discriminate B. }
    assert (Rev_step : forall (r o : road P) i p q, r_line o = rev (r_line r) -> nth_error (r_line r) i = Some p -> nth_error (r_line r) (S i) = Some q ->
              exists j, nth_error (r_line o) j = Some q /\ nth_error (r_line o) (S j) = Some p).
    { intros r o i p q Hl Hp Hq. assert (Li : S i < length (r_line r)) by (apply nth_error_Some; congruence).
      exists (length (r_line r) - 1 - S i). rewrite Hl.
      assert (Rn : forall k x, nth_error (r_line r) k = Some x -> nth_error (rev (r_line r)) (length (r_line r) - 1 - k) = Some x).
      { intros k x Hk. assert (Lk1 : k < length (r_line r)) by (apply nth_error_Some; congruence).
        rewrite (nth_error_nth' _ x) by (rewrite rev_length; lia). rewrite rev_nth by lia. f_equal.
        apply nth_error_nth. rewrite <- Hk. f_equal. lia. }
      split; [apply Rn; exact Hq|]. replace (S (length (r_line r) - 1 - S i)) with (length (r_line r) - 1 - i) by lia. apply Rn. exact Hp. }
    exists (nodes ++ ways), s, h, num. split; [exact E|]. split; [exact Ei|]. split; [exact Ex|].
    split; [|split; [|split]].
    - intros a b Eq Ha Hb. apply (numbered_inj keqb keqb_eq m a b (num a) Num (Fk a Ha)). rewrite Eq. exact (Fk b Hb).
    - rewrite <- Wv, map_map in Nd. exact Nd.
    - intros [i l]. rewrite Wv, Vs. split.
      + intros [[]|(w & ns & ts & Hw & Hi & Hl)]. destruct (Way_of _ Hw) as (r & w1 & b & Hr & X & _). injection X as -> -> ->.
        apply in_map_iff in Hi as (p & <- & Hp). apply Lk in Hl as (k & F & ->).
        assert (Hk : reproject p = k) by (apply (numbered_inj keqb keqb_eq m _ _ (num (reproject p)) Num); [exact (Fr r p Hr Hp)|exact F]).
        exists (reproject p). split; [exists r, p; auto|]. rewrite Hk. reflexivity.
      + intros (k & Hk & X). injection X as -> ->. right. pose proof Hk as (r & p & Hr & Hp & ->).
        apply In_nth_error in Hr as [e He]. assert (Le : e < length (n_roads n)) by (apply nth_error_Some; congruence).
        assert (Go : forall f b r', In (f, b) chosen -> nth_error (n_roads n) f = Some r' -> In p (r_line r') ->
          exists w ns ts, In (Way true w ns ts) ways /\ In (num (reproject p)) ns /\ lookup known (num (reproject p)) = Some (loc (reproject p))).
        { intros f b r' Hc Hf Hp'. destruct (Forall2_in_l _ _ _ Ws _ Hc) as (x & Hx & r1 & w & ns & Hr1 & -> & F & Hb). cbn [fst snd] in *.
          rewrite Hf in Hr1. injection Hr1 as <-. exists w, ns, (way_tags (r_tags r') b). split; [exact Hx|]. split.
          - destruct (Forall2_in_l _ _ _ F p Hp') as (i & Hi & Fi). rewrite (Fk _ Hk) in Fi. injection Fi as <-. exact Hi.
          - apply Lk. exists (reproject p). split; [apply Fk; exact Hk|reflexivity]. }
        destruct (Cov e Le) as [[b Hc]|(f & r1 & Hc & Hf & Ho & Hb)]; [exact (Go e b r Hc He Hp)|].
        apply (Go f false r1 Hc Hf). destruct Hb as (o & Eo & Lo). rewrite He in Eo. injection Eo as <-. rewrite Lo. apply -> in_rev. exact Hp.
    - intros d1 d2.
      assert (Links : (exists e x y, In e (g_es (h_graph h)) /\ get_vertex (h_graph h) (e_src e) = Some x /\
                get_vertex (h_graph h) (e_tgt e) = Some y /\ v_data x = d1 /\ v_data y = d2) <-> exists dat, In (d1, d2, dat) es).
      { split.
        - intros (e & x & y & He & Hx & Hy & <- & <-). destruct (Forall2_in_l _ _ _ We e He) as (k & Hk & x1 & y1 & X & Y & <-).
          pose proof (eq_trans (eq_sym Hx) X) as X1. injection X1 as <-. pose proof (eq_trans (eq_sym Hy) Y) as Y1. injection Y1 as <-. exists (e_data e). exact Hk.
        - intros (dat & Hd). destruct (Forall2_in_r _ _ _ We _ Hd) as (e & He & x & y & X & Y & Z). injection Z as Z1 Z2 _.
          exists e, x, y. auto. }
      rewrite Links. clear Links. split.
      + intros (dat & Hd). apply Es in Hd as [[]|(w & ns & ts & Hw & Hd)]. destruct (Way_of _ Hw) as (r & w1 & b & Hr & X & Hb). injection X as -> -> ->.
        rewrite NoRev in Hd. apply C29_links in Hd as (i & a & c & pa & pc & Ha & Hc & La & Lc & D).
        rewrite nth_error_map in Ha, Hc. destruct (nth_error (r_line r) i) as [p|] eqn:Ep; [|discriminate].
        destruct (nth_error (r_line r) (S i)) as [q|] eqn:Eq; [|discriminate]. cbn in Ha, Hc. injection Ha as <-. injection Hc as <-.
        assert (Lp : forall p l, In p (r_line r) -> lookup known (num (reproject p)) = Some l -> l = loc (reproject p)).
        { intros p' l Hp' Hl. apply Lk in Hl as (k & F & ->).
          rewrite (numbered_inj keqb keqb_eq m _ _ _ Num F (Fr r p' Hr Hp')). reflexivity. }
        rewrite (Lp _ _ (nth_error_In _ _ Ep) La), (Lp _ _ (nth_error_In _ _ Eq) Lc) in D.
        destruct D as [[_ D]|[N D]]; injection D as -> -> ->.
        * exists p, q. split; [exists r, i; auto|auto].
        * destruct b.
          { exfalso. apply N. split; [|reflexivity]. apply existsb_exists. exists (oneway_key, yes). split; [|exact (rd_yes n Rd)].
            apply way_tags_spec. right. auto. }
          destruct (proj1 Hb eq_refl) as (j & Hj & Bj). pose proof Bj as (o & Ho & Lo).
          destruct (Rev_step r o i p q) as (j' & J1 & J2); [rewrite Lo, rev_involutive; reflexivity|exact Ep|exact Eq|].
          exists q, p. split; [exists o, j'; split; [exact (nth_error_In _ _ Ho)|auto]|auto].
      + intros (p & q & (r & i & Hr & Hp & Hq) & -> & ->).
        pose proof Hr as Hr0. apply In_nth_error in Hr as [e He]. assert (Le : e < length (n_roads n)) by (apply nth_error_Some; congruence).
        assert (Lkp : forall r p, In r (n_roads n) -> In p (r_line r) -> lookup known (num (reproject p)) = Some (loc (reproject p))).
        { intros r' p' Hr' Hp'. apply Lk. exists (reproject p'). split; [exact (Fr r' p' Hr' Hp')|reflexivity]. }
        assert (Ways : forall f b r', In (f, b) chosen -> nth_error (n_roads n) f = Some r' ->
          exists w, In (Way true w (map (fun p => num (reproject p)) (r_line r')) (way_tags (r_tags r') b)) ways /\
            (b = false <-> exists j, In j (n_out n (r_target r')) /\ backwards (n_roads n) (r_line r') j)).
        { intros f b r' Hc Hf. destruct (Forall2_in_l _ _ _ Ws _ Hc) as (x & Hx & r1 & w & ns & Hr1 & -> & F & Hb). cbn [fst snd] in *.
          rewrite Hf in Hr1. injection Hr1 as <-. exists w. split; [|exact Hb]. replace (map (fun p => num (reproject p)) (r_line r')) with ns; [exact Hx|].
          assert (Fi : forall p, In p (r_line r') -> find_point keqb m (reproject p) = Some (num (reproject p)))
            by (intros p'; apply Fr; exact (nth_error_In _ _ Hf)).
          clear -F Fi. induction F as [|p' j l ns H F IH]; [reflexivity|]. cbn. rewrite IH by (intros q' Q; apply Fi; right; exact Q).
          f_equal. rewrite (Fi p' (or_introl eq_refl)) in H. congruence. }
        destruct (Cov e Le) as [[b Hc]|(f & r1 & Hc & Hf & Ho & Hb)].
        * destruct (Ways e b r Hc He) as (w & Hw & _). exists (w, (loc (reproject p), loc (reproject q))). apply Es. right.
          eexists w, _, _. split; [exact Hw|]. rewrite NoRev. apply C29_links.
          exists i, (num (reproject p)), (num (reproject q)), (loc (reproject p)), (loc (reproject q)).
          rewrite !nth_error_map, Hp, Hq. split; [reflexivity|]. split; [reflexivity|].
          split; [exact (Lkp r p Hr0 (nth_error_In _ _ Hp))|]. split; [exact (Lkp r q Hr0 (nth_error_In _ _ Hq))|].
          left. split; [intros [_ X]; discriminate|reflexivity].
        * destruct (Ways f false r1 Hc Hf) as (w & Hw & _). pose proof (nth_error_In _ _ Hf) as Hr1.
          pose proof (Opp r1 e r Hr1 Ho Hb He) as Op. pose proof Op as (_ & _ & _ & Lr).
          destruct (Rev_step r r1 i p q) as (j & J1 & J2); [rewrite Lr, rev_involutive; reflexivity|exact Hp|exact Hq|].
          exists (w, (loc (reproject p), loc (reproject q))). apply Es. right.
          eexists w, _, _. split; [exact Hw|]. rewrite NoRev. apply C29_links.
          exists j, (num (reproject q)), (num (reproject p)), (loc (reproject q)), (loc (reproject p)).
          rewrite !nth_error_map, J1, J2. split; [reflexivity|]. split; [reflexivity|].
          split; [exact (Lkp r q Hr0 (nth_error_In _ _ Hq))|]. split; [exact (Lkp r p Hr0 (nth_error_In _ _ Hp))|].
          right. split; [|reflexivity]. intros [X _]. apply existsb_exists in X as (t & Ht & Ot).
          apply way_tags_spec in Ht as [[A B]|[X _]]; [|discriminate]. rewrite (Ow r1 r Op t A B) in Ot. discriminate.
  Qed.
End C69.

(** *** A network: a two-way road with a bend, a one-way road tagged as such, a one-way road without tag *)
Definition outs_of {P} (rs : list (road P)) (v : nat) : list nat :=
  filter (fun j => match nth_error rs j with Some r => r_source r =? v | None => false end) (seq 0 (length rs)).
Definition make_net {P} (ps : list P) (rs : list (road P)) : net P := mkNet ps rs (outs_of rs).
Lemma make_net_outs {P} (ps : list P) rs : outs_ok (make_net ps rs).
Proof.
  intros v j. cbn. unfold outs_of. rewrite filter_In, in_seq. split.
  - intros [_ H]. destruct (nth_error rs j) as [r|]; [|discriminate]. exists r. apply Nat.eqb_eq in H. auto.
  - intros (r & E & <-). rewrite E, Nat.eqb_refl. split; [|reflexivity]. split; [lia|]. apply nth_error_Some. congruence.
Qed.
Definition street : list (str * str) := [mktag "highway" "residential"].
Definition demo_net : net nat := make_net [10; 20; 30]
  [mkRoad 0 1 [10; 15; 20] street; mkRoad 1 2 [20; 30] (street ++ [mktag "oneway" "yes"]);
   mkRoad 1 0 [20; 15; 10] street; mkRoad 2 0 [30; 10] (street ++ [mktag "oneway" "-1"])].
Notation demo_export := (export Nat.eqb (fun p => p) Nat.eqb (fun k => k) (@rev (nat * nat))).
Notation demo_import := (import isort (apply_filter default_query) (apply_filter default_filter) (apply_filter default_oneway)
  (apply_filter default_oneway_reverse) Bidirectional).

Example C69_demo_export : demo_export demo_net =
  Ok [Node true 0 10; Node true 2 20; Node true 3 30; Node true 1 15;
      Way true 4 [0; 1; 2] street; Way true 5 [2; 3] (street ++ [mktag "oneway" "yes"]); Way true 6 [3; 0] (street ++ [mktag "oneway" "yes"])].
Proof. vm_compute. reflexivity. Qed.

(** the default filters read what is written *)
Lemma default_readable (n : net nat) : (forall r, In r (n_roads n) -> In (mktag "highway" "residential") (r_tags r)) ->
  readable (apply_filter default_query) (apply_filter default_filter) (apply_filter default_oneway) (apply_filter default_oneway_reverse) n.
Proof.
  intros H. constructor.
  - reflexivity.
  - reflexivity.
  - intros [k v] E. unfold apply_filter in E. cbn [first_match f_rules default_oneway_reverse f_default] in E.
    unfold matches, has_tag in E. cbn [r_key r_value r_has_value r_result fst snd negb orb] in E. unfold reverse_tag. cbn [fst snd].
    destruct (str_eqb (of_string "oneway") k) eqn:A; cbn [andb] in E; [|discriminate]. apply OsmFilterProps.str_eqb_spec in A as <-.
    split; [reflexivity|]. destruct (str_eqb (of_string "-1") v) eqn:B; [left; apply OsmFilterProps.str_eqb_spec in B as <-; reflexivity|].
    destruct (str_eqb (of_string "reverse") v) eqn:C; [right; apply OsmFilterProps.str_eqb_spec in C as <-; reflexivity|discriminate].
  - intros r Hr. exists (mktag "highway" "residential"). split; [exact (H r Hr)|]. split; [|reflexivity]. intros [A _]. discriminate A.
  - intros. reflexivity.
Qed.
Example C69_demo_met : outs_ok demo_net /\ no_lonely (fun p => p) demo_net /\ (forall r, In r (n_roads demo_net) -> r_line r <> []) /\
  readable (apply_filter default_query) (apply_filter default_filter) (apply_filter default_oneway) (apply_filter default_oneway_reverse) demo_net /\
  oneways_ok (apply_filter default_oneway) demo_net /\ sorts (@isort nat) /\ (forall m : list (nat * nat), Permutation m (rev m)) /\
  (forall a b, Nat.eqb a b = true <-> a = b).
Proof.
  split; [apply make_net_outs|]. split; [|split; [|split; [|split; [|split; [exact isort_sorts|split; [apply Permutation_rev|apply Nat.eqb_eq]]]]]].
  - intros p [<-|[<-|[<-|[]]]].
    + exists (mkRoad 0 1 [10; 15; 20] street), 10. cbn. intuition.
    + exists (mkRoad 0 1 [10; 15; 20] street), 20. cbn. intuition.
    + eexists; exists 30. split; [right; left; reflexivity|]. cbn. intuition.
  - intros r [<-|[<-|[<-|[<-|[]]]]]; discriminate.
  - apply default_readable. intros r [<-|[<-|[<-|[<-|[]]]]]; left; reflexivity.
  - intros a b (Ha & Hb & _ & Lb) t Ht Nt.
    destruct Ha as [<-|[<-|[<-|[<-|[]]]]], Hb as [<-|[<-|[<-|[<-|[]]]]]; try discriminate Lb; cbn in Ht; destruct Ht as [<-|[]]; reflexivity.
Qed.
Example C69_demo_again : exists s h,
  match demo_export demo_net with Ok xs => demo_import xs | _ => UB end = Ok (s, h) /\
  map v_data (g_vs (h_graph h)) = [(0, 10); (1, 15); (2, 20); (3, 30)] /\
  map (fun e => snd (e_data e)) (g_es (h_graph h)) = [(10, 15); (15, 10); (15, 20); (20, 15); (20, 30); (30, 10)].
Proof. eexists; eexists. vm_compute. repeat split; reflexivity. Qed.

(** *** Refuted *)
(** Without the condition on one-way tags a direction gets lost: two one-way roads, opposite to each other on the same points, are
    written as one way with the tag oneway = yes. *)
Theorem C69_opposite_oneways_refuted : exists (n : net nat) xs s h,
  outs_ok n /\ no_lonely (fun p => p) n /\ (forall r, In r (n_roads n) -> r_line r <> []) /\
  readable (apply_filter default_query) (apply_filter default_filter) (apply_filter default_oneway) (apply_filter default_oneway_reverse) n /\
  demo_export n = Ok xs /\ demo_import xs = Ok (s, h) /\ drawn_step n 20 10 /\
  forall e, In e (g_es (h_graph h)) -> snd (e_data e) <> (20, 10).
Proof.
  exists (make_net [10; 20] [mkRoad 0 1 [10; 20] (street ++ [mktag "oneway" "yes"]); mkRoad 1 0 [20; 10] (street ++ [mktag "oneway" "yes"])]).
  eexists; eexists; eexists. split; [apply make_net_outs|]. split; [|split; [|split; [|split; [vm_compute; reflexivity|split; [vm_compute; reflexivity|split]]]]].
  - intros p Hp. eexists; exists p. split; [left; reflexivity|]. split; [exact Hp|reflexivity].
  - intros r [<-|[<-|[]]]; discriminate.
  - apply default_readable. intros r [<-|[<-|[]]]; left; reflexivity.
  - eexists; exists 0. split; [right; left; reflexivity|]. split; reflexivity.
  - vm_compute. intros e [<-|[]]. discriminate.
Qed.

(** Without the condition on vertices a place gets lost: a vertex that no edge touches is written with the number 0, which already
    belongs to the first point of the first edge; reading the file moves that point to the lonely vertex. *)
Theorem C69_lonely_vertex_refuted : exists (n : net nat) xs s h,
  outs_ok n /\ (forall r, In r (n_roads n) -> r_line r <> []) /\ oneways_ok (apply_filter default_oneway) n /\
  readable (apply_filter default_query) (apply_filter default_filter) (apply_filter default_oneway) (apply_filter default_oneway_reverse) n /\
  demo_export n = Ok xs /\ demo_import xs = Ok (s, h) /\
  on_road (fun p => p) (n_roads n) 10 /\ ~ on_road (fun p => p) (n_roads n) 99 /\
  map (fun v => snd (v_data v)) (g_vs (h_graph h)) = [99; 20] /\ map (fun e => snd (e_data e)) (g_es (h_graph h)) = [(99, 20)].
Proof.
  exists (make_net [99; 10; 20] [mkRoad 1 2 [10; 20] (street ++ [mktag "oneway" "yes"])]).
  eexists; eexists; eexists. split; [apply make_net_outs|].
  split; [|split; [|split; [|split; [vm_compute; reflexivity|split; [vm_compute; reflexivity|split; [|split; [|split; vm_compute; reflexivity]]]]]]].
  - intros r [<-|[]]; discriminate.
  - intros a b (Ha & Hb & _ & Lb). destruct Ha as [<-|[]], Hb as [<-|[]]. discriminate Lb.
  - apply default_readable. intros r [<-|[]]; left; reflexivity.
  - eexists; exists 10. split; [left; reflexivity|]. cbn. auto.
  - intros (r & p & [<-|[]] & [<-|[<-|[]]] & X); discriminate X.
Qed.

(** The number of edges is not preserved: of two equal edges with one edge leading back, each is written as a two-way road. *)
Theorem C69_edge_count_refuted : exists (n : net nat) xs s h,
  outs_ok n /\ no_lonely (fun p => p) n /\ (forall r, In r (n_roads n) -> length (r_line r) = 2) /\ oneways_ok (apply_filter default_oneway) n /\
  readable (apply_filter default_query) (apply_filter default_filter) (apply_filter default_oneway) (apply_filter default_oneway_reverse) n /\
  demo_export n = Ok xs /\ demo_import xs = Ok (s, h) /\ length (n_roads n) = 3 /\ length (g_es (h_graph h)) = 4.
Proof.
  exists (make_net [10; 20] [mkRoad 0 1 [10; 20] street; mkRoad 0 1 [10; 20] street; mkRoad 1 0 [20; 10] street]).
  eexists; eexists; eexists. split; [apply make_net_outs|].
  split; [|split; [|split; [|split; [|split; [vm_compute; reflexivity|split; [vm_compute; reflexivity|split; vm_compute; reflexivity]]]]]].
  - intros p Hp. eexists; exists p. split; [left; reflexivity|]. split; [exact Hp|reflexivity].
  - intros r [<-|[<-|[<-|[]]]]; reflexivity.
  - intros a b (Ha & _) t Ht. destruct Ha as [<-|[<-|[<-|[]]]]; destruct Ht as [<-|[]]; reflexivity.
  - apply default_readable. intros r [<-|[<-|[<-|[]]]]; left; reflexivity.
Qed.

(** Two vertices at the same place become one: roads that cross without being connected are connected in the file. *)
Theorem C69_crossing_refuted : exists (n : net nat) xs s h,
  outs_ok n /\ no_lonely (fun p => p) n /\ (forall r, In r (n_roads n) -> r_line r <> []) /\ oneways_ok (apply_filter default_oneway) n /\
  readable (apply_filter default_query) (apply_filter default_filter) (apply_filter default_oneway) (apply_filter default_oneway_reverse) n /\
  demo_export n = Ok xs /\ demo_import xs = Ok (s, h) /\
  (forall r r', In r (n_roads n) -> In r' (n_roads n) -> r_target r <> r_source r') /\
  exists e e', In e (g_es (h_graph h)) /\ In e' (g_es (h_graph h)) /\ e_tgt e = e_src e'.
Proof.
  exists (make_net [10; 20; 20; 30] [mkRoad 0 1 [10; 20] street; mkRoad 2 3 [20; 30] street]).
  eexists; eexists; eexists. split; [apply make_net_outs|].
  split; [|split; [|split; [|split; [|split; [vm_compute; reflexivity|split; [vm_compute; reflexivity|split]]]]]].
  - intros p [<-|[<-|[<-|[<-|[]]]]].
    1-3: eexists; eexists; (split; [left; reflexivity|]); (split; [|reflexivity]); cbn; auto.
    eexists; exists 30. split; [right; left; reflexivity|]. cbn. auto.
  - intros r [<-|[<-|[]]]; discriminate.
  - intros a b (Ha & _) t Ht. destruct Ha as [<-|[<-|[]]]; destruct Ht as [<-|[]]; reflexivity.
  - apply default_readable. intros r [<-|[<-|[]]]; left; reflexivity.
  - intros r r' [<-|[<-|[]]] [<-|[<-|[]]]; discriminate.
  - eexists; eexists. vm_compute. split; [left; reflexivity|]. split; [right; left; reflexivity|]. reflexivity.
Qed.

Print Assumptions C69_file.
Print Assumptions C69_round_trip.
Print Assumptions C69_opposite_oneways_refuted.
Print Assumptions C69_lonely_vertex_refuted.
Print Assumptions C69_edge_count_refuted.
Print Assumptions C69_crossing_refuted.
