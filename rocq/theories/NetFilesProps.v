(** Property C70: the importers for the road networks of single data sets (arcs and nodes, Melbourne, GISCUP, Seattle). *)
From Verif Require Import Base ListAux AdjList AdjListSpec AdjListProofs AdjListProofs2 AdjListProofs3 GraphHelper GraphHelperProofs
  NetFiles NetFilesProofs.

Section C70.
  Context {P : Type}.
  Variable reproject : P -> P.
  Variable dir : direction.
  Notation helper := (helper (nat * P) (nat * list P)).
  Notation edge := (nat * nat * (nat * list P))%type.

  (** the graph of [h] has exactly the vertices [vs] (id, point) and the edges [es] (positions of source and target in [vs], id and line) *)
  Definition graph_is (h : helper) (vs : list (nat * P)) (es : list edge) : Prop := exact dir (h_graph h) /\ holds h vs es.
  Lemma st_graph h vs es : st dir h vs es -> graph_is h vs es.
  Proof. intros [G H]. split; [apply G|exact H]. Qed.

  (** *** arcs and nodes: the data sets one after the other; [n]: vertices before *)
  Fixpoint arc_world (dss : list (list P * list (nat * nat))) (n : nat) (vs : list (nat * P)) (es : list edge) : Prop :=
    match dss with
    | [] => vs = [] /\ es = []
    | (ps, arcs) :: r => exists es1 vs2 es2,
        vs = combine (seq 0 (length ps)) (map reproject ps) ++ vs2 /\ es = es1 ++ es2 /\
        Forall2 (fun (ab : nat * (nat * nat)) e => exists p q,
                   nth_error ps (fst (snd ab)) = Some p /\ nth_error ps (snd (snd ab)) = Some q /\
                   e = (n + fst (snd ab), n + snd (snd ab), (fst ab, [reproject p; reproject q])))
          (combine (seq 0 (length arcs)) arcs) es1 /\
        arc_world r (n + length ps) vs2 es2
    end.

  (** C70 (arcs and nodes): if the arcs of every data set name lines of its node file, the graph has the nodes of all data sets in order
      and for every arc an edge between its own two nodes, drawn straight between their points; otherwise the import ends with an exception. *)
  Theorem C70_arc_node dss :
    ((forall ps arcs a b, In (ps, arcs) dss -> In (a, b) arcs -> a < length ps /\ b < length ps) ->
     exists h vs es, arc_node_read reproject dir dss = Ok h /\ graph_is h vs es /\ arc_world dss 0 vs es) /\
    (forall ps arcs a b, In (ps, arcs) dss -> In (a, b) arcs -> length ps <= a \/ length ps <= b ->
     exists h, arc_node_read reproject dir dss = Throw h).
  Proof.
    unfold arc_node_read.
    assert (G : forall dss h vs es, st dir h vs es ->
      ((forall ds, In ds dss -> arcs_fit ds) -> exists h1 vs1 es1, foldO (arc_set reproject dir) dss h = Ok h1 /\
         st dir h1 (vs ++ vs1) (es ++ es1) /\ arc_world dss (length vs) vs1 es1) /\
      ((exists ds, In ds dss /\ ~ arcs_fit ds) -> exists h1, foldO (arc_set reproject dir) dss h = Throw h1)).
    { clear dss. induction dss as [|[ps arcs] dss IH]; intros h vs es S; cbn [foldO arc_world].
      - split; [|intros (ds & [] & _)]. intros _. exists h, [], []. rewrite !app_nil_r. auto.
      - destruct (arc_set_ok reproject dir h vs es (ps, arcs) S) as [Good Bad].
        assert (Dec : arcs_fit (ps, arcs) \/ ~ arcs_fit (ps, arcs)).
        { unfold arcs_fit; cbn [fst snd]. clear. induction arcs as [|ab arcs IHa]; [left; intros ab []|].
          assert (D : (fst ab < length ps /\ snd ab < length ps) \/ ~ (fst ab < length ps /\ snd ab < length ps)) by lia.
          destruct D as [D|D]; [|right; intros H; apply D; apply H; left; reflexivity].
          destruct IHa as [H|H]; [left; intros x [<-|X]; auto|right; intros X; apply H; intros x Hx; apply X; right; exact Hx]. }
        destruct Dec as [F|F].
        + destruct (Good F) as (h1 & new & -> & S1 & M). cbn [bindO]. destruct (IH h1 _ _ S1) as [Good1 Bad1]. split.
          * intros H. destruct (Good1 (fun ds X => H ds (or_intror X))) as (h2 & vs2 & es2 & E & S2 & W).
            exists h2, (arc_vertices reproject (ps, arcs) ++ vs2), (new ++ es2). split; [exact E|]. rewrite <- !app_assoc in S2. split; [exact S2|].
            exists new, vs2, es2. split; [reflexivity|]. split; [reflexivity|]. split; [exact M|].
            replace (length vs + length ps) with (length (vs ++ arc_vertices reproject (ps, arcs))); [exact W|].
            rewrite app_length. unfold arc_vertices; cbn [fst]. rewrite combine_length, seq_length, map_length, Nat.min_id. reflexivity.
          * intros (ds & [<-|X] & N); [contradiction|]. apply Bad1. exists ds. auto.
        + destruct (Bad F) as (h1 & ->). cbn [bindO]. split; [intros H; destruct F; apply H; left; reflexivity|eauto]. }
    destruct (G dss empty_helper [] [] (st_empty dir)) as [Good Bad]. split.
    - intros H. destruct Good as (h & vs & es & E & S & W).
      + intros [ps arcs] I [a b] X. exact (H ps arcs a b I X).
      + exists h, vs, es. split; [exact E|]. split; [apply st_graph; exact S|exact W].
    - intros ps arcs a b I X O. apply Bad. exists (ps, arcs). split; [exact I|]. intros F. specialize (F (a, b) X). cbn in F. lia.
  Qed.

  (** *** Melbourne: [R] are the node rows of the data sets before *)
  Fixpoint melbourne_world (R : list (nat * P)) (dss : list (list (nat * P) * list (nat * (nat * nat)))) (es : list edge) : Prop :=
    match dss with
    | [] => es = []
    | (ns, rows) :: r => exists es1 es2, es = es1 ++ es2 /\
        Forall2 (fun (row : nat * (nat * nat)) e => exists i j p q,
                   first_row (R ++ ns) (fst (snd row)) i p /\ first_row (R ++ ns) (snd (snd row)) j q /\
                   e = (i, j, (fst row, [reproject p; reproject q]))) rows es1 /\
        melbourne_world (R ++ ns) r es2
    end.
  Fixpoint melbourne_known (R : list (nat * P)) (dss : list (list (nat * P) * list (nat * (nat * nat)))) : Prop :=
    match dss with
    | [] => True
    | (ns, rows) :: r => (forall id f t, In (id, (f, t)) rows -> In f (map fst (R ++ ns)) /\ In t (map fst (R ++ ns))) /\ melbourne_known (R ++ ns) r
    end.

  (** C70 (Melbourne): the vertices are all node rows of all data sets in order; an edge row gives an edge between the first vertices
      that have the two ids, among all node rows read so far; an unknown id ends the import with an exception. *)
  Theorem C70_melbourne dss :
    (melbourne_known [] dss -> exists h vm es, melbourne_read reproject dir dss = Ok (h, vm) /\
       graph_is h (map (fun r => (fst r, reproject (snd r))) (flat_map fst dss)) es /\ melbourne_world [] dss es) /\
    (~ melbourne_known [] dss -> exists s, melbourne_read reproject dir dss = Throw s).
  Proof.
    unfold melbourne_read.
    assert (G : forall dss h vm R es, st dir h (vertices_of reproject R) es -> indexes vm R ->
      (melbourne_known R dss -> exists h1 vm1 es1, foldO (melbourne_set reproject dir) dss (h, vm) = Ok (h1, vm1) /\
         st dir h1 (vertices_of reproject (R ++ flat_map fst dss)) (es ++ es1) /\ melbourne_world R dss es1) /\
      (~ melbourne_known R dss -> exists s, foldO (melbourne_set reproject dir) dss (h, vm) = Throw s)).
    { clear dss. induction dss as [|[ns rows] dss IH]; intros h vm R es S I; cbn [foldO melbourne_world melbourne_known flat_map].
      - split; [|tauto]. intros _. exists h, vm, []. rewrite !app_nil_r. auto.
      - unfold melbourne_set at 1 3. cbn [fst snd]. destruct (node_rows_ok reproject dir ns h vm R es S I) as (h1 & vm1 & -> & S1 & I1). cbn [bindO].
        destruct (edge_rows_ok reproject dir (R ++ ns) rows h1 vm1 es S1 I1) as [Good Bad].
        assert (Dec : (forall r, In r rows -> In (fst (snd r)) (map fst (R ++ ns)) /\ In (snd (snd r)) (map fst (R ++ ns))) \/
                      ~ (forall r, In r rows -> In (fst (snd r)) (map fst (R ++ ns)) /\ In (snd (snd r)) (map fst (R ++ ns)))).
        { clear. induction rows as [|r rows IHr]; [left; intros r []|].
          destruct (in_dec Nat.eq_dec (fst (snd r)) (map fst (R ++ ns))) as [A|A]; [|right; intros H; apply A; apply H; left; reflexivity].
          destruct (in_dec Nat.eq_dec (snd (snd r)) (map fst (R ++ ns))) as [B|B]; [|right; intros H; apply B; apply H; left; reflexivity].
          destruct IHr as [H|H]; [left; intros x [<-|X]; auto|right; intros X; apply H; intros x Hx; apply X; right; exact Hx]. }
        destruct Dec as [F|F].
        + destruct (Good F) as (h2 & new & -> & S2 & M). cbn [bindO]. destruct (IH h2 vm1 _ _ S2 I1) as [Good1 Bad1]. split.
          * intros [_ K]. destruct (Good1 K) as (h3 & vm3 & es3 & E & S3 & W). exists h3, vm3, (new ++ es3). split; [exact E|].
            rewrite <- !app_assoc in S3. split; [exact S3|]. exists new, es3. split; [reflexivity|]. split; [exact M|exact W].
          * intros N. apply Bad1. intros K. apply N. split; [|exact K]. intros id f t X. exact (F _ X).
        + destruct (Bad F) as (s & ->). cbn [bindO]. split; [|eauto]. intros [K _]. destruct F. intros [id [f t]] X. exact (K id f t X). }
    destruct (G dss empty_helper [] [] [] (st_empty dir) (@indexes_nil P)) as [Good Bad]. split; [|exact Bad].
    intros K. destruct (Good K) as (h & vm & es & E & S & W). exists h, vm, es. split; [exact E|]. split; [apply st_graph; exact S|exact W].
  Qed.

  (** *** GISCUP: [R] node rows and [E] edge rows of the data sets before *)
  Notation gis_set := (@gis_set P).
  Fixpoint giscup_world (R : list (nat * P)) (E : list (nat * (nat * nat))) (dss : list gis_set) (es : list edge) : Prop :=
    match dss with
    | [] => es = []
    | ds :: r => let R1 := R ++ gs_nodes ds in let E1 := E ++ gs_edges ds in
        exists es1 es2, es = es1 ++ es2 /\
        Forall2 (fun (row : nat * list P) e => exists k f t i j p q,
                   first_row E1 (fst row) k (f, t) /\ first_row R1 f i p /\ first_row R1 t j q /\ e = (i, j, row)) (gs_lines ds) es1 /\
        giscup_world R1 E1 r es2
    end.
  Fixpoint giscup_known (R : list (nat * P)) (E : list (nat * (nat * nat))) (dss : list gis_set) : Prop :=
    match dss with
    | [] => True
    | ds :: r => let R1 := R ++ gs_nodes ds in let E1 := E ++ gs_edges ds in
        (forall row, In row (gs_lines ds) -> exists k f t, first_row E1 (fst row) k (f, t) /\ In f (map fst R1) /\ In t (map fst R1)) /\
        giscup_known R1 E1 r
    end.
  (** C70 (GISCUP): the vertices are all node rows in order; every row of geometry gives an edge with the line of the row, between the
      first vertices that have the ids of the first edge row of its id; if the edge id or one of the node ids is not known, the import ends with an exception. *)
  Theorem C70_giscup dss :
    (giscup_known [] [] dss -> exists h vm em es, giscup_read reproject dir dss = Ok (h, vm, em) /\
      graph_is h (map (fun r => (fst r, reproject (snd r))) (flat_map gs_nodes dss)) es /\ giscup_world [] [] dss es) /\
    (~ giscup_known [] [] dss -> exists s, giscup_read reproject dir dss = Throw s).
  Proof.
    unfold giscup_read.
    assert (G : forall dss h vm em R E es, st dir h (vertices_of reproject R) es -> indexes vm R -> edge_indexes em E ->
      (giscup_known R E dss -> exists h1 vm1 em1 es1, foldO (giscup_set reproject dir) dss (h, vm, em) = Ok (h1, vm1, em1) /\
         st dir h1 (vertices_of reproject (R ++ flat_map gs_nodes dss)) (es ++ es1) /\ giscup_world R E dss es1) /\
      (~ giscup_known R E dss -> exists s, foldO (giscup_set reproject dir) dss (h, vm, em) = Throw s)).
    { clear dss. induction dss as [|ds dss IH]; intros h vm em R E es S I J; cbn [foldO giscup_world giscup_known flat_map] in *.
      - split; [|tauto]. intros _. exists h, vm, em, []. rewrite !app_nil_r. auto.
      - unfold giscup_set at 1 3. destruct (node_rows_ok reproject dir (gs_nodes ds) h vm R es S I) as (h1 & vm1 & -> & S1 & I1).
        cbn [bindO]. pose proof (edge_indexes_ok (gs_edges ds) em E J) as J1.
        set (em1 := fold_left _ (gs_edges ds) em) in *. cbv zeta.
        destruct (geometry_rows_ok reproject dir (R ++ gs_nodes ds) (E ++ gs_edges ds) (gs_lines ds) h1 vm1 em1 es S1 I1 J1) as [Good Bad].
        assert (D1 : forall row, row_known (R ++ gs_nodes ds) (E ++ gs_edges ds) row \/ ~ row_known (R ++ gs_nodes ds) (E ++ gs_edges ds) row).
        { intros row. destruct (find_id em1 (fst row)) as [[f t]|] eqn:Fe.
          - apply J1 in Fe as (k & Fk). destruct (in_dec Nat.eq_dec f (map fst (R ++ gs_nodes ds))) as [A|A].
            + destruct (in_dec Nat.eq_dec t (map fst (R ++ gs_nodes ds))) as [B|B]; [left; exists k, f, t; auto|].
              right. intros (k' & f' & t' & K & _ & X). destruct (first_row_unique _ _ _ _ _ _ Fk K) as [_ Y]. injection Y as <- <-. contradiction.
            + right. intros (k' & f' & t' & K & X & _). destruct (first_row_unique _ _ _ _ _ _ Fk K) as [_ Y]. injection Y as <- <-. contradiction.
          - right. intros (k' & f' & t' & K & _). rewrite (proj2 (J1 (fst row) (f', t')) (ex_intro _ k' K)) in Fe. discriminate. }
        assert (Dec : (forall row, In row (gs_lines ds) -> row_known (R ++ gs_nodes ds) (E ++ gs_edges ds) row) \/
                      ~ (forall row, In row (gs_lines ds) -> row_known (R ++ gs_nodes ds) (E ++ gs_edges ds) row)).
        { clear -D1. induction (gs_lines ds) as [|r rows IHr]; [left; intros r []|].
          destruct (D1 r) as [A|A]; [|right; intros H; apply A; apply H; left; reflexivity].
          destruct IHr as [H|H]; [left; intros x [<-|X]; auto|right; intros X; apply H; intros x Hx; apply X; right; exact Hx]. }
        destruct Dec as [F|F].
        + destruct (Good F) as (h2 & new & -> & S2 & M). cbn [bindO]. destruct (IH h2 vm1 em1 _ _ _ S2 I1 J1) as [Good1 Bad1]. split.
          * intros [_ K]. destruct (Good1 K) as (h3 & vm3 & em3 & es3 & E3 & S3 & W). exists h3, vm3, em3, (new ++ es3). split; [exact E3|].
            rewrite <- !app_assoc in S3. split; [exact S3|]. exists new, es3. split; [reflexivity|]. split; [exact M|exact W].
          * intros N. apply Bad1. intros K. apply N. split; [exact F|exact K].
        + destruct (Bad F) as (s & ->). cbn [bindO]. split; [|eauto]. intros [K _]. contradiction. }
    destruct (G dss empty_helper [] [] [] [] [] (st_empty dir) (@indexes_nil P)) as [Good Bad].
    { intros id ft. split; [discriminate|]. intros (k & H & _). destruct k; discriminate. }
    split; [|exact Bad]. intros K. destruct (Good K) as (h & vm & em & es & E & S & W).
    exists h, vm, em, es. split; [exact E|]. split; [apply st_graph; exact S|exact W].
  Qed.

  (** *** Seattle *)
  Notation sea_row := (@sea_row P).
  (** the place a row gives for a node id *)
  Definition places (r : sea_row) (id : nat) (p : P) : Prop :=
    (sr_from r = id /\ hd_error (sr_line r) = Some p) \/ (sr_to r = id /\ hd_error (rev (sr_line r)) = Some p).
  Definition row_made (vs : list (nat * P)) (r : sea_row) (l : list edge) : Prop :=
    exists i j p q, nth_error vs i = Some (sr_from r, p) /\ nth_error vs j = Some (sr_to r, q) /\
      l = (i, j, (sr_id r, sr_line r)) :: (if sr_two_way r then [(j, i, (sr_id r, rev (sr_line r)))] else []).

  Definition known_as (vm : list (nat * nat)) (vs : list (nat * P)) : Prop :=
    NoDup (map fst vs) /\ forall id i, find_id vm id = Some i <-> exists p, nth_error vs i = Some (id, p).
  Lemma sea_vertex_ok h vm vs es id p : st dir h vs es -> known_as vm vs ->
    exists h1 vm1 i new, sea_vertex reproject (h, vm) id (Some p) = Ok (h1, vm1, i) /\ st dir h1 (vs ++ new) es /\ known_as vm1 (vs ++ new) /\
      (exists q, nth_error (vs ++ new) i = Some (id, q)) /\ (forall d, In d new -> d = (id, reproject p)).
  Proof.
    intros S [N I]. unfold sea_vertex. destruct (find_id vm id) as [i|] eqn:E.
    - pose proof E as E'. apply I in E' as (q & E'). exists h, vm, i, []. rewrite app_nil_r. split; [reflexivity|]. split; [exact S|]. split; [split; assumption|].
      split; [exists q; exact E'|]. intros d [].
    - cbn [derefO]. destruct (addV_ok reproject dir h vs es id p S) as (h1 & -> & S1). exists h1, (emplace_id vm id (length vs)), (length vs), [(id, reproject p)].
      assert (Ni : ~ In id (map fst vs)).
      { intros X. apply in_map_iff in X as ([k q] & <- & X). apply In_nth_error in X as [i X]. cbn in E.
        assert (Z : find_id vm k = Some i) by (apply I; exists q; exact X). congruence. }
      split; [reflexivity|]. split; [exact S1|]. split; [split|split].
      + rewrite map_app. apply NoDup_app'; [exact N|cbn; constructor; [intros []|constructor]|]. intros x X [<-|[]]. exact (Ni X).
      + intros x i. rewrite find_emplace. split.
        * destruct (find_id vm x) as [k|] eqn:F.
          -- intros X. injection X as <-. apply I in F as (q & F). exists q. rewrite nth_error_app1; [exact F|]. apply nth_error_Some. congruence.
          -- destruct (Nat.eqb_spec id x) as [->|]; [|discriminate]. intros X. injection X as <-. exists (reproject p).
             rewrite nth_error_app2, Nat.sub_diag by lia. reflexivity.
        * intros (q & X). destruct (Nat.lt_ge_cases i (length vs)) as [L|L].
          -- rewrite nth_error_app1 in X by exact L. assert (Z : find_id vm x = Some i) by (apply I; exists q; exact X). rewrite Z. reflexivity.
          -- rewrite nth_error_app2 in X by exact L. destruct (i - length vs) as [|d] eqn:D; [|destruct d; discriminate]. cbn in X. injection X as <- <-.
             rewrite E, Nat.eqb_refl. f_equal. lia.
      + exists (reproject p). rewrite nth_error_app2, Nat.sub_diag by lia. reflexivity.
      + intros d [<-|[]]. reflexivity.
  Qed.
  Lemma last_point_rev (l : list P) : last_point l = hd_error (rev l).
  Proof.
    unfold last_point. destruct l as [|a l] using rev_ind; [reflexivity|]. rewrite rev_app_distr, app_length, nth_error_app2 by (cbn; lia).
    replace (length l + length [a] - 1 - length l) with 0 by (cbn; lia). reflexivity.
  Qed.

  (** C70 (Seattle): if no line is empty, the graph has one vertex per node id named in the rows, at the (reprojected) end of the line
      of some row that names it, and per row the edge from its first to its second node with the line as it is in the file, and for
      two-way roads also the edge back with the line reversed. *)
  Theorem C70_seattle rows : (forall r, In r rows -> sr_line r <> []) ->
    exists h vm vs ess, seattle_read reproject dir rows = Ok (h, vm) /\ graph_is h vs (concat ess) /\ NoDup (map fst vs) /\
      Forall2 (row_made vs) rows ess /\
      (forall id p', In (id, p') vs -> exists r p, In r rows /\ places r id p /\ p' = reproject p).
  Proof.
    intros Ne. unfold seattle_read.
    assert (G : forall rows, (forall r, In r rows -> sr_line r <> []) -> forall h vm vs es, st dir h vs es -> known_as vm vs ->
      exists h1 vm1 new ess, foldO (sea_step reproject dir) rows (h, vm) = Ok (h1, vm1) /\ st dir h1 (vs ++ new) (es ++ concat ess) /\
        known_as vm1 (vs ++ new) /\ Forall2 (row_made (vs ++ new)) rows ess /\
        (forall id p', In (id, p') new -> exists r p, In r rows /\ places r id p /\ p' = reproject p)).
    { clear rows Ne. induction rows as [|r rows IH]; intros Ne h vm vs es S K; cbn [foldO].
      - exists h, vm, [], []. cbn [concat]. rewrite !app_nil_r. split; [reflexivity|]. split; [exact S|]. split; [exact K|]. split; [constructor|]. intros id p' [].
      - pose proof (Ne r (or_introl eq_refl)) as Nr. unfold sea_step at 1. rewrite last_point_rev.
        destruct (hd_error (sr_line r)) as [pf|] eqn:Hf; [|destruct (sr_line r); [congruence|discriminate]].
        destruct (hd_error (rev (sr_line r))) as [pt|] eqn:Ht.
        2:{ destruct (rev (sr_line r)) eqn:X; [|discriminate]. apply (f_equal (@rev P)) in X. rewrite rev_involutive in X. contradiction. }
        destruct (sea_vertex_ok h vm vs es (sr_from r) pf S K) as (h1 & vm1 & i & n1 & -> & S1 & K1 & (qi & Vi) & N1). cbn [bindO fst snd].
        destruct (sea_vertex_ok h1 vm1 _ es (sr_to r) pt S1 K1) as (h2 & vm2 & j & n2 & -> & S2 & K2 & (qj & Vj) & N2). cbn [bindO fst snd].
        assert (Vi2 : nth_error ((vs ++ n1) ++ n2) i = Some (sr_from r, qi)) by (rewrite nth_error_app1; [exact Vi|apply nth_error_Some; congruence]).
        assert (Li : i < length ((vs ++ n1) ++ n2)) by (apply nth_error_Some; congruence).
        assert (Lj : j < length ((vs ++ n1) ++ n2)) by (apply nth_error_Some; congruence).
        destruct (addE_ok dir h2 _ es i j (sr_id r) (sr_line r) S2 Li Lj) as (h3 & -> & S3). cbn [bindO].
        set (l := (i, j, (sr_id r, sr_line r)) :: (if sr_two_way r then [(j, i, (sr_id r, rev (sr_line r)))] else [])).
        assert (T : exists h4, (if sr_two_way r then bindO (addE dir h3 j i (sr_id r) (rev (sr_line r))) (fun h => (h, vm2)) (fun h4 => Ok (h4, vm2))
                                else Ok (h3, vm2)) = Ok (h4, vm2) /\ st dir h4 ((vs ++ n1) ++ n2) (es ++ l)).
        { unfold l. destruct (sr_two_way r).
          - destruct (addE_ok dir h3 _ _ j i (sr_id r) (rev (sr_line r)) S3 Lj Li) as (h4 & -> & S4). exists h4. rewrite <- (app_assoc es) in S4. split; [reflexivity|exact S4].
          - exists h3. auto. }
        destruct T as (h4 & -> & S4). cbn [bindO].
        destruct (IH (fun x X => Ne x (or_intror X)) h4 vm2 _ _ S4 K2) as (h5 & vm5 & n3 & ess & E & S5 & K5 & F & N3).
        exists h5, vm5, (n1 ++ n2 ++ n3), (l :: ess). cbn [concat].
        replace (vs ++ n1 ++ n2 ++ n3) with (((vs ++ n1) ++ n2) ++ n3) by (rewrite <- !app_assoc; reflexivity).
        rewrite (app_assoc es l). split; [exact E|]. split; [exact S5|]. split; [exact K5|]. split.
        + constructor; [|exact F]. exists i, j, qi, qj. split; [rewrite nth_error_app1; assumption|]. split; [rewrite nth_error_app1; assumption|]. reflexivity.
        + intros id p' X. rewrite !in_app_iff in X. destruct X as [X|[X|X]].
          * specialize (N1 _ X). injection N1 as -> ->. exists r, pf. split; [left; reflexivity|]. split; [left; auto|reflexivity].
          * specialize (N2 _ X). injection N2 as -> ->. exists r, pt. split; [left; reflexivity|]. split; [right; auto|reflexivity].
          * destruct (N3 id p' X) as (r' & p & A & B). exists r', p. split; [right; exact A|exact B]. }
    destruct (G rows Ne empty_helper [] [] [] (st_empty dir)) as (h & vm & vs & ess & E & S & K & F & N).
    - split; [constructor|]. intros id i. split; [discriminate|]. intros (p & X). destruct i; discriminate.
    - exists h, vm, vs, ess. split; [exact E|]. split; [apply st_graph; exact S|]. split; [apply K|]. split; [exact F|exact N].
  Qed.
  (** if moreover the rows agree about the place of every node, every edge is drawn from a point whose reprojection is its source to one
      whose reprojection is its target *)
  Corollary C70_seattle_ends rows (place : nat -> P) : (forall r, In r rows -> sr_line r <> []) ->
    (forall r id p, In r rows -> places r id p -> p = place id) ->
    exists h vm vs ess, seattle_read reproject dir rows = Ok (h, vm) /\ graph_is h vs (concat ess) /\ NoDup (map fst vs) /\
      Forall2 (row_made vs) rows ess /\
      forall i j id line, In (i, j, (id, line)) (concat ess) -> exists a b,
        nth_error vs i = Some (a, reproject (place a)) /\ nth_error vs j = Some (b, reproject (place b)) /\
        hd_error line = Some (place a) /\ hd_error (rev line) = Some (place b).
  Proof.
    intros Ne Pl. destruct (C70_seattle rows Ne) as (h & vm & vs & ess & E & G & N & F & V). exists h, vm, vs, ess.
    split; [exact E|]. split; [exact G|]. split; [exact N|]. split; [exact F|].
    assert (Vp : forall i a q, nth_error vs i = Some (a, q) -> q = reproject (place a)).
    { intros i a q H. apply nth_error_In in H. destruct (V a q H) as (r & p & A & B & ->). rewrite (Pl r a p A B). reflexivity. }
    assert (Go : forall r l, In r rows -> row_made vs r l -> forall i j id line, In (i, j, (id, line)) l -> exists a b,
        nth_error vs i = Some (a, reproject (place a)) /\ nth_error vs j = Some (b, reproject (place b)) /\
        hd_error line = Some (place a) /\ hd_error (rev line) = Some (place b)).
    { intros r l Hr (i & j & p & q & Hi & Hj & ->) i' j' id line X.
      assert (Hf : hd_error (sr_line r) = Some (place (sr_from r))).
      { destruct (hd_error (sr_line r)) as [x|] eqn:Y; [rewrite (Pl r (sr_from r) x Hr); [reflexivity|left; auto]|]. destruct (Ne r Hr). destruct (sr_line r); [reflexivity|discriminate]. }
      assert (Ht : hd_error (rev (sr_line r)) = Some (place (sr_to r))).
      { destruct (hd_error (rev (sr_line r))) as [x|] eqn:Y; [rewrite (Pl r (sr_to r) x Hr); [reflexivity|right; auto]|]. destruct (Ne r Hr).
        destruct (rev (sr_line r)) eqn:Z; [|discriminate]. apply (f_equal (@rev P)) in Z. rewrite rev_involutive in Z. exact Z. }
      rewrite (Vp i _ p Hi) in Hi. rewrite (Vp j _ q Hj) in Hj. destruct X as [X|X].
      - injection X as <- <- <- <-. exists (sr_from r), (sr_to r). auto.
      - destruct (sr_two_way r); [|destruct X]. destruct X as [X|[]]. injection X as <- <- <- <-. exists (sr_to r), (sr_from r).
        rewrite rev_involutive. auto. }
    clear -F Go. assert (Sub : incl rows rows) by apply incl_refl. revert Sub. generalize rows at 1 as sub. intros sub Sub.
    assert (G2 : forall sub ess, Forall2 (row_made vs) sub ess -> incl sub rows -> forall i j id line, In (i, j, (id, line)) (concat ess) -> exists a b,
        nth_error vs i = Some (a, reproject (place a)) /\ nth_error vs j = Some (b, reproject (place b)) /\
        hd_error line = Some (place a) /\ hd_error (rev line) = Some (place b)).
    { clear F sub Sub ess. induction 1 as [|r l sub ess M F IH]; intros I i j id line X; cbn in X; [destruct X|]. apply in_app_or in X as [X|X].
      - exact (Go r l (I r (or_introl eq_refl)) M i j id line X).
      - exact (IH (fun x Hx => I x (or_intror Hx)) i j id line X). }
    exact (G2 rows ess F (incl_refl rows)).
  Qed.
End C70.

(** *** witnesses; points are numbers, the reprojection adds 100 *)
Definition shift (p : nat) : nat := p + 100.
(** the vertices' data in order, and per edge the data of its ends and its own *)
Definition ends {VD ED} (h : helper VD ED) : list VD * list (option VD * option VD * ED) :=
  let g := h_graph h in
  let at_v v := option_map (fun x => v_data x) (get_vertex g v) in
  (map (fun x => v_data x) (g_vs g), map (fun e => (at_v (e_src e), at_v (e_tgt e), e_data e)) (g_es g)).
Definition outcome_map {A B} (f : A -> B) (o : outcome A) : outcome B :=
  match o with Ok a => Ok (f a) | Throw a => Throw (f a) | UB => UB | Fuel => Fuel end.

Lemma Ok_inj {A} (a b : A) : Ok a = Ok b -> a = b.
Proof. intros H. injection H as H. exact H. Qed.

Definition two_sets : list (list nat * list (nat * nat)) := [([1; 2; 3], [(0, 1); (2, 1)]); ([7; 8], [(1, 0)])].
Example C70_arc_node_demo :
  (forall ps arcs a b, In (ps, arcs) two_sets -> In (a, b) arcs -> a < length ps /\ b < length ps) /\
  outcome_map ends (arc_node_read shift Bidirectional two_sets) =
    Ok ([(0, 101); (1, 102); (2, 103); (0, 107); (1, 108)],
        [(Some (0, 101), Some (1, 102), (0, [101; 102])); (Some (2, 103), Some (1, 102), (1, [103; 102]));
         (Some (1, 108), Some (0, 107), (0, [108; 107]))]).
Proof.
  split; [|vm_compute; reflexivity]. intros ps arcs a b [X|[X|[]]] Y; injection X as <- <-; cbn [In] in Y.
  - destruct Y as [Y|[Y|[]]]; injection Y as <- <-; cbn [length]; lia.
  - destruct Y as [Y|[]]; injection Y as <- <-; cbn [length]; lia.
Qed.
Example C70_arc_node_demo_rejected : exists h, arc_node_read shift Bidirectional [([1; 2], [(0, 1); (1, 2)])] = Throw h.
Proof. eapply (proj2 (C70_arc_node shift Bidirectional [([1; 2], [(0, 1); (1, 2)])]) [1; 2] [(0, 1); (1, 2)] 1 2); cbn; auto. Qed.

(** node ids start again at 0 for every data set, although node ids are the ids of the network's vertices *)
Theorem C70_arc_node_ids_refuted : exists dss h, arc_node_read shift Bidirectional dss = Ok h /\ ~ NoDup (map fst (fst (ends h))) /\
  (forall ps arcs a b, In (ps, arcs) dss -> In (a, b) arcs -> a < length ps /\ b < length ps).
Proof.
  exists two_sets. destruct (arc_node_read shift Bidirectional two_sets) as [h| | |] eqn:E; [|vm_compute in E; discriminate..].
  exists h. split; [reflexivity|]. split; [|apply (proj1 C70_arc_node_demo)].
  pose proof (proj2 C70_arc_node_demo) as D. rewrite E in D. cbn [outcome_map] in D. apply Ok_inj in D. rewrite D. cbn.
  intros N. inversion_clear N as [|? ? H _]. apply H. cbn. auto.
Qed.

Definition mel_demo : list (list (nat * nat) * list (nat * (nat * nat))) :=
  [([(5, 10); (6, 20); (5, 30)], [(1, (5, 6)); (2, (6, 5))]); ([(9, 40)], [(3, (9, 6))])].
Example C70_melbourne_demo : melbourne_known [] mel_demo /\
  outcome_map (fun s => ends (fst s)) (melbourne_read shift Directed mel_demo) =
    Ok ([(5, 110); (6, 120); (5, 130); (9, 140)],
        [(Some (5, 110), Some (6, 120), (1, [110; 120])); (Some (6, 120), Some (5, 110), (2, [120; 110])); (Some (9, 140), Some (6, 120), (3, [140; 120]))]).
Proof.
  split; [|vm_compute; reflexivity]. cbn. split; [|split; [|exact I]]; intros id f t H; intuition congruence.
Qed.
Example C70_melbourne_demo_rejected : ~ melbourne_known [] [([(5, 10)], [(1, (5, 6))])].
Proof. cbn. intros [H _]. destruct (H 1 5 6 (or_introl eq_refl)) as [_ [X|[]]]. discriminate. Qed.

(** the map of the ids is not cleared between data sets: an edge of the second data set, whose two ids both occur in its own node file,
    joins the vertices which an earlier data set has under these ids *)
Theorem C70_melbourne_sets_refuted : exists ns rows ns2 id f t h vm, melbourne_read shift Directed [(ns, rows); (ns2, [(id, (f, t))])] = Ok (h, vm) /\
  NoDup (map fst ns2) /\ exists p q, In (f, p) ns2 /\ In (t, q) ns2 /\
  forall e, In e (snd (ends h)) -> fst (fst e) <> Some (f, shift p) /\ snd (fst e) <> Some (t, shift q).
Proof.
  exists [(1, 10); (2, 20)], [], [(1, 30); (2, 40)], 7, 1, 2.
  destruct (melbourne_read shift Directed [([(1, 10); (2, 20)], []); ([(1, 30); (2, 40)], [(7, (1, 2))])]) as [[h vm]| | |] eqn:E; [|vm_compute in E; discriminate..].
  exists h, vm. split; [reflexivity|]. split; [repeat constructor; cbn; intuition congruence|]. exists 30, 40. split; [left; reflexivity|]. split; [right; left; reflexivity|].
  vm_compute in E. injection E as <- _. intros e H. vm_compute in H. destruct H as [<-|[]]. cbn. split; discriminate.
Qed.

Definition gis_demo : list (@gis_set nat) := [mkGis [(5, 10); (6, 20)] [(1, (5, 6)); (1, (6, 5)); (2, (6, 6))] [(2, [20; 25; 20]); (1, [10; 15; 20])]].
Example C70_giscup_demo : giscup_known [] [] gis_demo /\
  outcome_map (fun s => ends (fst (fst s))) (giscup_read shift Bidirectional gis_demo) =
    Ok ([(5, 110); (6, 120)], [(Some (6, 120), Some (6, 120), (2, [20; 25; 20])); (Some (5, 110), Some (6, 120), (1, [10; 15; 20]))]).
Proof.
  split; [|vm_compute; reflexivity]. cbn [gis_demo giscup_known gs_nodes gs_edges gs_lines app]. split; [|exact I].
  intros row [<-|[<-|[]]]; cbn [fst].
  - exists 2, 6, 6. split; [|cbn; auto]. split; [reflexivity|]. intros j b L X. destruct j as [|[|j]]; cbn in X; [discriminate..|lia].
  - exists 0, 5, 6. split; [|cbn; auto]. split; [reflexivity|]. intros j b L X. lia.
Qed.
(** the lines are not reprojected although the points of the vertices are, so they do not start where their source lies *)
Theorem C70_giscup_reprojection_refuted : exists h vm em a b id p line, giscup_read shift Bidirectional gis_demo = Ok (h, vm, em) /\
  In (Some (a, p), b, (id, line)) (snd (ends h)) /\ hd_error line <> Some p.
Proof.
  destruct (giscup_read shift Bidirectional gis_demo) as [[[h vm] em]| | |] eqn:E; [|vm_compute in E; discriminate..].
  pose proof (proj2 C70_giscup_demo) as D. rewrite E in D. cbn [outcome_map fst] in D. apply Ok_inj in D.
  exists h, vm, em, 5, (Some (6, 120)), 1, 110, [10; 15; 20]. split; [reflexivity|]. rewrite D. split; [cbn; auto|discriminate].
Qed.

Definition sea_demo : list (@sea_row nat) := [mkSea 1 5 6 true [10; 15; 20]; mkSea 2 6 7 false [20; 30]; mkSea 3 7 5 true [30; 10]].
Definition sea_place (id : nat) : nat := if id =? 5 then 10 else if id =? 6 then 20 else 30.
Example C70_seattle_demo : (forall r, In r sea_demo -> sr_line r <> []) /\ (forall r id p, In r sea_demo -> places r id p -> p = sea_place id) /\
  outcome_map (fun s => ends (fst s)) (seattle_read shift Bidirectional sea_demo) =
    Ok ([(5, 110); (6, 120); (7, 130)],
        [(Some (5, 110), Some (6, 120), (1, [10; 15; 20])); (Some (6, 120), Some (5, 110), (1, [20; 15; 10])); (Some (6, 120), Some (7, 130), (2, [20; 30]));
         (Some (7, 130), Some (5, 110), (3, [30; 10])); (Some (5, 110), Some (7, 130), (3, [10; 30]))]).
Proof.
  split; [|split; [|vm_compute; reflexivity]].
  - intros r [<-|[<-|[<-|[]]]]; discriminate.
  - intros r id p [<-|[<-|[<-|[]]]] [[<- X]|[<- X]]; cbn in X; injection X as <-; reflexivity.
Qed.
(** also here the lines stay as they are in the file *)
Theorem C70_seattle_reprojection_refuted : exists h vm a b id p line, seattle_read shift Bidirectional sea_demo = Ok (h, vm) /\
  In (Some (a, p), b, (id, line)) (snd (ends h)) /\ hd_error line <> Some p.
Proof.
  destruct (seattle_read shift Bidirectional sea_demo) as [[h vm]| | |] eqn:E; [|vm_compute in E; discriminate..].
  pose proof (proj2 (proj2 C70_seattle_demo)) as D. rewrite E in D. cbn [outcome_map fst] in D. apply Ok_inj in D.
  exists h, vm, 6, (Some (7, 130)), 2, 120, [20; 30]. split; [reflexivity|]. rewrite D. split; [cbn; auto|discriminate].
Qed.
(** a row with an empty line ([LINESTRING EMPTY] is read without an exception) and a new node reads [front] of an empty vector *)
Theorem C70_seattle_empty_refuted : exists rows : list (@sea_row nat), seattle_read shift Bidirectional rows = UB.
Proof. exists [mkSea 1 5 6 true []]. vm_compute. reflexivity. Qed.

Print Assumptions C70_arc_node.
Print Assumptions C70_melbourne.
Print Assumptions C70_giscup.
Print Assumptions C70_seattle.
Print Assumptions C70_seattle_ends.
