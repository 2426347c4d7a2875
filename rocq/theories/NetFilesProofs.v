(** Proofs about the importers for single data sets. *)
From Verif Require Import Base ListAux AdjList AdjListSpec AdjListProofs AdjListProofs2 AdjListProofs3 GraphHelper GraphHelperProofs NetFiles.

Section Proofs.
  Context {P : Type}.
  Variable reproject : P -> P.
  Variable dir : direction.
  Notation helper := (helper (nat * P) (nat * list P)).
  Notation edge := (nat * nat * (nat * list P))%type.

  Definition st (h : helper) (vs : list (nat * P)) (es : list edge) : Prop := good_helper dir h /\ holds h vs es.
  Lemma st_empty : st empty_helper [] [].
  Proof. split; [apply good_empty|apply holds_empty]. Qed.

  Lemma addV_ok h vs es id p : st h vs es ->
    exists h1, addV reproject h id p = Ok (h1, length vs) /\ st h1 (vs ++ [(id, reproject p)]) es.
  Proof.
    intros [G H]. unfold addV, add_vertex_with_index_mapping, retry.
    destruct (add_vertex_once_spec dir h (id, reproject p) enough_v vs es G H) as (h1 & G1 & S1).
    change (va_good enough_v) with true in S1. cbv iota in S1. destruct S1 as [R1 H1]. rewrite R1. exists h1. split; [reflexivity|]. split; assumption.
  Qed.
  Lemma addE_ok h vs es i j id line : st h vs es -> i < length vs -> j < length vs ->
    exists h1, addE dir h i j id line = Ok h1 /\ st h1 vs (es ++ [(i, j, (id, line))]).
  Proof.
    intros [G H] Hi Hj. unfold addE, add_edge_by_value, retry. cbn [fst snd].
    destruct (add_edge_once_spec dir h i j (id, line) enough_e vs es G H) as (h1 & G1 & S1).
    apply Nat.ltb_lt in Hi, Hj. rewrite Hi, Hj in S1. cbn [andb] in S1.
    assert (Gd : ea_good dir i j enough_e = true).
    { unfold ea_good, enough_e, add_edge_succeeds; cbn. destruct dir; try reflexivity. apply orb_true_r. }
    rewrite Gd in S1. destruct S1 as (e & R1 & H1). unfold enough_e in *. cbn [ea_1 ea_2 ea_3]. rewrite R1. exists h1. split; [reflexivity|]. split; assumption.
  Qed.
  Lemma point_ok h vs es i d : st h vs es -> nth_error vs i = Some d -> point_of h i = Ok (Some (snd d)).
  Proof.
    intros [G [Hv _]] Hi. rewrite <- Hv, nth_error_map in Hi. destruct (nth_error (g_vs (h_graph h)) i) as [x|] eqn:Ex; [|discriminate].
    cbn in Hi. injection Hi as <-. destruct (good_aligned dir h G) as [_ A]. destruct (A i x Ex) as (_ & B & C).
    unfold point_of. rewrite B. rewrite C. reflexivity.
  Qed.
  Lemma straight_ok h vs es i j id a b : st h vs es -> nth_error vs i = Some a -> nth_error vs j = Some b ->
    exists h1, straight dir h i j id = Ok h1 /\ st h1 vs (es ++ [(i, j, (id, [snd a; snd b]))]).
  Proof.
    intros S Hi Hj. unfold straight. rewrite (point_ok h vs es i a S Hi), (point_ok h vs es j b S Hj).
    apply addE_ok; [exact S|apply nth_error_Some; congruence|apply nth_error_Some; congruence].
  Qed.

  (** *** arcs and nodes *)
  Lemma arc_nodes_ok ps : forall h nm id vs es, st h vs es ->
    exists h1, foldO (arc_node_row reproject) ps (h, nm, id) = Ok (h1, nm ++ seq (length vs) (length ps), id + length ps) /\
      st h1 (vs ++ combine (seq id (length ps)) (map reproject ps)) es.
  Proof.
    induction ps as [|p ps IH]; intros h nm id vs es S; cbn [foldO length seq combine map].
    - exists h. rewrite !app_nil_r, Nat.add_0_r. auto.
    - unfold arc_node_row at 1. destruct (addV_ok h vs es id p S) as (h1 & -> & S1). cbn [bindO].
      destruct (IH h1 (nm ++ [length vs]) (id + 1) _ es S1) as (h2 & E & S2). exists h2. rewrite E. split.
      + rewrite app_length. cbn [length]. rewrite <- app_assoc, !Nat.add_1_r. cbn [app]. f_equal. f_equal. lia.
      + rewrite <- app_assoc in S2. rewrite Nat.add_1_r in S2. exact S2.
  Qed.

  (** an arc row with its number and the edge made of it; the nodes of the data set start at index [o] *)
  Definition arc_made (o : nat) (ps : list P) (r : nat * (nat * nat)) (e : edge) : Prop :=
    exists pa pb, nth_error ps (fst (snd r)) = Some pa /\ nth_error ps (snd (snd r)) = Some pb /\
      e = (o + fst (snd r), o + snd (snd r), (fst r, [reproject pa; reproject pb])).
  Lemma numbered_nth (ps : list P) id i p : nth_error ps i = Some p ->
    nth_error (combine (seq id (length ps)) (map reproject ps)) i = Some (id + i, reproject p).
  Proof.
    revert id i. induction ps as [|q ps IH]; intros id [|i] H; cbn in *; try discriminate.
    - injection H as ->. rewrite Nat.add_0_r. reflexivity.
    - rewrite (IH (S id) i H). f_equal. f_equal. lia.
  Qed.
  Lemma nth_seq o n i : i < n -> nth_error (seq o n) i = Some (o + i).
  Proof. intros H. rewrite (nth_error_nth' _ 0) by (rewrite seq_length; exact H). rewrite seq_nth by exact H. reflexivity. Qed.

  Lemma arcs_ok o ps arcs : forall h id vs es, st h vs es ->
    (forall i p, nth_error ps i = Some p -> exists n, nth_error vs (o + i) = Some (n, reproject p)) ->
    ((forall ab, In ab arcs -> fst ab < length ps /\ snd ab < length ps) ->
     exists h1 new, foldO (arc_row dir) arcs (h, seq o (length ps), id) = Ok (h1, seq o (length ps), id + length arcs) /\
       st h1 vs (es ++ new) /\ Forall2 (arc_made o ps) (combine (seq id (length arcs)) arcs) new) /\
    (~ (forall ab, In ab arcs -> fst ab < length ps /\ snd ab < length ps) ->
     exists s, foldO (arc_row dir) arcs (h, seq o (length ps), id) = Throw s).
  Proof.
    induction arcs as [|[a b] arcs IH]; intros h id vs es S V; cbn [foldO length seq combine].
    - split; [|intros H; destruct H; intros ab []]. intros _. exists h, []. rewrite app_nil_r, Nat.add_0_r. auto.
    - assert (Dec : (a < length ps /\ b < length ps) \/ ~ (a < length ps /\ b < length ps)) by lia.
      unfold arc_row at 1 3. cbn [fst snd]. destruct Dec as [[La Lb]|Dec].
      + rewrite !nth_seq by assumption.
        destruct (nth_error ps a) as [pa|] eqn:Ea; [|apply nth_error_None in Ea; lia].
        destruct (nth_error ps b) as [pb|] eqn:Eb; [|apply nth_error_None in Eb; lia].
        destruct (V a pa Ea) as (na & Va). destruct (V b pb Eb) as (nb & Vb).
        destruct (straight_ok h vs es (o + a) (o + b) id (na, reproject pa) (nb, reproject pb) S Va Vb) as (h1 & -> & S1). cbn [bindO snd] in *.
        destruct (IH h1 (id + 1) vs _ S1 V) as [Good Bad]. split.
        * intros H. destruct (Good (fun ab I => H ab (or_intror I))) as (h2 & new & E & S2 & F).
          exists h2, ((o + a, o + b, (id, [reproject pa; reproject pb])) :: new). rewrite E. split; [f_equal; f_equal; lia|]. split.
          -- rewrite <- app_assoc in S2. exact S2.
          -- constructor; [exists pa, pb; cbn; auto|]. rewrite Nat.add_1_r in F. exact F.
        * intros H. apply Bad. intros X. apply H. intros ab [<-|I]; [cbn; lia|apply X; exact I].
      + split; [intros H; destruct Dec; apply (H (a, b)); left; reflexivity|]. intros _.
        destruct (nth_error (seq o (length ps)) a) as [x|] eqn:Ea; [|cbn; eauto].
        destruct (nth_error (seq o (length ps)) b) as [y|] eqn:Eb; [|cbn; eauto].
        assert (a < length (seq o (length ps))) by (apply nth_error_Some; congruence).
        assert (b < length (seq o (length ps))) by (apply nth_error_Some; congruence). rewrite seq_length in *. destruct Dec. auto.
  Qed.

  Definition arcs_fit (ds : list P * list (nat * nat)) : Prop :=
    forall ab, In ab (snd ds) -> fst ab < length (fst ds) /\ snd ab < length (fst ds).
  Definition arc_vertices (ds : list P * list (nat * nat)) : list (nat * P) :=
    combine (seq 0 (length (fst ds))) (map reproject (fst ds)).
  Lemma arc_set_ok h vs es ds : st h vs es ->
    (arcs_fit ds -> exists h1 new, arc_set reproject dir h ds = Ok h1 /\ st h1 (vs ++ arc_vertices ds) (es ++ new) /\
       Forall2 (arc_made (length vs) (fst ds)) (combine (seq 0 (length (snd ds))) (snd ds)) new) /\
    (~ arcs_fit ds -> exists h1, arc_set reproject dir h ds = Throw h1).
  Proof.
    intros S. destruct ds as [ps arcs]. unfold arc_set, arcs_fit, arc_vertices. cbn [fst snd].
    destruct (arc_nodes_ok ps h [] 0 vs es S) as (h1 & -> & S1). cbn [bindO fst app].
    assert (V : forall i p, nth_error ps i = Some p ->
      exists n, nth_error (vs ++ combine (seq 0 (length ps)) (map reproject ps)) (length vs + i) = Some (n, reproject p)).
    { intros i p H. exists i. rewrite nth_error_app2 by lia. replace (length vs + i - length vs) with i by lia. apply (numbered_nth ps 0 i p H). }
    destruct (arcs_ok (length vs) ps arcs h1 0 _ es S1 V) as [Good Bad]. split.
    - intros H. destruct (Good H) as (h2 & new & -> & S2 & F). cbn. exists h2, new. auto.
    - intros H. destruct (Bad H) as ([[h2 nm] id] & ->). cbn. eauto.
  Qed.

  (** *** maps *)
  Lemma find_id_app {A} (m t : list (nat * A)) id : find_id (m ++ t) id = match find_id m id with Some a => Some a | None => find_id t id end.
  Proof. induction m as [|[k a] m IH]; cbn; [reflexivity|]. destruct (k =? id); auto. Qed.
  Lemma find_emplace {A} (m : list (nat * A)) id a x :
    find_id (emplace_id m id a) x = match find_id m x with Some b => Some b | None => if id =? x then Some a else None end.
  Proof.
    unfold emplace_id. destruct (find_id m id) as [b|] eqn:E.
    - destruct (find_id m x) eqn:F; [reflexivity|]. destruct (Nat.eqb_spec id x) as [->|]; [congruence|reflexivity].
    - rewrite find_id_app. cbn. reflexivity.
  Qed.

  (** the first of the rows [R] with the id is the [i]-th *)
  Definition first_row {A} (R : list (nat * A)) (id i : nat) (a : A) : Prop :=
    nth_error R i = Some (id, a) /\ forall j b, j < i -> nth_error R j <> Some (id, b).
  Lemma first_row_snoc {A} (R : list (nat * A)) k b id i a :
    first_row (R ++ [(k, b)]) id i a <-> first_row R id i a \/ ((forall j c, nth_error R j <> Some (id, c)) /\ i = length R /\ k = id /\ a = b).
  Proof.
    unfold first_row. split.
    - intros [H F]. destruct (Nat.lt_ge_cases i (length R)) as [L|L].
      + left. rewrite nth_error_app1 in H by exact L. split; [exact H|]. intros j c Hj X. apply (F j c Hj). rewrite nth_error_app1 by lia. exact X.
      + right. rewrite nth_error_app2 in H by exact L. destruct (i - length R) as [|d] eqn:D; [|destruct d; discriminate]. cbn in H. injection H as -> ->.
        split; [|split; [lia|auto]]. intros j c X. assert (Lj : j < length R) by (apply nth_error_Some; congruence).
        apply (F j c); [lia|]. rewrite nth_error_app1 by exact Lj. exact X.
    - intros [[H F]|(F & -> & -> & ->)].
      + assert (L : i < length R) by (apply nth_error_Some; congruence). split; [rewrite nth_error_app1 by exact L; exact H|].
        intros j c Hj X. rewrite nth_error_app1 in X by lia. exact (F j c Hj X).
      + split; [rewrite nth_error_app2, Nat.sub_diag by lia; reflexivity|]. intros j c Hj X. rewrite nth_error_app1 in X by exact Hj. exact (F j c X).
  Qed.
  Lemma first_row_unique {A} (R : list (nat * A)) id i j a b : first_row R id i a -> first_row R id j b -> i = j /\ a = b.
  Proof.
    intros [H F] [H' F']. assert (i = j) as ->.
    { destruct (Nat.lt_trichotomy i j) as [L|[L|L]]; [destruct (F' i a L H)|exact L|destruct (F j b L H')]. }
    split; [reflexivity|]. congruence.
  Qed.
  Lemma first_row_exists {A} (R : list (nat * A)) id : In id (map fst R) -> exists i a, first_row R id i a.
  Proof.
    induction R as [|[k b] R IH] using rev_ind; intros H; [destruct H|]. rewrite map_app, in_app_iff in H. cbn in H.
    destruct (in_dec Nat.eq_dec id (map fst R)) as [I|N].
    - destruct (IH I) as (i & a & F). exists i, a. apply first_row_snoc. auto.
    - destruct H as [H|[<-|[]]]; [contradiction|]. exists (length R), b. apply first_row_snoc. right. split; [|auto].
      intros j c X. apply N. apply nth_error_In in X. apply in_map_iff. exists (k, c). auto.
  Qed.

  (** the map holds the index of the first row of every id *)
  Definition indexes (vm : list (nat * nat)) (R : list (nat * P)) : Prop :=
    forall id i, find_id vm id = Some i <-> exists p, first_row R id i p.
  Definition vertices_of (R : list (nat * P)) : list (nat * P) := map (fun r => (fst r, reproject (snd r))) R.

  Lemma indexes_nil : indexes [] [].
  Proof. intros id i. split; [discriminate|]. intros (p & H & _). destruct i; discriminate. Qed.
  Lemma indexes_snoc vm R id p : indexes vm R -> indexes (emplace_id vm id (length R)) (R ++ [(id, p)]).
  Proof.
    intros I x i. rewrite find_emplace. split.
    - destruct (find_id vm x) as [j|] eqn:E.
      + intros X. injection X as <-. apply I in E as (q & F). exists q. apply first_row_snoc. auto.
      + destruct (Nat.eqb_spec id x) as [->|N]; [|discriminate]. intros X. injection X as <-. exists p. apply first_row_snoc. right.
        split; [|auto]. intros j c X. destruct (first_row_exists R x) as (k & q & F); [apply nth_error_In in X; apply in_map_iff; exists (x, c); auto|].
        assert (Z : find_id vm x = Some k) by (apply I; exists q; exact F). congruence.
    - intros (q & F). apply first_row_snoc in F as [F|(F & -> & -> & ->)].
      + assert (Z : find_id vm x = Some i) by (apply I; exists q; exact F). rewrite Z. reflexivity.
      + destruct (find_id vm x) as [j|] eqn:E; [apply I in E as (q & E & _); destruct (F j q E)|]. rewrite Nat.eqb_refl. reflexivity.
  Qed.

  Lemma node_rows_ok ns : forall h vm R es, st h (vertices_of R) es -> indexes vm R ->
    exists h1 vm1, foldO (node_row reproject) ns (h, vm) = Ok (h1, vm1) /\ st h1 (vertices_of (R ++ ns)) es /\ indexes vm1 (R ++ ns).
  Proof.
    induction ns as [|[id p] ns IH]; intros h vm R es S I; cbn [foldO].
    - exists h, vm. rewrite app_nil_r. auto.
    - unfold node_row at 1. cbn [fst snd]. destruct (addV_ok h _ es id p S) as (h1 & -> & S1). cbn [bindO].
      replace (length (vertices_of R)) with (length R) by (unfold vertices_of; rewrite map_length; reflexivity).
      destruct (IH h1 (emplace_id vm id (length R)) (R ++ [(id, p)]) es) as (h2 & vm2 & E & S2 & I2).
      + unfold vertices_of. rewrite map_app. exact S1.
      + apply indexes_snoc. exact I.
      + exists h2, vm2. rewrite <- app_assoc in *. auto.
  Qed.
  Lemma vertices_nth R id i p : first_row R id i p -> nth_error (vertices_of R) i = Some (id, reproject p).
  Proof. intros [H _]. unfold vertices_of. rewrite nth_error_map, H. reflexivity. Qed.

  Lemma not_indexed vm R id : indexes vm R -> ~ In id (map fst R) -> find_id vm id = None.
  Proof.
    intros I N. destruct (find_id vm id) as [i|] eqn:E; [|reflexivity]. apply I in E as (p & E & _). apply nth_error_In in E. destruct N.
    apply in_map_iff. exists (id, p). auto.
  Qed.

  (** *** Melbourne *)
  Definition straight_made (R : list (nat * P)) (r : nat * (nat * nat)) (e : edge) : Prop :=
    exists i j p q, first_row R (fst (snd r)) i p /\ first_row R (snd (snd r)) j q /\ e = (i, j, (fst r, [reproject p; reproject q])).
  Lemma edge_rows_ok R rows : forall h vm es, st h (vertices_of R) es -> indexes vm R ->
    ((forall r, In r rows -> In (fst (snd r)) (map fst R) /\ In (snd (snd r)) (map fst R)) ->
     exists h1 new, foldO (edge_row dir) rows (h, vm) = Ok (h1, vm) /\ st h1 (vertices_of R) (es ++ new) /\ Forall2 (straight_made R) rows new) /\
    (~ (forall r, In r rows -> In (fst (snd r)) (map fst R) /\ In (snd (snd r)) (map fst R)) ->
     exists s, foldO (edge_row dir) rows (h, vm) = Throw s).
  Proof.
    induction rows as [|[id [f t]] rows IH]; intros h vm es S I; cbn [foldO].
    - split; [|intros H; destruct H; intros r []]. intros _. exists h, []. rewrite app_nil_r. auto.
    - unfold edge_row at 1 3. cbn [fst snd].
      destruct (in_dec Nat.eq_dec f (map fst R)) as [If|Nf].
      2:{ rewrite (not_indexed vm R f I Nf). split; [intros H; destruct Nf; apply (H _ (or_introl eq_refl))|]. cbn. eauto. }
      destruct (first_row_exists R f If) as (i & p & Fi). rewrite (proj2 (I f i) (ex_intro _ p Fi)).
      destruct (in_dec Nat.eq_dec t (map fst R)) as [It|Nt].
      2:{ rewrite (not_indexed vm R t I Nt). split; [intros H; destruct Nt; apply (H _ (or_introl eq_refl))|]. cbn. eauto. }
      destruct (first_row_exists R t It) as (j & q & Fj). rewrite (proj2 (I t j) (ex_intro _ q Fj)).
      destruct (straight_ok h _ es i j id _ _ S (vertices_nth R f i p Fi) (vertices_nth R t j q Fj)) as (h1 & -> & S1). cbn [bindO snd] in *.
      destruct (IH h1 vm _ S1 I) as [Good Bad]. split.
      + intros H. destruct (Good (fun r X => H r (or_intror X))) as (h2 & new & E & S2 & F).
        exists h2, ((i, j, (id, [reproject p; reproject q])) :: new). split; [exact E|]. split; [rewrite <- app_assoc in S2; exact S2|].
        constructor; [|exact F]. exists i, j, p, q. auto.
      + intros H. apply Bad. intros X. apply H. intros r [<-|Hr]; [cbn; auto|apply X; exact Hr].
  Qed.

  (** *** GISCUP *)
  Definition edge_indexes {A} (em E : list (nat * A)) : Prop :=
    forall id ft, find_id em id = Some ft <-> exists k, first_row E id k ft.
  Lemma edge_indexes_ok {A} (rows : list (nat * A)) : forall em E, edge_indexes em E ->
    edge_indexes (fold_left (fun em r => emplace_id em (fst r) (snd r)) rows em) (E ++ rows).
  Proof.
    induction rows as [|[id ft] rows IH]; intros em E I; cbn [fold_left]; [rewrite app_nil_r; exact I|].
    replace (E ++ (id, ft) :: rows) with ((E ++ [(id, ft)]) ++ rows) by (rewrite <- app_assoc; reflexivity). apply IH. cbn [fst snd].
    intros x y. rewrite find_emplace. split.
    - destruct (find_id em x) as [z|] eqn:F.
      + intros X. injection X as <-. apply I in F as (k & F). exists k. apply first_row_snoc. auto.
      + destruct (Nat.eqb_spec id x) as [->|N]; [|discriminate]. intros X. injection X as <-. exists (length E). apply first_row_snoc. right.
        split; [|auto]. intros j c X. destruct (first_row_exists E x) as (k & q & F'); [apply nth_error_In in X; apply in_map_iff; exists (x, c); auto|].
        assert (Z : find_id em x = Some q) by (apply I; exists k; exact F'). congruence.
    - intros (k & F). apply first_row_snoc in F as [F|(F & -> & -> & ->)].
      + assert (Z : find_id em x = Some y) by (apply I; exists k; exact F). rewrite Z. reflexivity.
      + destruct (find_id em x) as [z|] eqn:G; [apply I in G as (j & G & _); destruct (F j z G)|]. rewrite Nat.eqb_refl. reflexivity.
  Qed.
  Definition drawn_made (R : list (nat * P)) (E : list (nat * (nat * nat))) (r : nat * list P) (e : edge) : Prop :=
    exists k f t i j p q, first_row E (fst r) k (f, t) /\ first_row R f i p /\ first_row R t j q /\ e = (i, j, r).
  (** the edge of the row is known, and the nodes of its first entry *)
  Definition row_known (R : list (nat * P)) (E : list (nat * (nat * nat))) (r : nat * list P) : Prop :=
    exists k f t, first_row E (fst r) k (f, t) /\ In f (map fst R) /\ In t (map fst R).
  Lemma geometry_rows_ok R E rows : forall h vm em es, st h (vertices_of R) es -> indexes vm R -> edge_indexes em E ->
    ((forall r, In r rows -> row_known R E r) ->
     exists h1 new, foldO (geometry_row dir) rows (h, vm, em) = Ok (h1, vm, em) /\ st h1 (vertices_of R) (es ++ new) /\ Forall2 (drawn_made R E) rows new) /\
    (~ (forall r, In r rows -> row_known R E r) -> exists s, foldO (geometry_row dir) rows (h, vm, em) = Throw s).
  Proof.
    induction rows as [|[id line] rows IH]; intros h vm em es S I J; cbn [foldO].
    - split; [|intros H; destruct H; intros r []]. intros _. exists h, []. rewrite app_nil_r. auto.
    - unfold geometry_row at 1 3. cbn [fst snd].
      destruct (find_id em id) as [[f t]|] eqn:Ee.
      2:{ split; [|cbn; eauto]. intros H. destruct (H _ (or_introl eq_refl)) as (k & f & t & K & _). cbn in K.
          rewrite (proj2 (J id (f, t)) (ex_intro _ k K)) in Ee. discriminate. }
      apply J in Ee as (k & Fk).
      assert (Un : forall k' f' t', first_row E id k' (f', t') -> f' = f /\ t' = t).
      { intros k' f' t' F'. destruct (first_row_unique E id k k' _ _ Fk F') as [_ X]. injection X as -> ->. auto. }
      destruct (in_dec Nat.eq_dec f (map fst R)) as [If|Nf].
      2:{ rewrite (not_indexed vm R f I Nf). split; [|cbn; eauto].
          intros H. destruct (H _ (or_introl eq_refl)) as (k' & f' & t' & K & X & _). cbn in K. destruct (Un _ _ _ K) as [-> _]. contradiction. }
      destruct (first_row_exists R f If) as (i & p & Fi). rewrite (proj2 (I f i) (ex_intro _ p Fi)).
      destruct (in_dec Nat.eq_dec t (map fst R)) as [It|Nt].
      2:{ rewrite (not_indexed vm R t I Nt). split; [|cbn; eauto].
          intros H. destruct (H _ (or_introl eq_refl)) as (k' & f' & t' & K & _ & X). cbn in K. destruct (Un _ _ _ K) as [_ ->]. contradiction. }
      destruct (first_row_exists R t It) as (j & q & Fj). rewrite (proj2 (I t j) (ex_intro _ q Fj)).
      pose proof (vertices_nth R f i p Fi) as Vi. pose proof (vertices_nth R t j q Fj) as Vj.
      rewrite (point_ok h _ es i _ S Vi), (point_ok h _ es j _ S Vj).
      destruct (addE_ok h _ es i j id line S) as (h1 & -> & S1); [apply nth_error_Some; congruence|apply nth_error_Some; congruence|]. cbn [bindO].
      destruct (IH h1 vm em _ S1 I J) as [Good Bad]. split.
      + intros H. destruct (Good (fun r X => H r (or_intror X))) as (h2 & new & E2 & S2 & F).
        exists h2, ((i, j, (id, line)) :: new). split; [exact E2|]. split; [rewrite <- app_assoc in S2; exact S2|].
        constructor; [|exact F]. exists k, f, t, i, j, p, q. auto.
      + intros H. apply Bad. intros X. apply H. intros r [<-|Hr]; [exists k, f, t; auto|apply X; exact Hr].
  Qed.
End Proofs.
