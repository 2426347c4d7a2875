(** Property C96: the tags of an imported OpenStreetMap file, for all files and all patterns of failed allocations of the two tag storages. *)
From Verif Require Import Base ListAux AdjList AdjListSpec AdjListProofs AdjListProofs2 AdjListProofs3 GraphHelper GraphHelperProofs Osm OsmProofs OsmProps
  Csr CsrProofs CsrProps Tags TagsProofs TagsProps TagListProps Compress CompressProps OsmTags.
Local Open Scope nat_scope.
Local Open Scope list_scope.

(** what the files say *)
Section Said.
  Context {P Str : Type}.
  Variables query filter_ : Str * Str -> bool.
  Definition plain (x : tagged P Str) : entity P (Str * Str) :=
    match x with TNode v id p _ => Node v id p | TWay v w ns ts => Way v w ns ts end.
  Definition tags_in (x : tagged P Str) : list (Str * Str) := match x with TNode _ _ _ ts => ts | TWay _ _ _ ts => ts end.
  (** the tags of the first visible node with a number *)
  Fixpoint node_said (xs : list (tagged P Str)) (n : nat) : list (Str * Str) :=
    match xs with
    | [] => []
    | TNode true id _ ts :: r => if id =? n then ts else node_said r n
    | _ :: r => node_said r n
    end.
  (** the tags of the first way that is visible and kept with a number *)
  Fixpoint way_said (xs : list (tagged P Str)) (n : nat) : list (Str * Str) :=
    match xs with
    | [] => []
    | TWay true w _ ts :: r => if (w =? n) && (existsb query ts && forallb filter_ ts) then ts else way_said r n
    | _ :: r => way_said r n
    end.
  Definition said (xs : list (tagged P Str)) (w : bool) (n : nat) : list (Str * Str) := if w then node_said xs n else way_said xs n.
  (** ways with the same number have the same tags *)
  Definition one_way (xs : list (tagged P Str)) : Prop := forall w ns ts ns' ts', In (TWay true w ns ts) xs -> In (TWay true w ns' ts') xs ->
    existsb query ts && forallb filter_ ts = true -> existsb query ts' && forallb filter_ ts' = true -> ts = ts'.
  (** something visible has the number *)
  Definition named (xs : list (tagged P Str)) (w : bool) (n : nat) : Prop :=
    if w then exists p ts, In (TNode true n p ts) xs else exists ns ts, In (TWay true n ns ts) xs /\ existsb query ts && forallb filter_ ts = true.

  Lemma node_said_first pre n p ts suf : (forall q l, ~ In (TNode true n q l) pre) -> node_said (pre ++ TNode true n p ts :: suf) n = ts.
  Proof.
    induction pre as [|x pre IH]; intros N; cbn [app node_said].
    - rewrite Nat.eqb_refl. reflexivity.
    - assert (K : node_said (pre ++ TNode true n p ts :: suf) n = ts) by (apply IH; intros q l H; apply (N q l); right; exact H).
      destruct x as [[|] id q l|v w ns l]; [|exact K|exact K]. destruct (Nat.eqb_spec id n) as [->|]; [|exact K].
      exfalso. apply (N q l). left. reflexivity.
  Qed.
  Lemma way_said_one xs w ns ts : one_way xs -> In (TWay true w ns ts) xs -> existsb query ts && forallb filter_ ts = true -> way_said xs w = ts.
  Proof.
    intros U H K. assert (A : forall ys, incl ys xs -> In (TWay true w ns ts) ys -> way_said ys w = ts).
    { induction ys as [|y ys IH]; intros I Hin; [destruct Hin|]. cbn [way_said].
      assert (Iy : incl ys xs) by (intros z Hz; apply I; right; exact Hz).
      destruct y as [v id q l|[|] w' ns' l].
      - apply IH; [exact Iy|]. destruct Hin as [E|Hin]; [discriminate E|exact Hin].
      - destruct (w' =? w) eqn:Ew; cbn [andb].
        + apply Nat.eqb_eq in Ew. subst w'. destruct (existsb query l && forallb filter_ l) eqn:Kl.
          * eapply U; [|exact H|exact Kl|exact K]. apply I. left. reflexivity.
          * apply IH; [exact Iy|]. destruct Hin as [E|Hin]; [|exact Hin]. injection E as -> ->. congruence.
        + apply IH; [exact Iy|]. destruct Hin as [E|Hin]; [|exact Hin]. injection E as -> _ _. rewrite Nat.eqb_refl in Ew. discriminate Ew.
      - apply IH; [exact Iy|]. destruct Hin as [E|Hin]; [discriminate E|exact Hin]. }
    apply A; [apply incl_refl|exact H].
  Qed.
  Lemma said_in xs w n k v : In (k, v) (said xs w n) -> exists x, In x xs /\ In (k, v) (tags_in x).
  Proof.
    unfold said. destruct w; induction xs as [|x xs IH]; cbn [node_said way_said]; intros H; try destruct H;
      (assert (K : forall y, (y = x \/ In y xs) /\ In (k, v) (tags_in y) -> exists z, In z (x :: xs) /\ In (k, v) (tags_in z))
        by (intros y [[->|Hy] Ht]; [exists x|exists y]; split; cbn [In]; auto));
      (assert (N : (exists y, In y xs /\ In (k, v) (tags_in y)) -> exists z, In z (x :: xs) /\ In (k, v) (tags_in z))
        by (intros (y & A & B); apply (K y); auto)); destruct x as [[|] id p l|[|] w ns l]; auto.
    - destruct (id =? n); [|auto]. apply (K (TNode true id p l)); auto.
    - destruct ((w =? n) && (existsb query l && forallb filter_ l)); [|auto]. apply (K (TWay true w ns l)); auto.
  Qed.
End Said.

Section Props.
  Context {P Str : Type}.
  Variable sort : list (osm_vertex P) -> list (osm_vertex P).
  Hypothesis sort_ok : sorts sort.
  Variables query filter_ oneway oneway_reverse : Str * Str -> bool.
  Variable dir : direction.
  Variables oom1 oom2 : nat -> bool.
  Variable seqb : Str -> Str -> bool.
  Hypothesis OK : forall a b, seqb a b = true <-> a = b.
  Variable store : Str -> Str.
  Variables m1 mt1 m2 mt2 moved : bool.
  Hypothesis safe : moved = true -> mt1 = false /\ mt2 = false.
  Notation helper := (helper (nat * P) (nat * (P * P))).
  Notation tags_state := (tags_state Str).
  Notation tagged := (tagged P Str).
  Variable xs : list tagged.
  Hypothesis texts : forall x k v, In x xs -> In (k, v) (tags_in x) -> store k = k /\ store v = v.
  Hypothesis ways : one_way query filter_ xs.
  Notation pairs := (said query filter_ xs).
  Notation N := (named query filter_ xs).
  Notation right := (right pairs N).
  Notation ready := (ready pairs).

  Lemma pairs_intact w n : intact store (pairs w n).
  Proof. intros k v H. destruct (said_in query filter_ xs w n k v H) as (x & A & B). exact (texts x k v A B). Qed.

  (** ** One list of tags *)
  Definition tags_fine (oom : nat -> bool) (mapped w : bool) (n : nat) (s : tags_state) (r : outcome (unit * tags_state)) : Prop :=
    match r with
    | Ok (_, s') => right s' /\ CompressProps.kept s s' /\ ready w n s'
    | Throw (_, s') => right s' /\ CompressProps.kept s s' /\ exists k, oom k = true
    | UB => mapped = true /\ exists k, oom k = true
    | Fuel => False
    end.
  Lemma set_tags_spec oom mapped w n s : (moved = true -> mapped = false) -> right s -> N w n ->
    tags_fine oom mapped w n s (set_tags seqb store moved oom mapped w n (pairs w n) s).
  Proof.
    intros Sf R Pn. pose proof R as (G & F & H). unfold set_tags. destruct (pairs w n) as [|kv l] eqn:El.
    - split; [exact R|]. split; [apply kept_refl|]. left. exact El.
    - assert (I : intact store (kv :: l)) by (rewrite <- El; apply pairs_intact).
      destruct (mk_tags_spec seqb OK store oom mapped (kv :: l) s G I F) as [(is & s' & -> & G' & X & T & M)|(s' & -> & G' & X & Q & M)].
      + destruct (right_extends pairs N s s' R G' X) as [R' K'].
        destruct (oom (clock s')) eqn:O; cbn [negb].
        * assert (X' : extends s (tick s')) by (eapply extends_trans; [exact X|apply extends_tick]).
          destruct (right_extends pairs N s (tick s') R (good_tick _ G') X') as [R2 K2].
          destruct mapped; cbn [negb]; [|split; [exact R2|]; split; [exact K2|eauto]].
          destruct moved; cbn [negb]; [discriminate (Sf eq_refl)|]. split; [reflexivity|eauto].
        * set (s2 := tick (set_map w (emplace Nat.eqb n is (get_map w s')) s')).
          assert (Hm : forall w' m, find_key Nat.eqb m (get_map w' s2) =
                    match find_key Nat.eqb m (get_map w' s') with Some t => Some t | None => if Bool.eqb w' w && (m =? n) then Some is else None end).
          { intros w' m. unfold s2. destruct w, w'; cbn [get_map set_map tick set_nodes set_edges nodes edges Bool.eqb andb].
            1,4: rewrite find_key_emplace; destruct (find_key Nat.eqb m _); [reflexivity|destruct (m =? n); reflexivity].
            - destruct (find_key Nat.eqb m (edges s')); reflexivity.
            - destruct (find_key Nat.eqb m (nodes s')); reflexivity. }
          assert (Ht : forall j, tag s2 j = tag s' j) by (intros j; unfold s2; destruct w; reflexivity).
          split; [|split].
          -- split; [unfold s2; destruct w; destruct G' as [A B C D]; constructor; assumption|].
             split; [rewrite <- F, <- (extends_final _ _ X); unfold s2; destruct w; reflexivity|].
             intros w' m is' E. rewrite Hm in E. rewrite (map_ext _ _ Ht).
             destruct (find_key Nat.eqb m (get_map w' s')) as [t|] eqn:Et.
             ++ injection E as <-. destruct R' as (_ & _ & H'). apply (H' w' m t Et).
             ++ destruct (Bool.eqb w' w && (m =? n)) eqn:Eb; [|discriminate E]. injection E as <-.
                apply andb_prop in Eb as [E1 E2]. apply Bool.eqb_prop in E1. apply Nat.eqb_eq in E2. subst w' m. rewrite El. split; [exact T|exact Pn].
          -- destruct K' as [K1 K2]. split; [unfold s2; destruct w; cbn; lia|]. intros w' m is' E. rewrite Hm, (K2 w' m is' E). reflexivity.
          -- right. rewrite Hm. destruct (find_key Nat.eqb n (get_map w s')); [discriminate|]. rewrite Bool.eqb_reflx, Nat.eqb_refl. discriminate.
      + destruct (right_extends pairs N s s' R G' X) as [R' K']. split; [exact R'|]. split; [exact K'|]. destruct Q as (k & _ & Hk). eauto.
  Qed.
  Lemma again_spec oom mapped m w n f s : (forall s, right s -> tags_fine oom mapped w n s (f s)) -> right s -> tags_fine oom mapped w n s (again m f s).
  Proof.
    intros Hf R. unfold again. pose proof (Hf s R) as C. destruct (f s) as [[u s1]|[u s1]| |]; try exact C.
    destruct C as (R1 & K1 & B). destruct m; [|split; auto]. pose proof (Hf s1 R1) as C.
    destruct (f s1) as [[u2 s2]|[u2 s2]| |]; cbn [tags_fine] in *; try exact C; destruct C as (A1 & A2 & A3); (split; [exact A1|]); (split; [eapply kept_trans; eassumption|exact A3]).
  Qed.
  Lemma pairs_of_spec (s : tags_state) is l : map (tag s) is = map Some l -> pairs_of s is = Some l.
  Proof.
    revert l. induction is as [|i is IH]; intros [|t l] E; try discriminate E; [reflexivity|]. cbn [map] in E. injection E as E1 E2.
    cbn [pairs_of]. rewrite E1, (IH l E2). reflexivity.
  Qed.
  Lemma known_tags (s : tags_state) w n : right s -> ready w n s ->
    map (tag s) (if w then node_tags s n else edge_tags s n) = map Some (pairs w n).
  Proof.
    intros (G & _ & H) Rd. specialize (H w n). unfold ready in Rd.
    replace (if w then node_tags s n else edge_tags s n) with (match find_key Nat.eqb n (get_map w s) with Some t => t | None => [] end)
      by (destruct w; reflexivity).
    destruct (find_key Nat.eqb n (get_map w s)) as [is|]; [apply H; reflexivity|]. destruct Rd as [->|C]; [reflexivity|contradiction C; reflexivity].
  Qed.

  (** ** The import *)
  Definition bad : Prop := exists k, oom1 k = true \/ oom2 k = true.
  Definition fine (r : outcome (state (P := P) (Str := Str))) (r0 : outcome (osm P * helper)) (Q : tags_state -> tags_state -> Prop) : Prop :=
    match r with
    | Ok (sh, (t1, t2)) => r0 = Ok sh /\ Q t1 t2
    | Throw _ => bad
    | UB => (mt1 = true \/ mt2 = true) /\ bad
    | Fuel => False
    end.
  Record told (known vs : list (nat * P)) (es : list (link P)) (t1 t2 : tags_state) : Prop := {
    told_1 : right t1;
    told_2 : right t2;
    told_known : forall n p, In (n, p) known -> ready true n t1;
    told_vs : forall n p, In (n, p) vs -> ready true n t2;
    told_es : forall l, In l es -> ready false (fst (snd l)) t2 /\ N false (fst (snd l))
  }.
  Notation inv := (inv dir).

  Lemma safe1 : moved = true -> mt1 = false. Proof. intros E. apply safe, E. Qed.
  Lemma safe2 : moved = true -> mt2 = false. Proof. intros E. apply safe, E. Qed.

  Lemma told_kept2 known vs es t1 t2 t2' : told known vs es t1 t2 -> right t2' -> CompressProps.kept t2 t2' -> told known vs es t1 t2'.
  Proof. intros [A B C D E] R K. constructor; auto; [intros n p H; eapply ready_kept; eauto|]. intros l H. destruct (E l H) as [E1 E2]. split; [eapply ready_kept; eauto|exact E2]. Qed.

  Lemma t_add_vertex_spec k s h known vs es x t1 t2 : inv s h known vs es -> o_sort s = false -> nth_error (o_vs s) k = Some x ->
    (forall n p, In (n, p) known -> N true n) -> told known vs es t1 t2 ->
    fine (t_add_vertex oom2 seqb store m2 mt2 k ((s, h), (t1, t2))) (Osm.add_vertex k s h) (told known (know vs (ov_id x) (ov_point x)) es).
  Proof.
    intros I F X Nk To. unfold t_add_vertex. rewrite X; cbn [derefO].
    destruct (add_vertex_spec dir k s h known vs es x I F X) as (s1 & h1 & E & I1).
    assert (Hk : In (ov_id x, ov_point x) known).
    { apply (Permutation_in _ (tb_perm _ _ (iv_table _ _ _ _ _ _ I))). apply (in_map pair_of _ x). eapply nth_error_In; exact X. }
    destruct (ov_added x) eqn:A.
    - cbn [fine]. assert (E0 : Osm.add_vertex k s h = Ok (s, h)) by (unfold Osm.add_vertex; rewrite X; cbn [derefO]; rewrite A; reflexivity).
      split; [exact E0|]. unfold know. destruct (lookup vs (ov_id x)) as [q|] eqn:L; [exact To|].
      exfalso. pose proof (iv_link _ _ _ _ _ _ I x (nth_error_In _ _ X)) as Lx. rewrite A in Lx. apply lookup_None in L. apply L.
      apply nth_error_In in Lx. apply (in_map fst) in Lx. exact Lx.
    - pose proof (told_1 _ _ _ _ _ To) as R1. pose proof (known_tags t1 true (ov_id x) R1 (told_known _ _ _ _ _ To _ _ Hk)) as Kt. cbn iota in Kt.
      rewrite (pairs_of_spec t1 _ _ Kt).
      assert (C : tags_fine oom2 mt2 true (ov_id x) t2 (again m2 (clone oom2 seqb store mt2 true (ov_id x) (pairs true (ov_id x))) t2)).
      { apply again_spec; [|apply (told_2 _ _ _ _ _ To)]. intros t R. apply clone_spec; auto; [apply pairs_intact|]. eapply Nk; exact Hk. }
      change (node_said xs (ov_id x)) with (pairs true (ov_id x)).
      destruct (again m2 (clone oom2 seqb store mt2 true (ov_id x) (pairs true (ov_id x))) t2) as [[u t2']|[u t2']| |]; cbn [tags_fine fine] in *.
      + destruct C as (R2 & K2 & Y2). rewrite E. cbn [fine]. split; [reflexivity|].
        pose proof (told_kept2 known vs es t1 t2 t2' To R2 K2) as To'. unfold know. destruct (lookup vs (ov_id x)); [exact To'|].
        destruct To' as [A1 A2 A3 A4 A5]. constructor; auto. intros n p Hin. apply in_app_iff in Hin as [Hin|[Hin|[]]]; [eauto|].
        injection Hin as <- <-. exact Y2.
      + destruct C as (_ & _ & (k0 & O)). exists k0. auto.
      + destruct C as (Em & (k0 & O)). split; [auto|]. exists k0. auto.
      + exact C.
  Qed.

  Lemma t_way_vertex_spec s h known vs es n t1 t2 : inv s h known vs es -> (forall n p, In (n, p) known -> N true n) -> told known vs es t1 t2 ->
    fine (t_way_vertex sort oom2 seqb store m2 mt2 ((s, h), (t1, t2)) n) (way_vertex sort (s, h) n) (told known (meet known vs n) es).
  Proof.
    intros I Nk To. pose proof I as [It Il Ig Ir Ii In_]. unfold t_way_vertex, way_vertex, meet; cbn [fst snd].
    destruct (get_spec sort sort_ok s known n It) as (s1 & T1 & F1 & P1 & _ & R).
    assert (I1 : inv s1 h known vs es) by (constructor; auto; eapply linked_perm; eauto).
    destruct (lookup known n) as [p|].
    - destruct R as (k & x & E & X & Ei & Ept). rewrite E. rewrite <- Ei, <- Ept. apply t_add_vertex_spec; assumption.
    - rewrite R. split; [reflexivity|exact To].
  Qed.
  Lemma t_way_vertices_spec known es ns : (forall n p, In (n, p) known -> N true n) -> forall s h vs t1 t2, inv s h known vs es -> told known vs es t1 t2 ->
    fine (foldO (t_way_vertex sort oom2 seqb store m2 mt2) ns ((s, h), (t1, t2))) (foldO (way_vertex sort) ns (s, h)) (told known (fold_left (meet known) ns vs) es).
  Proof.
    intros Nk. induction ns as [|n ns IH]; intros s h vs t1 t2 I To; cbn [foldO fold_left]; [split; [reflexivity|exact To]|].
    destruct (way_vertex_spec sort sort_ok dir s h known vs es n I) as (s1 & h1 & E & I1).
    pose proof (t_way_vertex_spec s h known vs es n t1 t2 I Nk To) as C. rewrite E in C. rewrite E; cbn [bindO].
    destruct (t_way_vertex sort oom2 seqb store m2 mt2 (s, h, (t1, t2)) n) as [[sh [u1 u2]]|st| |]; cbn [fine bindO] in *; try exact C.
    destruct C as [Es To']. injection Es as <-. apply IH; assumption.
  Qed.

  Lemma t_add_one_spec w ts x y s h known vs es t1 t2 : inv s h known vs es ->
    nth_error vs (ov_index x) = Some (pair_of x) -> nth_error vs (ov_index y) = Some (pair_of y) -> N false w -> ts = pairs false w -> told known vs es t1 t2 ->
    fine (t_add_one dir oom2 seqb store m2 mt2 moved w ts x y ((s, h), (t1, t2)))
         (match add_one dir w x y h with Ok h1 => Ok (s, h1) | Throw h1 => Throw (s, h1) | UB => UB | Fuel => Fuel end)
         (told known vs (es ++ [(pair_of x, pair_of y, (w, (ov_point x, ov_point y)))])).
  Proof.
    intros I Hx Hy Nw -> To. destruct (add_one_spec dir w x y s h known vs es I Hx Hy) as (h1 & E & I1). rewrite E. unfold t_add_one.
    assert (Hm : forall i q, nth_error vs i = Some q -> nth_error (h_map h) i <> None).
    { intros i q Hq. apply nth_error_Some. destruct (iv_roads _ _ _ _ _ _ I) as (rs & Hh & _). pose proof (iv_good _ _ _ _ _ _ I) as G.
      assert (Ll : length (h_map h) = length vs) by (rewrite (gh_map _ _ G); unfold vertex_ids; rewrite map_length, <- (proj1 Hh), map_length; reflexivity). rewrite Ll. apply nth_error_Some. congruence. }
    destruct (nth_error (h_map h) (ov_index x)) eqn:Ex; [|destruct (Hm _ _ Hx Ex)].
    destruct (nth_error (h_map h) (ov_index y)) eqn:Ey; [|destruct (Hm _ _ Hy Ey)].
    assert (C : tags_fine oom2 mt2 false w t2 (again m2 (set_tags seqb store moved oom2 mt2 false w (pairs false w)) t2)).
    { apply again_spec; [|apply (told_2 _ _ _ _ _ To)]. intros t R. apply set_tags_spec; auto. exact safe2. }
    destruct (again m2 (set_tags seqb store moved oom2 mt2 false w (pairs false w)) t2) as [[u t2']|[u t2']| |]; cbn [tags_fine] in C.
    - destruct C as (R2 & K2 & Y2). rewrite E. cbn [fine]. split; [reflexivity|].
      destruct (told_kept2 known vs es t1 t2 t2' To R2 K2) as [A1 A2 A3 A4 A5]. constructor; auto.
      intros l Hin. apply in_app_iff in Hin as [Hin|[<-|[]]]; [auto|split; [exact Y2|exact Nw]].
    - destruct C as (_ & _ & (k0 & O)). exists k0. auto.
    - destruct C as (Em & (k0 & O)). split; [auto|]. exists k0. auto.
    - exact C.
  Qed.

  Lemma t_add_edge_spec w ts x y ow rv s h known vs es t1 t2 : inv s h known vs es ->
    nth_error vs (ov_index x) = Some (pair_of x) -> nth_error vs (ov_index y) = Some (pair_of y) -> N false w -> ts = pairs false w -> told known vs es t1 t2 ->
    fine (t_add_edge dir oom2 seqb store m2 mt2 moved w ts x y ow rv ((s, h), (t1, t2)))
         (match add_edge dir w x y ow rv h with Ok h1 => Ok (s, h1) | Throw h1 => Throw (s, h1) | UB => UB | Fuel => Fuel end)
         (told known vs (es ++ map (fun d => (fst d, snd d, (w, (snd (fst d), snd (snd d))))) (drivable ow rv (pair_of x) (pair_of y)))).
  Proof.
    intros I Hx Hy Nw Ets To. unfold t_add_edge, add_edge, drivable.
    assert (Two : fine (bindO (t_add_one dir oom2 seqb store m2 mt2 moved w ts x y ((s, h), (t1, t2))) (fun a => a) (t_add_one dir oom2 seqb store m2 mt2 moved w ts y x))
      (match bindO (add_one dir w x y h) (fun h => h) (fun h1 => add_one dir w y x h1) with Ok h1 => Ok (s, h1) | Throw h1 => Throw (s, h1) | UB => UB | Fuel => Fuel end)
      (told known vs (es ++ [(pair_of x, pair_of y, (w, (ov_point x, ov_point y))); (pair_of y, pair_of x, (w, (ov_point y, ov_point x)))]))).
    { pose proof (t_add_one_spec w ts x y s h known vs es t1 t2 I Hx Hy Nw Ets To) as C.
      destruct (add_one_spec dir w x y s h known vs es I Hx Hy) as (h1 & E1 & I1). rewrite E1 in C |- *. cbn [bindO].
      destruct (t_add_one dir oom2 seqb store m2 mt2 moved w ts x y (s, h, (t1, t2))) as [[sh [u1 u2]]|st| |]; cbn [fine bindO] in *; try exact C.
      destruct C as [Es To']. injection Es as <-.
      pose proof (t_add_one_spec w ts y x s h1 known vs _ u1 u2 I1 Hy Hx Nw Ets To') as C. rewrite <- app_assoc in C. exact C. }
    destruct ow, rv; cbn [negb andb app map fst snd].
    - exact (t_add_one_spec w ts y x s h known vs es t1 t2 I Hy Hx Nw Ets To).
    - exact (t_add_one_spec w ts x y s h known vs es t1 t2 I Hx Hy Nw Ets To).
    - exact Two.
    - exact Two.
  Qed.

  Lemma t_way_edge_spec w ts a b s h known vs es t1 t2 : inv s h known vs es ->
    (forall n p, n = a \/ n = b -> lookup known n = Some p -> In (n, p) vs) -> N false w -> ts = pairs false w -> told known vs es t1 t2 ->
    fine (t_way_edge sort oneway oneway_reverse dir oom2 seqb store m2 mt2 moved w ts ((s, h), (t1, t2)) (a, b))
         (way_edge sort oneway oneway_reverse dir w ts (s, h) (a, b))
         (told known vs (es ++ links_of w (existsb oneway ts) (existsb oneway_reverse ts) known (a, b))).
  Proof.
    intros I HV Nw Ets To. pose proof I as [It Il Ig Ir Ii In_]. unfold t_way_edge, way_edge, links_of; cbn [fst snd].
    destruct (get_spec sort sort_ok s known a It) as (s1 & T1 & F1 & P1 & _ & R).
    assert (I1 : inv s1 h known vs es) by (constructor; auto; eapply linked_perm; eauto).
    destruct (lookup known a) as [pa|] eqn:La.
    2: { rewrite R. rewrite app_nil_r. split; [reflexivity|exact To]. }
    destruct R as (k1 & x & E & X & Ei & Ept). rewrite E.
    destruct (get_spec sort sort_ok s1 known b T1) as (s2 & T2 & F2 & P2 & Q2 & R2). specialize (Q2 F1). subst s2.
    destruct (lookup known b) as [pb|] eqn:Lb.
    2: { rewrite R2. rewrite app_nil_r. split; [reflexivity|exact To]. }
    destruct R2 as (k2 & y & E2 & Y & Ej & Eqt). rewrite E2, X; cbn [derefO]. rewrite Y; cbn [derefO].
    rewrite detect_spec.
    assert (Hof : forall k z n p, (n = a \/ n = b) -> lookup known n = Some p ->
               nth_error (o_vs s1) k = Some z -> ov_id z = n -> ov_point z = p -> nth_error vs (ov_index z) = Some (pair_of z)).
    { intros k z n p Hn Ln Z Ez Epz. pose proof (iv_link _ _ _ _ _ _ I1 z (nth_error_In _ _ Z)) as Lz.
      destruct (ov_added z); [exact Lz|]. exfalso; apply Lz. rewrite Ez.
      apply (in_map fst _ (n, p)). apply HV; assumption. }
    pose proof (t_add_edge_spec w ts x y (existsb oneway ts) (existsb oneway_reverse ts) s1 h known vs es t1 t2 I1
      (Hof k1 x a pa (or_introl eq_refl) La X Ei Ept) (Hof k2 y b pb (or_intror eq_refl) Lb Y Ej Eqt) Nw Ets To) as C.
    unfold pair_of in C. rewrite Ei, Ej, Ept, Eqt in C. exact C.
  Qed.
  Lemma t_way_edges_spec w ts known vs ps : N false w -> ts = pairs false w -> forall s h es t1 t2, inv s h known vs es ->
    (forall a b, In (a, b) ps -> forall n p, n = a \/ n = b -> lookup known n = Some p -> In (n, p) vs) -> told known vs es t1 t2 ->
    fine (foldO (t_way_edge sort oneway oneway_reverse dir oom2 seqb store m2 mt2 moved w ts) ps ((s, h), (t1, t2)))
         (foldO (way_edge sort oneway oneway_reverse dir w ts) ps (s, h))
         (told known vs (es ++ flat_map (links_of w (existsb oneway ts) (existsb oneway_reverse ts) known) ps)).
  Proof.
    intros Nw Ets. induction ps as [|[a b] ps IH]; intros s h es t1 t2 I HV To; cbn [foldO flat_map].
    - rewrite app_nil_r. split; [reflexivity|exact To].
    - destruct (way_edge_spec sort sort_ok oneway oneway_reverse dir w ts a b s h known vs es I (HV a b (or_introl eq_refl))) as (s1 & h1 & E & I1).
      pose proof (t_way_edge_spec w ts a b s h known vs es t1 t2 I (HV a b (or_introl eq_refl)) Nw Ets To) as C. rewrite E in C |- *. cbn [bindO].
      destruct (t_way_edge sort oneway oneway_reverse dir oom2 seqb store m2 mt2 moved w ts (s, h, (t1, t2)) (a, b)) as [[sh [u1 u2]]|st| |];
        cbn [fine bindO] in *; try exact C.
      destruct C as [Es To']. injection Es as <-. rewrite app_assoc. apply IH; auto. intros a' b' Hin. apply HV. right; exact Hin.
  Qed.

  Lemma t_handle_spec pre x suf s h known vs es t1 t2 : xs = pre ++ x :: suf -> inv s h known vs es ->
    (forall v w ts, x = TWay v w [] ts -> v && OsmProofs.kept query filter_ ts = false) ->
    (forall n, (exists p, In (n, p) known) <-> exists p ts, In (TNode true n p ts) pre) -> told known vs es t1 t2 ->
    fine (t_handle sort query filter_ oneway oneway_reverse dir oom1 oom2 seqb store m1 mt1 m2 mt2 moved ((s, h), (t1, t2)) x)
         (handle sort query filter_ oneway oneway_reverse dir (s, h) (plain x))
         (let '(known1, vs1, es1) := world_step query filter_ oneway oneway_reverse (known, vs, es) (plain x) in told known1 vs1 es1).
  Proof.
    intros Ex I Hne Hk To. pose proof I as [It Il Ig Ir Ii In_].
    assert (Nk : forall n p, In (n, p) known -> N true n).
    { intros n p H. destruct (proj1 (Hk n) (ex_intro _ p H)) as (q & l & Hin). exists q, l. rewrite Ex. apply in_or_app; left; exact Hin. }
    destruct x as [v id p l|v w ns ts]; cbn [t_handle plain handle world_step fst snd].
    - unfold t_node, node. destruct v; cbn [negb]; [|split; [reflexivity|exact To]].
      destruct (contains_spec sort sort_ok s known id It) as (s1 & E & H1 & F1 & P1). rewrite E. unfold know.
      destruct (lookup known id) as [q|] eqn:L; [split; [reflexivity|exact To]|].
      assert (El : l = pairs true id).
      { symmetry. unfold said. rewrite Ex. apply node_said_first. intros q l' Hin. apply lookup_None in L. apply L.
        destruct (proj2 (Hk id) (ex_intro _ q (ex_intro _ l' Hin))) as (r & Hr). exact (in_map fst _ _ Hr). }
      assert (Ni : N true id) by (exists p, l; rewrite Ex; apply in_or_app; right; left; reflexivity).
      assert (C : tags_fine oom1 mt1 true id t1 (again m1 (set_tags seqb store moved oom1 mt1 true id l) t1)).
      { apply again_spec; [|apply (told_1 _ _ _ _ _ To)]. intros t R. rewrite El. apply set_tags_spec; auto. exact safe1. }
      destruct (again m1 (set_tags seqb store moved oom1 mt1 true id l) t1) as [[u t1']|[u t1']| |]; cbn [tags_fine fine] in *.
      + destruct C as (R1 & K1 & Y1). unfold add_node, add_node_once. cbn [fine]. split; [reflexivity|]. destruct To as [A1 A2 A3 A4 A5].
        constructor; auto. intros n r Hin. apply in_app_iff in Hin as [Hin|[Hin|[]]]; [eapply ready_kept; eauto|]. injection Hin as <- <-. exact Y1.
      + destruct C as (_ & _ & (k0 & O)). exists k0. auto.
      + destruct C as (Em & (k0 & O)). split; [auto|]. exists k0. auto.
      + exact C.
    - unfold t_way, way. rewrite keep_spec. destruct (v && OsmProofs.kept query filter_ ts) eqn:K; [|split; [reflexivity|exact To]].
      apply andb_prop in K as [-> K].
      assert (Hin : In (TWay true w ns ts) xs) by (rewrite Ex; apply in_or_app; right; left; reflexivity).
      assert (Ets : ts = pairs false w) by (symmetry; eapply way_said_one; eauto).
      assert (Nw : N false w) by (exists ns, ts; auto).
      destruct (way_vertices_spec sort sort_ok dir known es ns s h vs I) as (s1 & h1 & E1 & I1).
      pose proof (t_way_vertices_spec known es ns Nk s h vs t1 t2 I To) as C. rewrite E1 in C |- *. cbn [bindO].
      destruct (foldO (t_way_vertex sort oom2 seqb store m2 mt2) ns (s, h, (t1, t2))) as [[sh [u1 u2]]|st| |]; cbn [fine bindO] in *; try exact C.
      destruct C as [Es To']. injection Es as <-.
      destruct ns as [|n r]; [specialize (Hne true w ts eq_refl); cbn [andb] in Hne; congruence|].
      apply t_way_edges_spec; auto.
      intros a b Hab m q Hm L. apply meets_has; auto; [apply It|].
      destruct Hm as [->| ->]; [exact (in_combine_l _ _ _ _ Hab)|right; exact (in_combine_r _ _ _ _ Hab)].
  Qed.

  Lemma t_handles_spec suf : forall pre s h known vs es t1 t2, xs = pre ++ suf -> inv s h known vs es ->
    ways_nonempty query filter_ (map plain suf) ->
    (forall n, (exists p, In (n, p) known) <-> exists p ts, In (TNode true n p ts) pre) -> told known vs es t1 t2 ->
    fine (foldO (t_handle sort query filter_ oneway oneway_reverse dir oom1 oom2 seqb store m1 mt1 m2 mt2 moved) suf ((s, h), (t1, t2)))
         (foldO (handle sort query filter_ oneway oneway_reverse dir) (map plain suf) (s, h))
         (let '(known1, vs1, es1) := fold_left (world_step query filter_ oneway oneway_reverse) (map plain suf) (known, vs, es) in told known1 vs1 es1).
  Proof.
    induction suf as [|x suf IH]; intros pre s h known vs es t1 t2 Ex I W Hk To; cbn [foldO fold_left map]; [split; [reflexivity|exact To]|].
    assert (Hne : forall v w ts, plain x = Way v w [] ts -> v && OsmProofs.kept query filter_ ts = false)
      by (intros v w ts E; eapply W; left; exact E).
    destruct (handle_spec sort sort_ok query filter_ oneway oneway_reverse dir s h known vs es (plain x) I Hne) as (s1 & h1 & E & I1).
    assert (Hne' : forall v w ts, x = TWay v w [] ts -> v && OsmProofs.kept query filter_ ts = false)
      by (intros v w ts E'; subst x; eapply Hne; reflexivity).
    pose proof (t_handle_spec pre x suf s h known vs es t1 t2 Ex I Hne' Hk To) as C. rewrite E in C |- *. cbn [bindO].
    destruct (t_handle sort query filter_ oneway oneway_reverse dir oom1 oom2 seqb store m1 mt1 m2 mt2 moved (s, h, (t1, t2)) x) as [[sh [u1 u2]]|st| |];
      cbn [fine bindO] in *; try exact C. destruct C as [Es To']. injection Es as <-.
    assert (Hk' : forall n, (exists p, In (n, p) (fst (fst (world_step query filter_ oneway oneway_reverse (known, vs, es) (plain x)))))
                  <-> exists p ts, In (TNode true n p ts) (pre ++ [x])).
    { intros n. assert (Same : (forall p ts, x <> TNode true n p ts) -> (exists p ts, In (TNode true n p ts) (pre ++ [x])) <-> exists p ts, In (TNode true n p ts) pre).
      { intros D. split; intros (p & ts & H); exists p, ts; [apply in_app_iff in H as [H|[H|[]]]; [exact H|destruct (D p ts H)]|apply in_or_app; left; exact H]. }
      destruct x as [v id p l|v w ns ts]; cbn [plain world_step fst].
      - destruct v; [|cbn [fst]; rewrite Same; [apply Hk|discriminate]]. cbn [fst]. unfold know. split.
        + intros (q & H). destruct (lookup known id) eqn:L.
          * destruct (proj1 (Hk n) (ex_intro _ q H)) as (r & l' & Hr). exists r, l'. apply in_or_app; left; exact Hr.
          * apply in_app_iff in H as [H|[H|[]]]; [destruct (proj1 (Hk n) (ex_intro _ q H)) as (r & l' & Hr); exists r, l'; apply in_or_app; left; exact Hr|].
            injection H as -> ->. exists q, l. apply in_or_app; right; left; reflexivity.
        + intros (q & l' & H). apply in_app_iff in H as [H|[H|[]]].
          * destruct (proj2 (Hk n) (ex_intro _ q (ex_intro _ l' H))) as (r & Hr). destruct (lookup known id); [eauto|]. exists r. apply in_or_app; left; exact Hr.
          * injection H as -> -> ->. destruct (lookup known n) as [r|] eqn:L; [exists r; apply lookup_in'; exact L|]. exists q. apply in_or_app; right; left; reflexivity.
      - rewrite Same by discriminate. destruct (v && OsmProofs.kept query filter_ ts); cbn [fst]; apply Hk. }
    destruct (world_step query filter_ oneway oneway_reverse (known, vs, es) (plain x)) as [[known1 vs1] es1].
    apply (IH (pre ++ [x])); auto; [rewrite <- app_assoc; exact Ex|]. intros v w ts Hin. eapply W. right; exact Hin.
  Qed.

  Lemma right_empty : right empty_tags.
  Proof. split; [apply TagsProofs.good_empty|]. split; [reflexivity|]. intros [|] n is H; discriminate H. Qed.

  Lemma import_told s h t1 t2 : ways_nonempty query filter_ (map plain xs) ->
    t_import sort query filter_ oneway oneway_reverse dir oom1 oom2 seqb store m1 mt1 m2 mt2 moved xs = Ok ((s, h), (t1, t2)) ->
    exists known vs es, inv s h known vs es /\ told known vs es t1 t2.
  Proof.
    intros W E0. pose proof (t_handles_spec xs [] empty_osm empty_helper [] [] [] empty_tags empty_tags eq_refl (inv_empty dir) W) as C.
    unfold t_import in E0. rewrite E0 in C.
    assert (K0 : forall n, (exists p, In (n, p) (@nil (nat * P))) <-> exists p ts, In (TNode true n p ts) (@nil tagged)).
    { intros n. split; [intros (p & [])|intros (p & ts & [])]. }
    assert (T0 : told [] [] [] empty_tags empty_tags).
    { constructor; [apply right_empty|apply right_empty| | |]; intros; contradiction. }
    specialize (C K0 T0). cbn [fine] in C.
    destruct (handles_spec sort sort_ok query filter_ oneway oneway_reverse dir (map plain xs) empty_osm empty_helper [] [] [] (inv_empty dir) W) as (s' & h' & E & I).
    rewrite E in C. destruct C as [Es To]. injection Es as <- <-.
    destruct (fold_left (world_step query filter_ oneway oneway_reverse) (map plain xs) ([], [], [])) as [[known vs] es]. eauto 6.
  Qed.

  (** C96.  After the import the graph is the one of C29, every vertex has exactly the tags of the first visible node with its number and every edge exactly the
      tags of its way, in their order; numbers of nothing visible have no tags.  Whenever an allocation of one of the two tag storages fails and the retries
      do not help, the import ends; undefined behaviour needs a memory mapped tag storage with a failed allocation. *)
  Theorem C96_import : ways_nonempty query filter_ (map plain xs) ->
    match t_import sort query filter_ oneway oneway_reverse dir oom1 oom2 seqb store m1 mt1 m2 mt2 moved xs with
    | Ok ((s, h), (t1, t2)) =>
        import sort query filter_ oneway oneway_reverse dir (map plain xs) = Ok (s, h) /\ finalized t2 = false /\
        (forall x, In x (g_vs (h_graph h)) -> map (tag t2) (node_tags t2 (fst (v_data x))) = map Some (node_said xs (fst (v_data x)))) /\
        (forall e, In e (g_es (h_graph h)) -> exists ns ts, In (TWay true (fst (e_data e)) ns ts) xs /\ existsb query ts && forallb filter_ ts = true /\
           map (tag t2) (edge_tags t2 (fst (e_data e))) = map Some ts) /\
        (forall n, (forall p ts, ~ In (TNode true n p ts) xs) -> node_tags t2 n = []) /\
        (forall n, (forall ns ts, In (TWay true n ns ts) xs -> existsb query ts && forallb filter_ ts = false) -> edge_tags t2 n = [])
    | Throw _ => exists k, oom1 k = true \/ oom2 k = true
    | UB => (mt1 = true \/ mt2 = true) /\ exists k, oom1 k = true \/ oom2 k = true
    | Fuel => False
    end.
  Proof.
    intros W. pose proof (t_handles_spec xs [] empty_osm empty_helper [] [] [] empty_tags empty_tags eq_refl (inv_empty dir) W) as C.
    unfold t_import.
    assert (K0 : forall n, (exists p, In (n, p) (@nil (nat * P))) <-> exists p ts, In (TNode true n p ts) (@nil tagged)).
    { intros n. split; [intros (p & [])|intros (p & ts & [])]. }
    assert (T0 : told [] [] [] empty_tags empty_tags).
    { constructor; [apply right_empty|apply right_empty| | |]; intros; contradiction. }
    specialize (C K0 T0).
    destruct (handles_spec sort sort_ok query filter_ oneway oneway_reverse dir (map plain xs) empty_osm empty_helper [] [] [] (inv_empty dir) W) as (s & h & E & I).
    rewrite E in C.
    destruct (foldO (t_handle sort query filter_ oneway oneway_reverse dir oom1 oom2 seqb store m1 mt1 m2 mt2 moved) xs (empty_osm, empty_helper, (empty_tags, empty_tags)))
      as [[[s' h'] [t1 t2]]|st| |]; cbn [fine] in C; [|exact C|exact C|exact C].
    destruct C as [Es To]. injection Es as <- <-. split; [exact E|].
    destruct (fold_left (world_step query filter_ oneway oneway_reverse) (map plain xs) ([], [], [])) as [[known vs] es].
    destruct To as [R1 R2 Rk Rv Re]. destruct I as [It Il Ig (rs & (Hv & Hj) & Hr) Ii In_].
    split; [apply R2|]. split; [|split; [|split]].
    - intros x Hx. apply (known_tags t2 true); [exact R2|]. apply (Rv _ (snd (v_data x))). rewrite <- Hv, <- surjective_pairing. apply in_map, Hx.
    - intros e He.
      assert (Hl : exists l, In l es /\ fst (snd l) = fst (e_data e)).
      { clear - Hj Hr He. revert es Hr He. induction Hj as [|e0 r0 el rl J Hj IH]; intros es Hr He; [destruct He|].
        inversion Hr as [|r1 l0 rl1 es1 (_ & _ & D) Hr1]; subst. destruct He as [->|He].
        - exists l0. split; [left; reflexivity|]. rewrite <- D. destruct J as (_ & _ & ->). reflexivity.
        - destruct (IH es1 Hr1 He) as (l & A & B). exists l. split; [right; exact A|exact B]. }
      destruct Hl as (l & Hin & El). destruct (Re l Hin) as [Y (ns & ts & Hw & K)]. rewrite El in Y, Hw. exists ns, ts. split; [exact Hw|]. split; [exact K|].
      pose proof (known_tags t2 false _ R2 Y) as T. cbn iota in T. rewrite T. f_equal. exact (way_said_one query filter_ xs _ ns ts ways Hw K).
    - intros n Hn. unfold node_tags. destruct R2 as (_ & _ & H). specialize (H true n). cbn [get_map] in H.
      destruct (find_key Nat.eqb n (nodes t2)) as [is|]; [|reflexivity]. destruct (H is eq_refl) as (_ & p & ts & Hin). destruct (Hn p ts Hin).
    - intros n Hn. unfold edge_tags. destruct R2 as (_ & _ & H). specialize (H false n). cbn [get_map] in H.
      destruct (find_key Nat.eqb n (edges t2)) as [is|]; [|reflexivity]. destruct (H is eq_refl) as (_ & ns & ts & Hin & K). rewrite (Hn ns ts Hin) in K. discriminate K.
  Qed.

  (** Without failed allocations the import returns. *)
  Theorem C96_import_total : ways_nonempty query filter_ (map plain xs) -> (forall k, oom1 k = false) -> (forall k, oom2 k = false) ->
    exists s h t1 t2, t_import sort query filter_ oneway oneway_reverse dir oom1 oom2 seqb store m1 mt1 m2 mt2 moved xs = Ok ((s, h), (t1, t2)).
  Proof.
    intros W O1 O2. pose proof (C96_import W) as C.
    destruct (t_import sort query filter_ oneway oneway_reverse dir oom1 oom2 seqb store m1 mt1 m2 mt2 moved xs) as [[[s h] [t1 t2]]|st| |];
      [eauto 6| | |destruct C]; [|destruct C as [_ C]]; destruct C as (k & [C|C]); [rewrite O1 in C|rewrite O2 in C|rewrite O1 in C|rewrite O2 in C]; discriminate C.
  Qed.

  (** the tags of the network as the compressed network gets to see them *)
  Definition seen (t : tags_state) (w : bool) (n : nat) : list (Str * Str) :=
    match pairs_of t (if w then node_tags t n else edge_tags t n) with Some l => l | None => [] end.
  Lemma seen_spec t w n : right t -> seen t w n = pairs w n \/ seen t w n = [].
  Proof.
    intros (_ & _ & H). specialize (H w n). unfold seen.
    replace (if w then node_tags t n else edge_tags t n) with (match find_key Nat.eqb n (get_map w t) with Some a => a | None => [] end) by (destruct w; reflexivity).
    destruct (find_key Nat.eqb n (get_map w t)) as [is|]; [|right; reflexivity]. left. rewrite (pairs_of_spec t is _ (proj1 (H is eq_refl))). reflexivity.
  Qed.
  Lemma seen_map (t : tags_state) (w : bool) n l : map (tag t) (if w then node_tags t n else edge_tags t n) = map Some l -> seen t w n = l.
  Proof. intros E. unfold seen. rewrite (pairs_of_spec t _ _ E). reflexivity. Qed.

  (** Together with C95: the compressed form of an imported network that is not simplified has the tags of the file. *)
  Theorem C96_compressed : forall oom goom mapped retries k s h t1 t2 c t i, ways_nonempty query filter_ (map plain xs) ->
    t_import sort query filter_ oneway oneway_reverse dir oom1 oom2 seqb store m1 mt1 m2 mt2 moved xs = Ok ((s, h), (t1, t2)) ->
    compress oom goom seqb store fst fst (seen t2) mapped retries dir (h_graph h) (empty_tags, k) = Ok (c, (t, i)) ->
    represents (h_graph h) c /\ finalized t = true /\
    (forall x, In x (g_vs (h_graph h)) -> map (tag t) (node_tags t (fst (v_data x))) = map Some (node_said xs (fst (v_data x)))) /\
    (forall e, In e (g_es (h_graph h)) -> exists ns ts, In (TWay true (fst (e_data e)) ns ts) xs /\ existsb query ts && forallb filter_ ts = true /\
       map (tag t) (edge_tags t (fst (e_data e))) = map Some ts).
  Proof.
    intros oom goom mapped retries k s h t1 t2 c t i W E Ec.
    destruct (import_told s h t1 t2 W E) as (known & vs & es & I & To). pose proof (told_2 _ _ _ _ _ To) as R2.
    assert (Ti : forall w n, intact store (seen t2 w n)).
    { intros w n. destruct (seen_spec t2 w n R2) as [-> | ->]; [apply pairs_intact|]. intros a b []. }
    destruct (iv_good _ _ _ _ _ _ I) as [G1 G2 G3].
    pose proof (C95_compress oom goom seqb OK store fst fst (seen t2) mapped Ti dir (h_graph h) retries k G1 G3) as C. rewrite Ec in C.
    destruct C as (C1 & C2 & C3 & C4 & _). split; [exact C1|]. split; [exact C2|].
    pose proof (C96_import W) as Q. rewrite E in Q. destruct Q as (_ & _ & Q1 & Q2 & _). split.
    - intros x Hx. rewrite (C3 x Hx). f_equal. apply seen_map. exact (Q1 x Hx).
    - intros e He. destruct (Q2 e He) as (ns & ts & A & B & D). exists ns, ts. split; [exact A|]. split; [exact B|]. rewrite (C4 e He). f_equal. apply seen_map. exact D.
  Qed.
End Props.

(** Strings as lists of numbers without 0; a way is kept when it has the key 7; the key 8 makes it a one-way road. *)
Definition demo_query (t : list nat * list nat) : bool := leqb (fst t) [7].
Definition demo_oneway (t : list nat * list nat) : bool := leqb (fst t) [8].
Definition every (t : list nat * list nat) : bool := true.
Definition never (t : list nat * list nat) : bool := false.
Definition demo_file : list (tagged nat (list nat)) :=
  [TNode true 1 10 [([5], [1])]; TNode true 3 30 []; TNode false 2 21 [([5], [9])]; TNode true 2 20 [([5], [2]); ([6], [2])]; TNode true 2 22 [([5], [3])];
   TWay true 100 [1; 2; 4] [([7], [1]); ([8], [1])]; TWay false 101 [2; 3] [([7], [2])]; TWay true 102 [3; 2] [([5], [1])]; TWay true 103 [3; 1] [([5], [1]); ([7], [3])]].
Definition demo_import (oom1 oom2 : nat -> bool) (mapped moved : bool) :=
  t_import (P := nat) isort demo_query every demo_oneway never Bidirectional oom1 oom2 leqb c_str mapped mapped mapped mapped moved.
Example C96_case : (forall x k v, In x demo_file -> In (k, v) (tags_in x) -> c_str k = k /\ c_str v = v) /\ one_way demo_query every demo_file /\
  ways_nonempty demo_query every (map plain demo_file).
Proof.
  split; [|split].
  - intros x k v H. cbn in H. repeat (destruct H as [<-|H]; [cbn; intros I; repeat (destruct I as [[= <- <-]|I]; [split; reflexivity|]); destruct I|]). destruct H.
  - intros w ns ts ns' ts' H H'. cbn in H, H'.
    repeat (destruct H as [H|H]; [try discriminate H; injection H as <- <- <-; repeat (destruct H' as [H'|H']; [try discriminate H'; injection H' as <- <-; reflexivity|]); destruct H'|]).
    destruct H.
  - intros v w ts H. cbn in H. repeat (destruct H as [H|H]; [discriminate H|]). destruct H.
Qed.
(** a failed allocation of the handler's tags is cured by the retry; the graph has the vertices 1, 2 and 3 *)
Example C96_value : exists s h t1 t2, demo_import (Nat.eqb 1) quiet true false demo_file = Ok ((s, h), (t1, t2)) /\
  map v_data (g_vs (h_graph h)) = [(1, 10); (2, 20); (3, 30)] /\ map (@e_data _) (g_es (h_graph h)) = [(100, (10, 20)); (103, (30, 10)); (103, (10, 30))] /\
  map (tag t2) (node_tags t2 2) = [Some ([5], [2]); Some ([6], [2])] /\ node_tags t2 3 = [] /\
  map (tag t2) (edge_tags t2 103) = [Some ([5], [1]); Some ([7], [3])] /\ edge_tags t2 101 = [] /\ edge_tags t2 102 = [].
Proof. do 4 eexists. split; [vm_compute; reflexivity|]. vm_compute. auto 10. Qed.

(** With a memory mapped storage and a map that takes the list away before it runs out of memory, one failed allocation loses the tags of a way without
    an error. *)
Theorem C96_lost_refuted : exists oom2 (xs : list (tagged nat (list nat))) s h t1 t2 e, (exists n, forall k, k <> n -> oom2 k = false) /\
  demo_import quiet oom2 true true xs = Ok ((s, h), (t1, t2)) /\ In e (g_es (h_graph h)) /\ way_said demo_query every xs (fst (e_data e)) <> [] /\
  edge_tags t2 (fst (e_data e)) = [].
Proof.
  exists (Nat.eqb 7), [TNode true 1 10 []; TNode true 2 20 []; TWay true 100 [1; 2] [([7], [1])]]. do 5 eexists.
  split; [exists 7; intros k H; apply Nat.eqb_neq; congruence|]. split; [vm_compute; reflexivity|]. split; [left; reflexivity|]. vm_compute. split; [discriminate|reflexivity].
Qed.
(** With a map that leaves the list where it was, the same failure is undefined behaviour: the retry finds the list in a file that has been mapped anew. *)
Theorem C96_growth_refuted : exists oom2 (xs : list (tagged nat (list nat))), (exists n, forall k, k <> n -> oom2 k = false) /\
  demo_import quiet oom2 true false xs = UB /\ (exists st, demo_import quiet quiet true false xs = Ok st) /\
  exists st, demo_import quiet oom2 false false xs = Throw st.
Proof.
  exists (Nat.eqb 7), [TNode true 1 10 []; TNode true 2 20 []; TWay true 100 [1; 2] [([7], [1])]].
  split; [exists 7; intros k H; apply Nat.eqb_neq; congruence|]. split; [vm_compute; reflexivity|]. split; eexists; vm_compute; reflexivity.
Qed.
(** Two files may have the same way with other tags: all its edges get the tags of the first one. *)
Theorem C96_two_ways_refuted : exists (xs : list (tagged nat (list nat))) s h t1 t2 e,
  demo_import quiet quiet false false xs = Ok ((s, h), (t1, t2)) /\ In (TWay true 100 [2; 3] [([7], [2])]) xs /\ In e (g_es (h_graph h)) /\
  e_data e = (100, (20, 30)) /\ map (tag t2) (edge_tags t2 100) = [Some ([7], [1])].
Proof.
  exists [TNode true 1 10 []; TNode true 2 20 []; TNode true 3 30 []; TWay true 100 [1; 2] [([7], [1])]; TWay true 100 [2; 3] [([7], [2])]].
  do 5 eexists. split; [vm_compute; reflexivity|]. split; [cbn; auto 6|]. split; [right; right; left; reflexivity|]. vm_compute. auto.
Qed.

Print Assumptions C96_import.
Print Assumptions C96_import_total.
Print Assumptions C96_compressed.
Print Assumptions C96_lost_refuted.
Print Assumptions C96_growth_refuted.
Print Assumptions C96_two_ways_refuted.
