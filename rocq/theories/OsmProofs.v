(** Proofs about the OpenStreetMap importer. *)
From Verif Require Import Base ListAux AdjList AdjListSpec AdjListProofs AdjListProofs2 AdjListProofs3
  GraphHelper GraphHelperProofs Osm.

(** *** Specification vocabulary *)
Section Spec.
  Context {P T : Type}.

  (** vertices in ascending order of id *)
  Definition ordered (l : list (osm_vertex P)) : Prop :=
    forall i j x y, i < j -> nth_error l i = Some x -> nth_error l j = Some y -> ov_id x <= ov_id y.

  (** the contract of [std::sort] *)
  Definition sorts (sort : list (osm_vertex P) -> list (osm_vertex P)) : Prop :=
    forall l, Permutation l (sort l) /\ ordered (sort l).

  (** a table of nodes: the point of the first entry of an id *)
  Fixpoint lookup (known : list (nat * P)) (id : nat) : option P :=
    match known with
    | [] => None
    | (k, p) :: r => if k =? id then Some p else lookup r id
    end.
  Definition know (known : list (nat * P)) (id : nat) (p : P) : list (nat * P) :=
    match lookup known id with Some _ => known | None => known ++ [(id, p)] end.

  (** the directions a road may be driven in, given its classification *)
  Definition drivable (ow rv : bool) (a b : nat * P) : list ((nat * P) * (nat * P)) :=
    (if ow && rv then [] else [(a, b)]) ++ (if ow && negb rv then [] else [(b, a)]).

  (** a road: start, end and data of the edge *)
  Definition link := ((nat * P) * (nat * P) * (nat * (P * P)))%type.
  Definition links_of (w : nat) (ow rv : bool) (known : list (nat * P)) (ab : nat * nat) : list link :=
    match lookup known (fst ab), lookup known (snd ab) with
    | Some pa, Some pb =>
      map (fun d => (fst d, snd d, (w, (snd (fst d), snd (snd d))))) (drivable ow rv (fst ab, pa) (snd ab, pb))
    | _, _ => []
    end.

  (** consecutive pairs *)
  Definition steps_of (ns : list nat) : list (nat * nat) := combine ns (tl ns).

  (** nodes of a way that become vertices *)
  Definition meet (known : list (nat * P)) (vs : list (nat * P)) (n : nat) : list (nat * P) :=
    match lookup known n with
    | None => vs
    | Some p => know vs n p
    end.

  Variables query filter_ oneway oneway_reverse : T -> bool.
  Definition kept (ts : list T) : bool := existsb query ts && forallb filter_ ts.

  (** abstract importer: known nodes, vertices, roads *)
  Definition world := (list (nat * P) * list (nat * P) * list link)%type.
  Definition world_step (a : world) (x : entity P T) : world :=
    let '(known, vs, es) := a in
    match x with
    | Node v id p => (if v then know known id p else known, vs, es)
    | Way v w ns ts =>
      if v && kept ts
      then (known, fold_left (meet known) ns vs,
            es ++ flat_map (links_of w (existsb oneway ts) (existsb oneway_reverse ts) known) (steps_of ns))
      else a
    end.
  Definition world_of (xs : list (entity P T)) : world := fold_left world_step xs ([], [], []).

  (** every visible way that is kept has nodes *)
  Definition ways_nonempty (xs : list (entity P T)) : Prop :=
    forall v w ts, In (Way v w [] ts) xs -> v && kept ts = false.

  (** the roads of a graph, with the data of their end points *)
  Definition is_link (g : graph (nat * P) (nat * (P * P))) (e : @edge (nat * (P * P))) (r : link) : Prop :=
    exists x y, get_vertex g (e_src e) = Some x /\ get_vertex g (e_tgt e) = Some y /\
      (v_data x, v_data y, e_data e) = r.
End Spec.
Arguments link P : clear implicits.
Arguments world P : clear implicits.

Section Table.
  Context {P T : Type}.
  Variable sort : list (osm_vertex P) -> list (osm_vertex P).
  Hypothesis sort_ok : sorts sort.
  Notation osm := (osm P).
  Notation osm_vertex := (osm_vertex P).
  Implicit Types (s : osm) (l : list osm_vertex) (known : list (nat * P)) (p : P) (id : nat) (ok : bool).

  Definition pair_of (x : osm_vertex) : nat * P := (ov_id x, ov_point x).

  Record table s known : Prop := {
    tb_perm : Permutation (map pair_of (o_vs s)) known;
    tb_nd : NoDup (map fst known);
    tb_ord : o_sort s = false -> ordered (o_vs s)
  }.

  Lemma lower_bound_spec l id : ordered l -> forall fuel first len,
    len <= fuel -> first + len <= length l ->
    (forall i x, i < first -> nth_error l i = Some x -> ov_id x < id) ->
    (forall i x, first + len <= i -> nth_error l i = Some x -> id <= ov_id x) ->
    exists k, lower_bound fuel l id first len = Ok k /\ k <= length l /\
      (forall i x, i < k -> nth_error l i = Some x -> ov_id x < id) /\
      (forall i x, k <= i -> nth_error l i = Some x -> id <= ov_id x).
  Proof.
    intros O fuel. induction fuel as [|fuel IH]; intros first len Lf Le HL HR; cbn [lower_bound].
    - replace len with 0 in * by lia. exists first. rewrite Nat.add_0_r in *. auto.
    - destruct len as [|len]; [exists first; rewrite Nat.add_0_r in *; auto|].
      set (n := S len) in *. pose proof (Nat.div2_decr n n) as D. 
      assert (Hh : Nat.div2 n < n) by (apply Nat.lt_div2; unfold n; lia).
      destruct (nth_error l (first + Nat.div2 n)) as [y|] eqn:Y.
      2: { apply nth_error_None in Y. lia. }
      cbn [derefO]. destruct (Nat.ltb_spec (ov_id y) id) as [Lt|Ge].
      + apply IH; try lia.
        * intros i x Hi Hx. destruct (Nat.eq_dec i (first + Nat.div2 n)) as [->|Ne]; [congruence|].
          destruct (Nat.lt_ge_cases i first); [eauto|].
          assert (ov_id x <= ov_id y) by (eapply (O i (first + Nat.div2 n)); eauto; lia). lia.
        * intros i x Hi Hx. apply (HR i x); [lia|exact Hx].
      + apply IH; try lia; [exact HL|].
        intros i x Hi Hx. destruct (Nat.eq_dec i (first + Nat.div2 n)) as [->|Ne]; [congruence|].
        assert (ov_id y <= ov_id x) by (eapply (O (first + Nat.div2 n) i); eauto; lia). lia.
  Qed.

  Lemma check_spec s known :
    table s known ->
    table (check_and_sort_nodes sort s) known /\ o_sort (check_and_sort_nodes sort s) = false /\
    Permutation (o_vs s) (o_vs (check_and_sort_nodes sort s)).
  Proof.
    intros [Hp Hn Ho]. unfold check_and_sort_nodes. destruct (o_sort s) eqn:E; [|repeat split; auto].
    destruct (sort_ok (o_vs s)) as [Sp So]. cbn. repeat split; cbn; auto.
    rewrite <- Sp. exact Hp.
  Qed.

  Lemma lookup_In known id p : NoDup (map fst known) -> (lookup known id = Some p <-> In (id, p) known).
  Proof.
    induction known as [|[k q] r IH]; cbn; intros N; [split; [discriminate|tauto]|].
    inversion N as [|? ? Nk Nr]; subst. destruct (Nat.eqb_spec k id) as [->|Ne].
    - split; [intros [= ->]; auto|]. intros [[= ->]|Hin]; [reflexivity|].
      exfalso; apply Nk. apply in_map_iff. exists (id, p); auto.
    - rewrite (IH Nr). split; [auto|]. intros [[= -> ->]|Hin]; [congruence|exact Hin].
  Qed.
  Lemma lookup_None known id : lookup known id = None <-> ~ In id (map fst known).
  Proof.
    induction known as [|[k q] r IH]; cbn; [tauto|]. destruct (Nat.eqb_spec k id) as [->|Ne].
    - split; [discriminate|]. intros H; exfalso; apply H; auto.
    - rewrite IH. tauto.
  Qed.

  Lemma find_spec s known id :
    table s known -> o_sort s = false ->
    exists k, lower_bound (length (o_vs s)) (o_vs s) id 0 (length (o_vs s)) = Ok k /\
      match lookup known id with
      | Some p => exists x, nth_error (o_vs s) k = Some x /\ ov_id x = id /\ ov_point x = p
      | None => match nth_error (o_vs s) k with None => True | Some x => id < ov_id x end
      end.
  Proof.
    intros [Hp Hn Ho] Hf. specialize (Ho Hf).
    destruct (lower_bound_spec (o_vs s) id Ho (length (o_vs s)) 0 (length (o_vs s))) as (k & Ek & Lk & HL & HR);
      [lia|lia|intros; lia| |].
    { intros i x Hi Hx. assert (i < length (o_vs s)) by (apply nth_error_Some; congruence). lia. }
    exists k. split; [exact Ek|].
    destruct (lookup known id) as [p|] eqn:L.
    - apply lookup_In in L; [|exact Hn].
      apply (Permutation_in _ (Permutation_sym Hp)) in L. apply in_map_iff in L as (x & Ex & Hx).
      injection Ex as Ei Ept. apply In_nth_error in Hx as [i Hi].
      assert (k <= i). { destruct (Nat.lt_ge_cases i k) as [Lt|]; [|assumption]. pose proof (HL i x Lt Hi). lia. }
      destruct (nth_error (o_vs s) k) as [y|] eqn:Y.
      2: { apply nth_error_None in Y. assert (i < length (o_vs s)) by (apply nth_error_Some; congruence). lia. }
      exists y. pose proof (HR k y (le_n _) Y) as Ge.
      assert (ov_id y <= ov_id x).
      { destruct (Nat.eq_dec k i) as [->|Ne]; [replace y with x by congruence; lia|].
        eapply (Ho k i); eauto. lia. }
      assert (Eid : ov_id y = id) by lia. split; [reflexivity|]. split; [exact Eid|].
      assert (Iy : In (id, ov_point y) known).
      { apply (Permutation_in _ Hp). apply in_map_iff. exists y. unfold pair_of. rewrite Eid. split; [reflexivity|].
        eapply nth_error_In; exact Y. }
      assert (Ix : In (id, p) known).
      { apply (Permutation_in _ Hp). apply in_map_iff. exists x. unfold pair_of. rewrite Ei, Ept. split; [reflexivity|].
        eapply nth_error_In; exact Hi. }
      apply (lookup_In known id _ Hn) in Iy, Ix. congruence.
    - apply lookup_None in L. destruct (nth_error (o_vs s) k) as [y|] eqn:Y; [|exact I].
      pose proof (HR k y (le_n _) Y) as Ge. destruct (Nat.eq_dec (ov_id y) id) as [E|Ne]; [|lia].
      exfalso; apply L. apply (Permutation_in (l:=map fst (map pair_of (o_vs s)))).
      + apply Permutation_map. exact Hp.
      + rewrite map_map. apply in_map_iff. exists y. split; [exact E|]. eapply nth_error_In; exact Y.
  Qed.

  Lemma contains_spec s known id :
    table s known ->
    exists s1, contains_node sort id s = Ok (s1, match lookup known id with Some _ => true | None => false end) /\
      table s1 known /\ o_sort s1 = false /\ Permutation (o_vs s) (o_vs s1).
  Proof.
    intros H. destruct (check_spec s known H) as (H1 & F1 & P1). exists (check_and_sort_nodes sort s).
    split; [|auto]. unfold contains_node. destruct (find_spec _ known id H1 F1) as (k & Ek & R). rewrite Ek.
    f_equal. f_equal. destruct (lookup known id) as [p|].
    - destruct R as (x & Ex & Ei & _). rewrite Ex. apply negb_true_iff, Nat.ltb_ge. lia.
    - destruct (nth_error (o_vs (check_and_sort_nodes sort s)) k); [|reflexivity].
      apply negb_false_iff, Nat.ltb_lt. exact R.
  Qed.

  Lemma get_spec s known id :
    table s known ->
    exists s1, table s1 known /\ o_sort s1 = false /\ Permutation (o_vs s) (o_vs s1) /\ (o_sort s = false -> s1 = s) /\
      match lookup known id with
      | Some p => exists k x, get_node sort id s = Ok (s1, Some k) /\ nth_error (o_vs s1) k = Some x /\ ov_id x = id /\ ov_point x = p
      | None => get_node sort id s = Throw (s1, None)
      end.
  Proof.
    intros H. destruct (check_spec s known H) as (H1 & F1 & P1). exists (check_and_sort_nodes sort s).
    split; [exact H1|]. split; [exact F1|]. split; [exact P1|].
    split. { intros F. unfold check_and_sort_nodes. rewrite F. reflexivity. }
    unfold get_node. destruct (find_spec _ known id H1 F1) as (k & Ek & R). rewrite Ek.
    destruct (lookup known id) as [p|].
    - destruct R as (x & Ex & Ei & Ept). rewrite Ex, Ei, Nat.eqb_refl. cbn. exists k, x. auto.
    - destruct (nth_error (o_vs (check_and_sort_nodes sort s)) k) as [x|]; [|reflexivity].
      destruct (Nat.eqb_spec (ov_id x) id); [lia|reflexivity].
  Qed.

  Lemma ordered_snoc l y : ordered l -> (forall b, nth_error (rev l) 0 = Some b -> ov_id b <= ov_id y) -> ordered (l ++ [y]).
  Proof.
    intros O B i j x z Lt Hx Hz.
    assert (j < length (l ++ [y])) by (apply nth_error_Some; congruence). rewrite app_length in *; cbn in *.
    rewrite nth_error_app1 in Hx by lia.
    destruct (Nat.eq_dec j (length l)) as [->|Ne].
    - rewrite nth_error_app2, Nat.sub_diag in Hz by lia. injection Hz as <-.
      destruct (rev l) as [|b r] eqn:R.
      + apply (f_equal (@rev _)) in R. rewrite rev_involutive in R. subst l. cbn in *. destruct i; discriminate.
      + specialize (B b eq_refl).
        assert (El : l = rev r ++ [b]) by (rewrite <- (rev_involutive l), R; reflexivity).
        assert (Nb : nth_error l (length (rev r)) = Some b) by (rewrite El, nth_error_app2, Nat.sub_diag by lia; reflexivity).
        assert (Ll : length l = length (rev r) + 1) by (rewrite El, app_length; reflexivity).
        destruct (Nat.eq_dec i (length (rev r))) as [->|Ni]; [congruence|].
        assert (ov_id x <= ov_id b) by (eapply (O i (length (rev r))); eauto; lia). lia.
    - rewrite nth_error_app1 in Hz by lia. exact (O i j x z Lt Hx Hz).
  Qed.

  Lemma add_node_once_spec s known id p (ok : bool) :
    table s known -> lookup known id = None ->
    exists s1, table s1 (if ok then known ++ [(id, p)] else known) /\
      o_vs s1 = o_vs s ++ (if ok then [mkOV id p 0 false] else []) /\
      add_node_once id p ok s = if ok then Ok s1 else Throw s1.
  Proof.
    intros [Hp Hn Ho] L. unfold add_node_once.
    set (flag := o_sort s || match rev (o_vs s) with [] => false | b :: _ => id <? ov_id b end).
    exists (mkOsm (o_vs s ++ if ok then [mkOV id p 0 false] else []) flag).
    split; [|split; [reflexivity|destruct ok; [reflexivity|rewrite app_nil_r; reflexivity]]].
    destruct ok.
    - constructor; cbn [o_vs o_sort].
      + rewrite map_app. apply Permutation_app; [exact Hp|reflexivity].
      + rewrite map_app; cbn. apply NoDup_app'; [exact Hn|constructor; [intros []|constructor]|].
        intros x Hx [<-|[]]. apply lookup_None in L. contradiction.
      + intros F. unfold flag in F. apply orb_false_iff in F as [F1 F2]. apply ordered_snoc; [auto|].
        intros b Hb. cbn. destruct (rev (o_vs s)) as [|b' r]; [discriminate|]. injection Hb as <-.
        apply Nat.ltb_ge in F2. exact F2.
    - rewrite app_nil_r. constructor; cbn [o_vs o_sort]; auto.
      intros F. unfold flag in F. apply orb_false_iff in F as [F1 _]. auto.
  Qed.

  Lemma node_spec (mmap v : bool) id p (ok1 ok2 : bool) s known :
    table s known ->
    exists s1, table s1 (if v then match lookup known id with
                                   | Some _ => known
                                   | None => if ok1 || (mmap && ok2) then known ++ [(id, p)] else known
                                   end else known) /\
      (exists t, Permutation (o_vs s ++ t) (o_vs s1) /\ Forall (fun x => ov_added x = false /\ ov_id x = id /\ lookup known id = None) t) /\
      (node sort mmap v id p ok1 ok2 s = Ok s1 \/ node sort mmap v id p ok1 ok2 s = Throw s1 /\ ok1 = false).
  Proof.
    intros H. unfold node. destruct v.
    2: { exists s. split; [exact H|]. split; [|auto]. exists []. rewrite app_nil_r. split; [reflexivity|constructor]. }
    destruct (contains_spec s known id H) as (s1 & E & H1 & F1 & P1). rewrite E.
    destruct (lookup known id) as [q|] eqn:L.
    { exists s1. split; [exact H1|]. split; [|auto]. exists []. rewrite app_nil_r. split; [exact P1|constructor]. }
    unfold add_node.
    destruct (add_node_once_spec s1 known id p ok1 H1 L) as (s2 & H2 & V2 & E2).
    destruct ok1; cbn [orb].
    - rewrite E2. exists s2. split; [exact H2|]. split; [|auto]. exists [mkOV id p 0 false].
      split; [rewrite V2, P1; reflexivity|]. repeat constructor; auto.
    - rewrite E2. rewrite app_nil_r in V2. destruct mmap; cbn [andb].
      + destruct (add_node_once_spec s2 known id p ok2 H2 L) as (s3 & H3 & V3 & E3). rewrite E3.
        exists s3. split; [exact H3|]. split.
        * exists (if ok2 then [mkOV id p 0 false] else []). rewrite V3, V2, P1. split; [reflexivity|].
          destruct ok2; repeat constructor; auto.
        * destruct ok2; auto.
      + exists s2. split; [exact H2|]. split; [|auto]. exists []. rewrite app_nil_r, V2. split; [exact P1|constructor].
  Qed.
End Table.

Section Import.
  Context {P T : Type}.
  Variable sort : list (osm_vertex P) -> list (osm_vertex P).
  Hypothesis sort_ok : sorts sort.
  Variables query filter_ oneway oneway_reverse : T -> bool.
  Variable dir : direction.
  Notation osm := (osm P).
  Notation osm_vertex := (osm_vertex P).
  Notation helper := (helper (nat * P) (nat * (P * P))).
  Implicit Types (s : osm) (h : helper) (l : list osm_vertex) (known vs : list (nat * P)) (es : list (link P)) (p : P).

  Definition linked l vs : Prop :=
    forall x, In x l -> if ov_added x then nth_error vs (ov_index x) = Some (pair_of x) else ~ In (ov_id x) (map fst vs).

  (** an edge between vertex indices against a road between nodes *)
  Definition road_link vs (r : road (ED := nat * (P * P))) (k : link P) : Prop :=
    nth_error vs (fst (fst r)) = Some (fst (fst k)) /\ nth_error vs (snd (fst r)) = Some (snd (fst k)) /\ snd r = snd k.

  Record inv s h known vs es : Prop := {
    iv_table : table s known;
    iv_link : linked (o_vs s) vs;
    iv_good : good_helper dir h;
    iv_roads : exists rs, holds h vs rs /\ Forall2 (road_link vs) rs es;
    iv_incl : incl vs known;
    iv_nd : NoDup (map fst vs)
  }.

  Lemma linked_perm l l' vs : Permutation l l' -> linked l vs -> linked l' vs.
  Proof. intros Hp H x Hx. apply H. apply (Permutation_in _ (Permutation_sym Hp)). exact Hx. Qed.

  Lemma ordered_ids l l' : map ov_id l = map ov_id l' -> ordered l -> ordered l'.
  Proof.
    intros E O i j x y Lt Hx Hy.
    pose proof (map_nth_error ov_id _ _ Hx) as Ex. pose proof (map_nth_error ov_id _ _ Hy) as Ey.
    rewrite <- E in Ex, Ey. rewrite nth_error_map in Ex, Ey.
    destruct (nth_error l i) as [x'|] eqn:X; [|discriminate]. destruct (nth_error l j) as [y'|] eqn:Y; [|discriminate].
    cbn in Ex, Ey. injection Ex as <-. injection Ey as <-. exact (O i j x' y' Lt X Y).
  Qed.

  Lemma road_link_app vs t r k : road_link vs r k -> road_link (vs ++ t) r k.
  Proof.
    intros (A & B & C). split; [|split; [|exact C]]; rewrite nth_error_app1; auto; apply nth_error_Some; congruence.
  Qed.

  Lemma table_ids s known : table s known -> NoDup (map ov_id (o_vs s)).
  Proof.
    intros [Hp Hn _]. eapply Permutation_NoDup; [|exact Hn].
    replace (map ov_id (o_vs s)) with (map fst (map pair_of (o_vs s))) by (rewrite map_map; reflexivity).
    apply Permutation_map, Permutation_sym. exact Hp.
  Qed.

  Lemma lookup_app known t n : lookup (known ++ t) n = match lookup known n with Some p => Some p | None => lookup t n end.
  Proof. induction known as [|[k q] r IH]; cbn; [reflexivity|]. destruct (k =? n); auto. Qed.

  Lemma add_vertex_spec k s h known vs es x :
    inv s h known vs es -> o_sort s = false -> nth_error (o_vs s) k = Some x ->
    exists s1 h1, add_vertex k s h = Ok (s1, h1) /\ inv s1 h1 known (know vs (ov_id x) (ov_point x)) es.
  Proof.
    intros [It Il Ig Ir Ii In_] F X. unfold add_vertex. rewrite X; cbn [derefO].
    pose proof (nth_error_In _ _ X) as Hx. pose proof (Il x Hx) as Lx. unfold know.
    destruct (ov_added x) eqn:A.
    - assert (L : lookup vs (ov_id x) = Some (ov_point x)).
      { apply lookup_In; [exact In_|]. eapply nth_error_In; exact Lx. }
      rewrite L. exists s, h. split; [reflexivity|]. constructor; assumption.
    - apply lookup_None in Lx. rewrite Lx. apply lookup_None in Lx.
      unfold add_vertex_with_index_mapping, retry, vdata, edata.
      destruct Ir as (rs & Hh & Hr).
      destruct (add_vertex_once_spec dir h (ov_id x, ov_point x) no_va vs rs Ig Hh) as (h1 & G1 & S1).
      change (va_good no_va) with true in S1. cbv iota in S1. destruct S1 as [R1 H1]. rewrite R1.
      eexists; exists h1. split; [reflexivity|].
      destruct (nth_error_split _ _ X) as (l1 & l2 & El & Lk).
      assert (Es : set_nth (o_vs s) k (mkOV (ov_id x) (ov_point x) (length vs) true)
                   = l1 ++ mkOV (ov_id x) (ov_point x) (length vs) true :: l2).
      { unfold set_nth. rewrite El, <- Lk. rewrite firstn_app, Nat.sub_diag, firstn_all; cbn [firstn]. rewrite app_nil_r.
        f_equal. f_equal. rewrite skipn_app. rewrite skipn_all2 by lia.
        replace (S (length l1) - length l1) with 1 by lia. reflexivity. }
      rewrite Es. pose proof (table_ids _ _ It) as Nd. rewrite El, map_app in Nd; cbn in Nd.
      constructor; cbn [o_vs o_sort].
      + destruct It as [Tp Tn To]. constructor; cbn [o_vs o_sort]; [|exact Tn|].
        * rewrite El in Tp. rewrite map_app in *; cbn in *. exact Tp.
        * intros _. eapply ordered_ids; [|exact (To F)]. rewrite El, !map_app. reflexivity.
      + intros z Hz. assert (C : z = mkOV (ov_id x) (ov_point x) (length vs) true \/ In z (l1 ++ l2)).
        { apply in_app_iff in Hz as [Hz|[Hz|Hz]]; [right; apply in_app_iff; auto|left; auto|right; apply in_app_iff; auto]. }
        destruct C as [->|C]; cbn [ov_added ov_index ov_id].
        * rewrite nth_error_app2, Nat.sub_diag by lia. reflexivity.
        * assert (Hz' : In z (o_vs s)) by (rewrite El; apply in_app_iff in C as [C|C]; apply in_app_iff; [left|right; right]; exact C).
          pose proof (Il z Hz') as Lz.
          assert (Nz : ov_id z <> ov_id x).
          { intros E. apply NoDup_remove_2 in Nd. apply Nd. rewrite <- E, <- map_app. apply in_map. exact C. }
          destruct (ov_added z).
          -- rewrite nth_error_app1; [exact Lz|]. apply nth_error_Some. congruence.
          -- rewrite map_app, in_app_iff. cbn. intros [?|[?|[]]]; [auto|congruence].
      + exact G1.
      + exists rs. split; [exact H1|]. eapply Forall2_impl'; [|exact Hr]. intros r q. apply road_link_app.
      + intros q Hq. apply in_app_iff in Hq as [Hq|[<-|[]]]; [auto|].
        apply (Permutation_in _ (tb_perm _ _ It)). apply (in_map pair_of). exact Hx.
      + rewrite map_app; cbn. apply NoDup_app'; [exact In_|constructor; [intros []|constructor]|].
        intros q Hq [<-|[]]. contradiction.
  Qed.

  Lemma way_vertex_spec s h known vs es n :
    inv s h known vs es ->
    exists s1 h1, way_vertex sort (s, h) n = Ok (s1, h1) /\ inv s1 h1 known (meet known vs n) es.
  Proof.
    intros I. pose proof I as [It Il Ig Ir Ii In_]. unfold way_vertex, meet; cbn [fst snd].
    destruct (get_spec sort sort_ok s known n It) as (s1 & T1 & F1 & P1 & _ & R).
    assert (I1 : inv s1 h known vs es) by (constructor; auto; eapply linked_perm; eauto).
    destruct (lookup known n) as [p|].
    - destruct R as (k & x & E & X & Ei & Ept). rewrite E. rewrite <- Ei, <- Ept. apply (add_vertex_spec k s1 h known vs es x I1 F1 X).
    - rewrite R. exists s1, h. auto.
  Qed.

  Lemma way_vertices_spec known es ns : forall s h vs,
    inv s h known vs es ->
    exists s1 h1, foldO (way_vertex sort) ns (s, h) = Ok (s1, h1) /\ inv s1 h1 known (fold_left (meet known) ns vs) es.
  Proof.
    induction ns as [|n ns IH]; intros s h vs I; cbn [foldO fold_left]; [exists s, h; auto|].
    destruct (way_vertex_spec s h known vs es n I) as (s1 & h1 & E & I1). rewrite E; cbn [bindO]. apply IH. exact I1.
  Qed.

  (** an edge between two vertices *)
  Lemma add_one_spec w x y s h known vs es :
    inv s h known vs es ->
    nth_error vs (ov_index x) = Some (pair_of x) -> nth_error vs (ov_index y) = Some (pair_of y) ->
    exists h1, add_one dir w x y h = Ok h1 /\
      inv s h1 known vs (es ++ [(pair_of x, pair_of y, (w, (ov_point x, ov_point y)))]).
  Proof.
    intros [It Il Ig Ir Ii In_] Hx Hy. destruct Ir as (rs & Hh & Hr).
    unfold add_one, add_edge_with_indices, retry, vdata, edata.
    destruct (add_edge_once_spec dir h (ov_index x) (ov_index y) (w, (ov_point x, ov_point y)) no_ea vs rs Ig Hh) as (h1 & G1 & S1).
    assert (Lx : ov_index x <? length vs = true) by (apply Nat.ltb_lt, nth_error_Some; congruence).
    assert (Ly : ov_index y <? length vs = true) by (apply Nat.ltb_lt, nth_error_Some; congruence).
    rewrite Lx, Ly in S1; cbn [andb] in S1.
    assert (Gd : ea_good dir (ov_index x) (ov_index y) no_ea = true).
    { unfold ea_good, no_ea, add_edge_succeeds; cbn. destruct dir; try reflexivity. apply orb_true_r. }
    rewrite Gd in S1. destruct S1 as (e & R1 & H1). rewrite R1. exists h1. split; [reflexivity|].
    constructor; auto. eexists; split; [exact H1|]. apply Forall2_app; [exact Hr|].
    constructor; [|constructor]. repeat split; assumption.
  Qed.

  Lemma add_edge_spec w x y ow rv s h known vs es :
    inv s h known vs es ->
    nth_error vs (ov_index x) = Some (pair_of x) -> nth_error vs (ov_index y) = Some (pair_of y) ->
    exists h1, add_edge dir w x y ow rv h = Ok h1 /\
      inv s h1 known vs (es ++ map (fun d => (fst d, snd d, (w, (snd (fst d), snd (snd d))))) (drivable ow rv (pair_of x) (pair_of y))).
  Proof.
    intros I Hx Hy. unfold add_edge, drivable. destruct ow, rv; cbn [negb andb app map fst snd].
    - exact (add_one_spec w y x s h known vs es I Hy Hx).
    - exact (add_one_spec w x y s h known vs es I Hx Hy).
    - destruct (add_one_spec w x y s h known vs es I Hx Hy) as (h1 & E1 & I1). rewrite E1; cbn [bindO].
      destruct (add_one_spec w y x s h1 known vs _ I1 Hy Hx) as (h2 & E2 & I2). rewrite E2. exists h2. split; [reflexivity|].
      rewrite <- app_assoc in I2. exact I2.
    - destruct (add_one_spec w x y s h known vs es I Hx Hy) as (h1 & E1 & I1). rewrite E1; cbn [bindO].
      destruct (add_one_spec w y x s h1 known vs _ I1 Hy Hx) as (h2 & E2 & I2). rewrite E2. exists h2. split; [reflexivity|].
      rewrite <- app_assoc in I2. exact I2.
  Qed.

  Lemma detect_spec ts : detect_oneway oneway oneway_reverse ts = (existsb oneway ts, existsb oneway_reverse ts).
  Proof.
    unfold detect_oneway.
    assert (K : forall a b, fold_left (fun a t => ((if oneway t then true else fst a), (if oneway_reverse t then true else snd a))) ts (a, b)
                            = (a || existsb oneway ts, b || existsb oneway_reverse ts)).
    { induction ts as [|t ts IH]; intros a b; cbn [fold_left existsb fst snd]; [rewrite !orb_false_r; reflexivity|].
      rewrite IH. destruct (oneway t), (oneway_reverse t), a, b; reflexivity. }
    rewrite K. reflexivity.
  Qed.

  Lemma keep_spec ts : keep query filter_ ts = kept query filter_ ts.
  Proof.
    unfold keep, kept.
    assert (A : forall l : list T, all_pass filter_ l = forallb filter_ l).
    { intros l. induction l as [|t l IH]; cbn; [reflexivity|]. destruct (filter_ t); cbn; auto. }
    assert (K : forall l all : list T, keep_loop query filter_ all l = existsb query l && forallb filter_ all).
    { intros l all. induction l as [|t l IH]; cbn; [reflexivity|]. destruct (query t); cbn; [apply A|exact IH]. }
    apply K.
  Qed.

  Lemma way_edge_spec w ts a b s h known vs es :
    inv s h known vs es ->
    (forall n p, n = a \/ n = b -> lookup known n = Some p -> In (n, p) vs) ->
    exists s1 h1, way_edge sort oneway oneway_reverse dir w ts (s, h) (a, b) = Ok (s1, h1) /\
      inv s1 h1 known vs (es ++ links_of w (existsb oneway ts) (existsb oneway_reverse ts) known (a, b)).
  Proof.
    intros I HV. pose proof I as [It Il Ig Ir Ii In_]. unfold way_edge, links_of; cbn [fst snd].
    destruct (get_spec sort sort_ok s known a It) as (s1 & T1 & F1 & P1 & _ & R).
    assert (I1 : inv s1 h known vs es) by (constructor; auto; eapply linked_perm; eauto).
    destruct (lookup known a) as [pa|] eqn:La.
    2: { rewrite R. rewrite app_nil_r. exists s1, h. auto. }
    destruct R as (k1 & x & E & X & Ei & Ept). rewrite E.
    destruct (get_spec sort sort_ok s1 known b T1) as (s2 & T2 & F2 & P2 & Q2 & R2). specialize (Q2 F1). subst s2.
    destruct (lookup known b) as [pb|] eqn:Lb.
    2: { rewrite R2. rewrite app_nil_r. exists s1, h. auto. }
    destruct R2 as (k2 & y & E2 & Y & Ej & Eqt). rewrite E2, X; cbn [derefO]. rewrite Y; cbn [derefO].
    rewrite detect_spec.
    assert (Hof : forall k z n p, (n = a \/ n = b) -> lookup known n = Some p ->
               nth_error (o_vs s1) k = Some z -> ov_id z = n -> ov_point z = p -> nth_error vs (ov_index z) = Some (pair_of z)).
    { intros k z n p Hn Ln Z Ez Epz. pose proof (iv_link _ _ _ _ _ I1 z (nth_error_In _ _ Z)) as Lz.
      destruct (ov_added z); [exact Lz|]. exfalso; apply Lz. rewrite Ez.
      apply (in_map fst _ (n, p)). apply HV; assumption. }
    destruct (add_edge_spec w x y (existsb oneway ts) (existsb oneway_reverse ts) s1 h known vs es I1) as (h1 & A & IA).
    - exact (Hof k1 x a pa (or_introl eq_refl) La X Ei Ept).
    - exact (Hof k2 y b pb (or_intror eq_refl) Lb Y Ej Eqt).
    - rewrite A. exists s1, h1. split; [reflexivity|]. unfold pair_of in IA. rewrite Ei, Ej, Ept, Eqt in IA. exact IA.
  Qed.

  Lemma way_edges_spec w ts known vs ps : forall s h es,
    inv s h known vs es ->
    (forall a b, In (a, b) ps -> forall n p, n = a \/ n = b -> lookup known n = Some p -> In (n, p) vs) ->
    exists s1 h1, foldO (way_edge sort oneway oneway_reverse dir w ts) ps (s, h) = Ok (s1, h1) /\
      inv s1 h1 known vs (es ++ flat_map (links_of w (existsb oneway ts) (existsb oneway_reverse ts) known) ps).
  Proof.
    induction ps as [|[a b] ps IH]; intros s h es I HV; cbn [foldO flat_map].
    - rewrite app_nil_r. exists s, h. auto.
    - destruct (way_edge_spec w ts a b s h known vs es I (HV a b (or_introl eq_refl))) as (s1 & h1 & E & I1).
      rewrite E; cbn [bindO]. destruct (IH s1 h1 _ I1) as (s2 & h2 & E2 & I2).
      + intros a' b' Hin. apply HV. right; exact Hin.
      + exists s2, h2. rewrite <- app_assoc in I2. auto.
  Qed.

  Lemma meet_incl known vs n : incl vs (meet known vs n).
  Proof.
    unfold meet, know. intros q Hq. destruct (lookup known n); [|exact Hq]. destruct (lookup vs n); [exact Hq|].
    apply in_app_iff; auto.
  Qed.
  Lemma meets_incl known ns : forall vs, incl vs (fold_left (meet known) ns vs).
  Proof.
    induction ns as [|n ns IH]; intros vs; cbn; [apply incl_refl|]. eapply incl_tran; [apply meet_incl|apply IH].
  Qed.
  Lemma lookup_in' vs n p : lookup vs n = Some p -> In (n, p) vs.
  Proof.
    induction vs as [|[k q] r IH]; cbn; [discriminate|]. destruct (Nat.eqb_spec k n) as [->|]; [intros [= ->]; auto|auto].
  Qed.
  Lemma meets_has known ns : forall vs n p,
    NoDup (map fst known) -> incl vs known -> In n ns -> lookup known n = Some p -> In (n, p) (fold_left (meet known) ns vs).
  Proof.
    induction ns as [|m ns IH]; intros vs n p Nd Hi Hin L; [destruct Hin|]. cbn [fold_left].
    destruct (Nat.eq_dec m n) as [->|Ne].
    - apply meets_incl. unfold meet. rewrite L. unfold know. destruct (lookup vs n) as [q|] eqn:Q.
      + apply lookup_in' in Q. pose proof (Hi _ Q) as K. apply (lookup_In known n q Nd) in K. congruence.
      + apply in_app_iff; right; left; reflexivity.
    - apply IH; auto.
      + unfold meet, know. destruct (lookup known m) as [q|] eqn:Q; [|exact Hi]. destruct (lookup vs m); [exact Hi|].
        intros z Hz. apply in_app_iff in Hz as [Hz|[<-|[]]]; [auto|]. apply lookup_in'; exact Q.
      + destruct Hin as [?|?]; [contradiction|assumption].
  Qed.

  Lemma handle_spec s h known vs es x :
    inv s h known vs es ->
    (forall v w ts, x = Way v w [] ts -> v && kept query filter_ ts = false) ->
    exists s1 h1, handle sort query filter_ oneway oneway_reverse dir (s, h) x = Ok (s1, h1) /\
      let '(known1, vs1, es1) := world_step query filter_ oneway oneway_reverse (known, vs, es) x in
      inv s1 h1 known1 vs1 es1.
  Proof.
    intros I Hne. pose proof I as [It Il Ig Ir Ii In_]. destruct x as [v id p|v w ns ts]; cbn [handle world_step fst snd].
    - destruct (node_spec sort sort_ok true v id p true true s known It) as (s1 & T1 & (t & Pt & Ft) & E).
      destruct E as [E|[_ E]]; [|discriminate]. rewrite E. exists s1, h. split; [reflexivity|].
      assert (K : (if v then match lookup known id with Some _ => known | None => if true || true && true then known ++ [(id, p)] else known end else known)
                  = (if v then know known id p else known)).
      { unfold know. destruct v; [|reflexivity]. destruct (lookup known id); reflexivity. }
      rewrite K in T1. constructor; auto.
      + eapply linked_perm; [exact Pt|]. intros z Hz. apply in_app_iff in Hz as [Hz|Hz]; [exact (Il z Hz)|].
        rewrite Forall_forall in Ft. destruct (Ft z Hz) as (A & B & C). rewrite A, B. intros Hin.
        apply lookup_None in C. apply C. eapply incl_map; [exact Ii|exact Hin].
      + intros q Hq. apply Ii in Hq. destruct v; [|exact Hq]. unfold know. destruct (lookup known id); [exact Hq|].
        apply in_app_iff; auto.
    - unfold way. rewrite keep_spec. destruct (v && kept query filter_ ts) eqn:K.
      2: { exists s, h. auto. }
      destruct (way_vertices_spec known es ns s h vs I) as (s1 & h1 & E1 & I1). rewrite E1; cbn [bindO].
      destruct ns as [|n r]; [rewrite (Hne v w ts eq_refl) in K; discriminate|].
      destruct (way_edges_spec w ts known _ (combine (n :: r) r) s1 h1 es I1) as (s2 & h2 & E2 & I2).
      + intros a b Hab m q Hm L. apply meets_has; auto; [apply It|].
        destruct Hm as [->| ->]; [exact (in_combine_l _ _ _ _ Hab)|right; exact (in_combine_r _ _ _ _ Hab)].
      + rewrite E2. exists s2, h2. split; [reflexivity|]. exact I2.
  Qed.

  Lemma handles_spec xs : forall s h known vs es,
    inv s h known vs es -> ways_nonempty query filter_ xs ->
    exists s1 h1, foldO (handle sort query filter_ oneway oneway_reverse dir) xs (s, h) = Ok (s1, h1) /\
      let '(known1, vs1, es1) := fold_left (world_step query filter_ oneway oneway_reverse) xs (known, vs, es) in
      inv s1 h1 known1 vs1 es1.
  Proof.
    induction xs as [|x xs IH]; intros s h known vs es I W; cbn [foldO fold_left]; [exists s, h; auto|].
    destruct (handle_spec s h known vs es x I) as (s1 & h1 & E & I1).
    { intros v w ts ->. eapply W. left; reflexivity. }
    rewrite E; cbn [bindO].
    destruct (world_step query filter_ oneway oneway_reverse (known, vs, es) x) as [[known1 vs1] es1].
    apply IH; [exact I1|]. intros v w ts Hin. eapply W. right; exact Hin.
  Qed.

  Lemma inv_empty : inv empty_osm empty_helper [] [] [].
  Proof.
    constructor.
    - constructor; cbn; [constructor|constructor|]. intros _ i j x y _ Hx. destruct i; discriminate.
    - intros x [].
    - apply good_empty.
    - exists []. split; [apply holds_empty|constructor].
    - apply incl_refl.
    - constructor.
  Qed.

  Lemma holds_links h vs rs es :
    good_helper dir h -> holds h vs rs -> Forall2 (road_link vs) rs es ->
    Forall2 (is_link (h_graph h)) (g_es (h_graph h)) es.
  Proof.
    intros G [HV HE] HR. pose proof (good_aligned dir h G) as [_ Al].
    revert es HR. induction HE as [|e r el rl J HE IH]; intros es HR; inversion HR as [|? k ? kl RK HR']; subst; constructor; auto.
    destruct J as (J1 & J2 & J3). destruct RK as (K1 & K2 & K3). destruct r as [[i j] d]; cbn [fst snd] in *.
    unfold vertex_ids in J1, J2. rewrite nth_error_map in *.
    destruct (nth_error (g_vs (h_graph h)) i) as [x|] eqn:X; [|discriminate].
    destruct (nth_error (g_vs (h_graph h)) j) as [y|] eqn:Y; [|discriminate].
    cbn in J1, J2, K1, K2. injection J1 as E1. injection J2 as E2. injection K1 as D1. injection K2 as D2.
    exists x, y. rewrite <- E1, <- E2. destruct (Al i x X) as (_ & _ & Gx), (Al j y Y) as (_ & _ & Gy).
    split; [exact Gx|]. split; [exact Gy|]. rewrite D1, D2, J3, K3. destruct k as [[a b] c]; reflexivity.
  Qed.
End Import.
