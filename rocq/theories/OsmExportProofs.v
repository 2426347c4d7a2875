(** Proofs about the OpenStreetMap exporter. *)
From Coq Require Import Ascii String Permutation.
From Verif Require Import Base ListAux AdjList GraphHelper Osm OsmProofs OsmFilter OsmFilterProps Convert ConvertProps OsmExport.
Local Open Scope nat_scope.
Local Open Scope list_scope.

Lemma Forall2_in_l {A B} (R : A -> B -> Prop) l m : Forall2 R l m -> forall x, In x l -> exists y, In y m /\ R x y.
Proof. induction 1 as [|a b l m H F IH]; intros x []; [subst; exists b; cbn; auto|]. destruct (IH x H0) as (y & Y & Z). exists y. cbn. auto. Qed.
Lemma Forall2_in_r {A B} (R : A -> B -> Prop) l m : Forall2 R l m -> forall y, In y m -> exists x, In x l /\ R x y.
Proof. induction 1 as [|a b l m H F IH]; intros y []; [subst; exists a; cbn; auto|]. destruct (IH y H0) as (x & X & Z). exists x. cbn. auto. Qed.

Section Proofs.
  Context {P K L : Type}.
  Variable eqp : P -> P -> bool.
  Variable reproject : P -> K.
  Variable keqb : K -> K -> bool.
  Variable loc : K -> L.
  Variable order : list (K * nat) -> list (K * nat).
  Hypothesis eqp_eq : forall p q, eqp p q = true <-> p = q.
  Hypothesis keqb_eq : forall a b, keqb a b = true <-> a = b.
  Hypothesis order_perm : forall m, Permutation m (order m).
  Notation find_point := (find_point keqb).

  (** numbered from 0 without repeated keys *)
  Definition numbered (m : list (K * nat)) : Prop := NoDup (map fst m) /\ map snd m = seq 0 (length m).

  Lemma find_in m k i : find_point m k = Some i -> In (k, i) m.
  Proof.
    induction m as [|[a j] m IH]; cbn; [discriminate|]. destruct (keqb a k) eqn:E.
    - intros H. injection H as ->. apply keqb_eq in E as ->. left. reflexivity.
    - intros H. right. apply IH. exact H.
  Qed.
  Lemma in_find m k i : NoDup (map fst m) -> In (k, i) m -> find_point m k = Some i.
  Proof.
    induction m as [|[a j] m IH]; cbn; intros N H; [destruct H|]. inversion N as [|? ? Nin N1]; subst. destruct H as [H|H].
    - injection H as -> ->. replace (keqb k k) with true by (symmetry; apply keqb_eq; reflexivity). reflexivity.
    - destruct (keqb a k) eqn:E; [|apply IH; assumption]. apply keqb_eq in E as ->. destruct Nin. apply in_map_iff. exists (k, i). auto.
  Qed.
  Lemma find_none m k : find_point m k = None <-> ~ In k (map fst m).
  Proof.
    induction m as [|[a j] m IH]; cbn; [tauto|]. destruct (keqb a k) eqn:E.
    - apply keqb_eq in E as ->. split; [discriminate|tauto].
    - rewrite IH. split; [intros H [->|X]; [|auto]|tauto]. rewrite (proj2 (keqb_eq k k)) in E; [discriminate|reflexivity].
  Qed.
  Lemma numbered_inj m a b i : numbered m -> find_point m a = Some i -> find_point m b = Some i -> a = b.
  Proof.
    intros [_ S] A B. apply find_in in A, B. assert (N : NoDup (map snd m)) by (rewrite S; apply seq_NoDup).
    clear S. induction m as [|[k j] m IH]; [destruct A|]. cbn in N. inversion N as [|? ? Nin N1]; subst.
    destruct A as [A|A], B as [B|B]; try congruence.
    - injection A as -> ->. destruct Nin. apply in_map_iff. exists (b, i). auto.
    - injection B as -> ->. destruct Nin. apply in_map_iff. exists (a, i). auto.
    - apply IH; assumption.
  Qed.

  (** the point map after indexing *)
  Definition indexed (keys : K -> Prop) (st : list (K * nat) * nat) : Prop :=
    numbered (fst st) /\ snd st = length (fst st) /\ forall k, In k (map fst (fst st)) <-> keys k.

  Lemma index_point_spec keys st p : indexed keys st -> indexed (fun k => keys k \/ k = reproject p) (index_point reproject keqb st p).
  Proof.
    intros ([N S] & Len & Ks). unfold index_point; cbv zeta. destruct (find_point (fst st) (reproject p)) as [i|] eqn:F.
    - split; [split; assumption|]. split; [exact Len|]. intros k. rewrite Ks. split; [auto|]. intros [H| ->]; [exact H|]. apply Ks.
      apply find_in in F. apply in_map_iff. exists (reproject p, i). auto.
    - apply find_none in F. split; [|split]; cbn [fst snd].
      + split.
        * rewrite map_app. cbn. apply NoDup_app'; [exact N| |].
          -- constructor; [intros []|constructor].
          -- intros x X [<-|[]]. exact (F X).
        * rewrite map_app, S, app_length. cbn [map length]. rewrite Nat.add_1_r, seq_S, Len. reflexivity.
      + rewrite app_length, Len. reflexivity.
      + intros k. rewrite map_app, in_app_iff, Ks. cbn. intuition congruence.
  Qed.
  Lemma index_line_spec line : forall keys st, indexed keys st ->
    indexed (fun k => keys k \/ exists p, In p line /\ k = reproject p) (fold_left (index_point reproject keqb) line st).
  Proof.
    induction line as [|p line IH]; intros keys st H; cbn [fold_left].
    - destruct H as (A & B & C). split; [exact A|]. split; [exact B|]. intros k. rewrite C. split; [auto|]. intros [X|(p & [] & _)]. exact X.
    - apply index_point_spec with (p := p) in H. apply IH in H. destruct H as (A & B & C). split; [exact A|]. split; [exact B|].
      intros k. rewrite C. split.
      + intros [[X| ->]|(q & Q & ->)]; [auto|right; exists p; split; [left|]; reflexivity|right; exists q; split; [right; exact Q|reflexivity]].
      + intros [X|(q & [->|Q] & ->)]; [auto|auto|right; exists q; auto].
  Qed.
  (** the places on the lines of the roads *)
  Definition on_road (rs : list (road P)) (k : K) : Prop := exists r p, In r rs /\ In p (r_line r) /\ k = reproject p.
  Lemma index_points_spec rs : indexed (on_road rs) (index_points reproject keqb rs).
  Proof.
    unfold index_points.
    assert (G : forall rs keys st, indexed keys st ->
              indexed (fun k => keys k \/ on_road rs k) (fold_left (fun st r => fold_left (index_point reproject keqb) (r_line r) st) rs st)).
    { clear rs. induction rs as [|r rs IH]; intros keys st H; cbn [fold_left].
      - destruct H as (A & B & C). split; [exact A|]. split; [exact B|]. intros k. rewrite C. split; [auto|]. intros [X|(r & p & [] & _)]. exact X.
      - apply index_line_spec with (line := r_line r) in H. apply IH in H. destruct H as (A & B & C). split; [exact A|]. split; [exact B|].
        intros k. rewrite C. split.
        + intros [[X|(p & Hp & ->)]|(q & p & Q & Hp & ->)]; [auto|right; exists r, p; cbn; auto|right; exists q, p; cbn; auto].
        + intros [X|(q & p & [->|Q] & Hp & ->)]; [auto|left; right; exists p; auto|right; exists q, p; auto]. }
    specialize (G rs (fun _ => False) ([], 0)). destruct G as (A & B & C).
    - split; [split; [constructor|reflexivity]|]. split; [reflexivity|]. cbn. tauto.
    - split; [exact A|]. split; [exact B|]. intros k. rewrite C. tauto.
  Qed.

  (** nodes *)
  Lemma at_key_found m k i : find_point m k = Some i -> at_key keqb m k = (m, i).
  Proof. intros H. unfold at_key. rewrite H. reflexivity. Qed.

  Definition node_at (m : list (K * nat)) (p : P) (x : entity L (str * str)) : Prop :=
    exists i, find_point m (reproject p) = Some i /\ x = Node true i (loc (reproject p)).
  Lemma add_nodes_spec m ps : (forall p, In p ps -> find_point m (reproject p) <> None) -> forall added out,
    exists nodes, fold_left (add_node reproject keqb loc) ps (m, added, out) = (m, added ++ map reproject ps, out ++ nodes) /\
      Forall2 (node_at m) ps nodes.
  Proof.
    induction ps as [|p ps IH]; intros H added out; cbn [fold_left map].
    - exists []. rewrite !app_nil_r. auto.
    - destruct (find_point m (reproject p)) as [i|] eqn:F; [|destruct (H p (or_introl eq_refl) F)].
      unfold add_node at 2. rewrite (at_key_found _ _ _ F).
      destruct (IH (fun q Q => H q (or_intror Q)) (added ++ [reproject p]) (out ++ [Node true i (loc (reproject p))])) as (nodes & E & A).
      exists (Node true i (loc (reproject p)) :: nodes). rewrite E, <- !app_assoc. split; [reflexivity|]. constructor; [|exact A].
      exists i. auto.
  Qed.

  (** all nodes: every one is a place of the map with its number, every place is there *)
  Definition all_nodes (m : list (K * nat)) (xs : list (entity L (str * str))) : Prop :=
    (forall x, In x xs -> exists k i, find_point m k = Some i /\ x = Node true i (loc k)) /\
    (forall k i, find_point m k = Some i -> In (Node true i (loc k)) xs).
  Lemma nodes_rest m ps nodes : NoDup (map fst m) -> Forall2 (node_at m) ps nodes ->
    all_nodes m (nodes ++ add_rest keqb loc order m (map reproject ps)).
  Proof.
    intros N F. split.
    - intros x X. apply in_app_or in X as [X|X].
      + destruct (Forall2_in_r _ _ _ F x X) as (p & _ & i & A & B). exists (reproject p), i. auto.
      + apply in_map_iff in X as ((k & i) & <- & X). apply filter_In in X as [X _].
        apply (Permutation_in _ (Permutation_sym (order_perm m))) in X. exists k, i. split; [apply in_find; assumption|reflexivity].
    - intros k i H. apply in_or_app. destruct (existsb (keqb k) (map reproject ps)) eqn:E.
      + left. apply existsb_exists in E as (k1 & X & E). apply keqb_eq in E as <-. apply in_map_iff in X as (p & <- & X).
        destruct (Forall2_in_l _ _ _ F p X) as (y & Y & j & A & ->). rewrite A in H. injection H as ->. exact Y.
      + right. apply in_map_iff. exists (k, i). split; [reflexivity|]. apply filter_In. split; [|cbn; rewrite E; reflexivity].
        apply (Permutation_in _ (order_perm m)). apply find_in. exact H.
  Qed.

  (** ways *)
  Lemma refs_spec m line : (forall p, In p line -> find_point m (reproject p) <> None) ->
    exists ns, refs reproject keqb m line = (m, ns) /\ Forall2 (fun p i => find_point m (reproject p) = Some i) line ns.
  Proof.
    induction line as [|p line IH]; intros H; cbn [refs].
    - exists []. auto.
    - destruct (find_point m (reproject p)) as [i|] eqn:F; [|destruct (H p (or_introl eq_refl) F)].
      rewrite (at_key_found _ _ _ F). destruct (IH (fun q Q => H q (or_intror Q))) as (ns & -> & A). exists (i :: ns). auto.
  Qed.

  (** [j] is an edge drawn backwards along [line] *)
  Definition backwards (rs : list (road P)) (line : list P) (j : nat) : Prop :=
    exists o, nth_error rs j = Some o /\ line = rev (r_line o).
  Lemma find_reversed_spec rs line outs : line <> [] -> (forall j, In j outs -> nth_error rs j <> None) -> forall R b,
    exists R1 b1, find_reversed eqp rs line outs R b = Ok (R1, b1) /\
      (forall j, In j R1 <-> In j R \/ (In j outs /\ backwards rs line j)) /\
      (b1 = false <-> b = false \/ exists j, In j outs /\ backwards rs line j).
  Proof.
    intros Ne. induction outs as [|j outs IH]; intros H R b; cbn [find_reversed].
    - exists R, b. split; [reflexivity|]. split; [intros j; cbn; tauto|]. split; [auto|]. intros [X|(j & [] & _)]. exact X.
    - destruct (nth_error rs j) as [o|] eqn:E; [|destruct (H j (or_introl eq_refl) E)].
      destruct (C43_reversed eqp line (r_line o)) as (r & Er & _).
      pose proof (C43_reversed_rev eqp line (r_line o) eqp_eq Ne) as Rv. rewrite Er in Rv |- *.
      assert (Bj : backwards rs line j <-> r = true).
      { unfold backwards. rewrite E. split.
        - intros (o1 & X & Y). injection X as <-. apply Rv in Y. congruence.
        - intros ->. exists o. split; [reflexivity|]. apply Rv. reflexivity. }
      destruct r.
      + destruct (IH (fun i I => H i (or_intror I)) (j :: R) false) as (R1 & b1 & -> & A & B). exists R1, b1. split; [reflexivity|]. split.
        * intros i. rewrite A. cbn. split.
          -- intros [[<-|X]|[X Y]]; [right; split; [left; reflexivity|apply Bj; reflexivity]|auto|auto].
          -- intros [X|[[<-|X] Y]]; [auto|auto|auto].
        * rewrite B. split; intros _; [|left; reflexivity]. right. exists j. split; [left; reflexivity|]. apply Bj. reflexivity.
      + destruct (IH (fun i I => H i (or_intror I)) R b) as (R1 & b1 & -> & A & B). exists R1, b1. split; [reflexivity|]. split.
        * intros i. rewrite A. cbn. split; [tauto|]. intros [X|[[<-|X] Y]]; [auto|apply Bj in Y; discriminate|auto].
        * rewrite B. split.
          -- intros [X|(i & I & J)]; [auto|]. right. exists i. cbn. auto.
          -- intros [X|(i & [<-|I] & J)]; [auto|apply Bj in J; discriminate|]. right. exists i. auto.
  Qed.

  (** a way written for the road [e], as one-way or not *)
  Definition way_for (n : net P) (m : list (K * nat)) (c : nat * bool) (x : entity L (str * str)) : Prop :=
    exists r w ns, nth_error (n_roads n) (fst c) = Some r /\ x = Way true w ns (way_tags (r_tags r) (snd c)) /\
      Forall2 (fun p i => find_point m (reproject p) = Some i) (r_line r) ns /\
      (snd c = false <-> exists j, In j (n_out n (r_target r)) /\ backwards (n_roads n) (r_line r) j).
  (** the road [e] is covered by one of the written ways: its own, or a two-way one drawn in the other direction *)
  Definition covered (n : net P) (chosen : list (nat * bool)) (e : nat) : Prop :=
    (exists b, In (e, b) chosen) \/
    (exists f r, In (f, false) chosen /\ nth_error (n_roads n) f = Some r /\ In e (n_out n (r_target r)) /\
       backwards (n_roads n) (r_line r) e).
  Definition way_id (x : entity L (str * str)) : nat := match x with Way _ w _ _ => w | Node _ i _ => i end.

  Lemma add_ways_spec n m :
    (forall r, In r (n_roads n) -> r_line r <> []) ->
    (forall r j, In r (n_roads n) -> In j (n_out n (r_target r)) -> nth_error (n_roads n) j <> None) ->
    (forall r p, In r (n_roads n) -> In p (r_line r) -> find_point m (reproject p) <> None) ->
    forall todo done R index, n_roads n = done ++ todo ->
    exists ws chosen, add_ways (L := L) eqp reproject keqb n todo (length done) m R index = Ok ws /\
      Forall2 (way_for n m) chosen ws /\ map way_id ws = seq index (length ws) /\
      (forall e, length done <= e < length (n_roads n) -> In e R \/ covered n chosen e).
  Proof.
    intros Ne Out Find. induction todo as [|r todo IH]; intros done R index D; cbn [add_ways].
    - exists [], []. split; [reflexivity|]. split; [constructor|]. split; [reflexivity|]. intros e. rewrite D, app_nil_r. lia.
    - assert (D1 : n_roads n = (done ++ [r]) ++ todo) by (rewrite <- app_assoc; exact D).
      assert (I : In r (n_roads n)) by (rewrite D; apply in_elt).
      assert (Er : nth_error (n_roads n) (length done) = Some r) by (rewrite D, nth_error_app2, Nat.sub_diag by lia; reflexivity).
      destruct (existsb (Nat.eqb (length done)) R) eqn:X.
      + destruct (IH (done ++ [r]) R index D1) as (ws & chosen & E & A & B & C).
        rewrite app_length, Nat.add_1_r in E, C. exists ws, chosen. split; [exact E|]. split; [exact A|]. split; [exact B|].
        intros e He. destruct (Nat.eq_dec e (length done)) as [->|]; [left; apply existsb_eqb_In; exact X|apply C; lia].
      + destruct (find_reversed_spec (n_roads n) (r_line r) (n_out n (r_target r)) (Ne r I) (fun j => Out r j I) R true)
          as (R1 & b1 & -> & HR & Hb).
        destruct (refs_spec m (r_line r) (fun p => Find r p I)) as (ns & -> & Hns).
        destruct (IH (done ++ [r]) R1 (index + 1) D1) as (ws & chosen & E & A & B & C).
        rewrite app_length, Nat.add_1_r in E, C. rewrite E.
        exists (Way true index ns (way_tags (r_tags r) b1) :: ws), ((length done, b1) :: chosen). split; [reflexivity|]. split; [|split].
        * constructor; [|exact A]. exists r, index, ns. cbn [fst snd]. split; [exact Er|]. split; [reflexivity|]. split; [exact Hns|].
          rewrite Hb. split; [intros [Y|Y]; [discriminate|exact Y]|auto].
        * cbn [map way_id length seq]. rewrite B, Nat.add_1_r. reflexivity.
        * assert (Mono : forall e, covered n chosen e -> covered n ((length done, b1) :: chosen) e).
          { intros e [[b Hc]|(f & r1 & Hc & Y)]; [left; exists b; right; exact Hc|right; exists f, r1; split; [right; exact Hc|exact Y]]. }
          intros e He. destruct (Nat.eq_dec e (length done)) as [->|]; [right; left; exists b1; left; reflexivity|].
          destruct (C e) as [Y|Y]; [lia| |right; apply Mono; exact Y]. apply HR in Y as [Y|[Y Z]]; [left; exact Y|].
          right. right. exists (length done), r. split; [|auto]. left. f_equal. apply Hb. right. exists e. auto.
  Qed.

  (** tags *)
  Definition reverse_tag (t : str * str) : Prop := fst t = oneway_key /\ (snd t = minus_one \/ snd t = reverse_).
  Lemma way_tags_loop_spec ts : forall b, exists l b1, way_tags_loop ts b = (l, b1) /\
    (forall t, In t l <-> In t ts /\ ~ reverse_tag t) /\ (b1 = true <-> b = true \/ In (oneway_key, yes) ts).
  Proof.
    induction ts as [|[k v] ts IH]; intros b; cbn [way_tags_loop].
    - exists [], b. split; [reflexivity|]. cbn. split; intros; tauto.
    - assert (Ok : forall x, (forall t : str * str, reverse_tag t -> (k, v) <> t) -> (x = true <-> b = true \/ (k, v) = (oneway_key, yes)) ->
        exists l b1, (let (l, b1) := way_tags_loop ts x in ((k, v) :: l, b1)) = (l, b1) /\
        (forall t, In t l <-> In t ((k, v) :: ts) /\ ~ reverse_tag t) /\ (b1 = true <-> b = true \/ In (oneway_key, yes) ((k, v) :: ts))).
      { intros x H Hx. destruct (IH x) as (l & b1 & -> & A & B). exists ((k, v) :: l), b1. split; [reflexivity|]. split.
        - intros t. cbn. rewrite A. split; [intros [<-|[X Y]]; [split; [auto|intros R; exact (H _ R eq_refl)]|auto]|tauto].
        - rewrite B, Hx. cbn. tauto. }
      assert (Rw : (k, v) = (oneway_key, yes) <-> k = oneway_key /\ v = yes) by (split; [intros X; injection X; auto|intros [-> ->]; reflexivity]).
      destruct (str_eqb k oneway_key) eqn:Ek; [apply str_eqb_spec in Ek as ->; destruct (str_eqb v yes) eqn:Ev; [apply str_eqb_spec in Ev as ->|]|].
      + apply Ok; [|tauto]. intros t [_ [A|A]] <-; cbn in A; discriminate A.
      + assert (Nv : v <> yes) by (intros ->; rewrite (proj2 (str_eqb_spec yes yes) eq_refl) in Ev; discriminate).
        destruct (str_eqb v minus_one || str_eqb v reverse_) eqn:Er.
        * destruct (IH b) as (l & b1 & -> & A & B). exists l, b1. split; [reflexivity|].
          assert (Rv : reverse_tag (oneway_key, v)).
          { split; [reflexivity|]. cbn. apply orb_true_iff in Er as [X|X]; apply str_eqb_spec in X; auto. }
          split.
          -- intros t. rewrite A. cbn. split; [tauto|]. intros [[<-|X] Y]; [destruct (Y Rv)|auto].
          -- rewrite B. cbn. split; [tauto|]. intros [X|[X|X]]; [auto|apply Rw in X as [_ X]; contradiction|auto].
        * apply Ok; [|rewrite Rw; tauto]. intros t [_ A] <-. cbn [snd] in A. destruct A as [-> | ->].
          -- rewrite (proj2 (str_eqb_spec minus_one minus_one) eq_refl) in Er. discriminate.
          -- rewrite (proj2 (str_eqb_spec reverse_ reverse_) eq_refl), orb_true_r in Er. discriminate.
      + assert (Nk : k <> oneway_key) by (intros ->; rewrite (proj2 (str_eqb_spec oneway_key oneway_key) eq_refl) in Ek; discriminate).
        apply Ok; [|rewrite Rw; tauto]. intros t [A _] <-. cbn in A. contradiction.
  Qed.
  Lemma way_tags_spec ts b : forall t, In t (way_tags ts b) <-> (In t ts /\ ~ reverse_tag t) \/ (b = true /\ t = (oneway_key, yes)).
  Proof.
    intros t. unfold way_tags. destruct (way_tags_loop_spec ts false) as (l & h & -> & A & B).
    destruct b; [destruct h|]; cbn [negb andb].
    - rewrite A. split; [auto|]. intros [X|[_ ->]]; [exact X|]. destruct (proj1 B eq_refl) as [X|X]; [discriminate|]. split; [exact X|].
      intros [_ [Y|Y]]; discriminate Y.
    - rewrite in_app_iff, A. cbn. intuition (subst; auto).
    - rewrite andb_false_r, A. intuition discriminate.
  Qed.
End Proofs.
