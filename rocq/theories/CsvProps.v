(** C32: reading rows of points into tracks. *)
From Verif Require Import Base ListAux Csv CsvProofs.

Section C32.
  Context {Id P : Type}.
  Variable ideq : Id -> Id -> bool.
  Hypothesis ideq_spec : forall a b, reflect (a = b) (ideq a b).
  Variable num : nat -> Id.
  Variable sort : list (nat * P) -> list (nat * P).
  Variable order : list (Id * list (nat * P)) -> list (Id * list (nat * P)).
  Hypothesis order_ok : forall l, Permutation l (order l).
  Hypothesis sort_ok : sorts sort.

  Lemma by_time_tail x l : by_time (P:=P) (x :: l) -> by_time l.
  Proof. intros H i j a b L A B. exact (H (S i) (S j) a b ltac:(lia) A B). Qed.
  Lemma by_time_head x l y : by_time (P:=P) (x :: l) -> In y l -> fst x <= fst y.
  Proof. intros H Hy. apply In_nth_error in Hy as (n & Hn). exact (H 0 (S n) x y ltac:(lia) eq_refl Hn). Qed.

  (** with pairwise distinct times there is only one order *)
  Lemma order_unique (l m : list (nat * P)) : NoDup (map fst l) -> Permutation l m -> by_time l -> by_time m -> l = m.
  Proof.
    revert m. induction l as [|x l IH]; intros m Nd Pm Bl Bm.
    - apply Permutation_nil in Pm. auto.
    - destruct m as [|y m]; [apply Permutation_sym, Permutation_nil in Pm; discriminate|].
      assert (E : x = y).
      { assert (Hx : In x (y :: m)) by (eapply Permutation_in; [exact Pm|left; reflexivity]).
        assert (Hy : In y (x :: l)) by (eapply Permutation_in; [apply Permutation_sym; exact Pm|left; reflexivity]).
        destruct Hx as [Hx|Hx]; [auto|]. destruct Hy as [Hy|Hy]; [auto|].
        pose proof (by_time_head _ _ _ Bm Hx). pose proof (by_time_head _ _ _ Bl Hy).
        exfalso. cbn in Nd. inversion Nd as [|? ? Nx _]. apply Nx. replace (fst x) with (fst y) by lia. apply in_map; exact Hy. }
      subst y. f_equal. apply IH.
      + cbn in Nd. inversion Nd; assumption.
      + apply Permutation_cons_inv in Pm. exact Pm.
      + eapply by_time_tail; exact Bl.
      + eapply by_time_tail; exact Bm.
  Qed.

  Lemma stamp_untimed (l : list (option nat * P)) : (forall e, In e l -> fst e = None) -> forall k,
    map fst (stamp k l) = seq k (length l) /\ map snd (stamp k l) = map snd l.
  Proof.
    induction l as [|[t p] l IH]; intros H k; cbn; [auto|].
    destruct (IH (fun e He => H e (or_intror He)) (S k)) as [A B]. pose proof (H (t, p) (or_introl eq_refl)) as E.
    cbn in E. subst t. rewrite A, B. auto.
  Qed.
  Lemma seq_by_time (l : list (nat * P)) k : map fst l = seq k (length l) -> by_time l.
  Proof.
    intros E i j x y L A B. assert (Hj : j < length l) by (apply nth_error_Some; congruence).
    apply (map_nth_error fst) in A. apply (map_nth_error fst) in B. rewrite E in A, B.
    apply nth_error_nth with (d := 0) in A. apply nth_error_nth with (d := 0) in B. rewrite seq_nth in A, B by lia. lia.
  Qed.

  (** an id is wanted if there are no selectors or it is one of them *)
  Definition wanted (cfg : settings Id) (i : Id) : Prop := selectors cfg = [] \/ In i (selectors cfg).
  Lemma selected_wanted cfg i : selected ideq cfg i = true <-> wanted cfg i.
  Proof.
    unfold selected, wanted. destruct (selectors cfg) as [|s r]; [tauto|]. rewrite existsb_exists. split.
    - intros (x & Hx & E). destruct (ideq_spec i x); [subst; auto|discriminate].
    - intros [H|H]; [discriminate|]. exists i. split; [exact H|]. destruct (ideq_spec i i); congruence.
  Qed.

  Lemma tracks_in cfg rows i ls :
    In (i, ls) (point_tracks ideq num cfg sort rows) ->
    selected ideq cfg i = true /\ In i (point_ids num cfg rows)
    /\ ls = [map snd (sort (stamp 0 (points_of ideq num cfg i rows)))].
  Proof.
    unfold point_tracks. rewrite in_map_iff. intros (j & E & Hj). apply filter_In in Hj as [Hj Sj].
    apply (proj1 (uniq_In ideq ideq_spec _ _)) in Hj. injection E as -> <-. auto.
  Qed.

  (** **** C32, ungrouped reading.  First come the tracks given as lines, in row order.  Then follows exactly one track
      for every selected id of a point row; it consists of exactly the point rows of this id, ordered by time, where a
      row without time counts as its number among the rows of its id. *)
  Theorem C32_one_track_per_id cfg (rows : list (row Id P)) :
    grouped cfg = false ->
    exists ts, read ideq num sort order cfg rows = line_tracks ideq num cfg rows ++ ts
      /\ NoDup (map fst ts)
      /\ (forall i, In i (map fst ts) <->
            wanted cfg i /\ exists r p, In r rows /\ r_geom r = Point p /\ row_id num cfg r = i)
      /\ (forall i ls, In (i, ls) ts -> exists st, ls = [map snd st]
            /\ Permutation (stamp 0 (points_of ideq num cfg i rows)) st /\ by_time st).
  Proof.
    intros Hg.
    destruct (ungrouped_fold ideq ideq_spec num cfg sort order rows Hg csv_start [] eq_refl) as [A B].
    set (s := fold_left _ rows csv_start) in *. unfold read. fold s. unfold finish_import. cbn [c_out csv_start] in *.
    rewrite A, B. cbn [app].
    pose proof (flush ideq num cfg sort order order_ok rows) as F. set (ts := flat_map _ (order _)) in *.
    assert (Fst : Permutation (map fst ts) (filter (selected ideq cfg) (uniq ideq (point_ids num cfg rows)))).
    { rewrite F. unfold point_tracks. rewrite map_map. cbn. rewrite map_id. reflexivity. }
    exists ts. split; [reflexivity|]. split; [|split].
    - eapply Permutation_NoDup; [apply Permutation_sym; exact Fst|]. apply NoDup_filter, uniq_NoDup, ideq_spec.
    - intros i.
      assert (Step : In i (point_ids num cfg rows) <-> exists r p, In r rows /\ r_geom r = Point p /\ row_id num cfg r = i).
      { unfold point_ids. rewrite in_flat_map. split.
        - intros (r & Hr & H). destruct (r_geom r) as [p| |] eqn:G; [|destruct H|destruct H].
          destruct H as [H|[]]. exists r, p. auto.
        - intros (r & p & Hr & G & E). exists r. rewrite G. split; [exact Hr|left; exact E]. }
      rewrite <- selected_wanted, <- Step, <- (uniq_In ideq ideq_spec (point_ids num cfg rows) i). split.
      + intros H. pose proof (Permutation_in _ Fst H) as H2. apply filter_In in H2. tauto.
      + intros [Hs Hi]. eapply Permutation_in; [apply Permutation_sym; exact Fst|]. apply filter_In; auto.
    - intros i ls H. pose proof (Permutation_in _ F H) as H2. apply tracks_in in H2 as (_ & _ & ->).
      exists (sort (stamp 0 (points_of ideq num cfg i rows))). split; [reflexivity|]. apply sort_ok.
  Qed.

  (** the tracks given as lines: one per wanted row that holds lines, in row order, whatever its id *)
  Theorem C32_line_tracks cfg (rows : list (row Id P)) :
    (forall (r : row Id P) ls, r_geom r = Lines ls -> wanted cfg (line_id num cfg r) -> line_tracks ideq num cfg [r] = [(line_id num cfg r, ls)])
    /\ (forall r : row Id P, (forall ls, r_geom r <> Lines ls) \/ ~ wanted cfg (line_id num cfg r) -> line_tracks ideq num cfg [r] = [])
    /\ (forall r, line_tracks ideq num cfg (r :: rows) = line_tracks ideq num cfg [r] ++ line_tracks ideq num cfg rows).
  Proof.
    unfold line_tracks. cbn [flat_map]. split; [|split].
    - intros r ls -> H. apply selected_wanted in H. rewrite H. reflexivity.
    - intros r H. rewrite app_nil_r. destruct (r_geom r) as [p|ls|]; [reflexivity| |reflexivity]. destruct (selected ideq cfg (line_id num cfg r)) eqn:E; [|reflexivity].
      apply selected_wanted in E. destruct H as [H|H]; [exfalso; apply (H ls); reflexivity|contradiction].
    - intros r. rewrite app_nil_r. reflexivity.
  Qed.
  (** which id a row has *)
  Theorem C32_row_ids cfg (r : row Id P) :
    (no_id cfg = false -> row_id num cfg r = r_text r /\ line_id num cfg r = r_text r)
    /\ (no_id cfg = true -> line_id num cfg r = num (r_row r) /\ row_id num cfg r = num (if no_id_whole_file cfg then r_file r else r_row r)).
  Proof. unfold row_id, line_id, row_id. destruct (no_id cfg), (no_id_whole_file cfg); split; intros H; try discriminate; auto. Qed.

  (** rows without times keep their order *)
  Theorem C32_row_order_without_times cfg (rows : list (row Id P)) i ls :
    grouped cfg = false ->
    In (i, ls) (skipn (length (line_tracks ideq num cfg rows)) (read ideq num sort order cfg rows)) ->
    (forall r, In r rows -> row_id num cfg r = i -> r_time r = None) ->
    ls = [map snd (points_of ideq num cfg i rows)].
  Proof.
    intros Hg Hin Hn. destruct (C32_one_track_per_id cfg rows Hg) as (ts & E & _ & _ & T).
    rewrite E, skipn_app, skipn_all, Nat.sub_diag in Hin. cbn in Hin. destruct (T i ls Hin) as (st & -> & Pm & Bt).
    assert (U : forall e, In e (points_of ideq num cfg i rows) -> fst e = None).
    { intros e He. unfold points_of in He. apply in_flat_map in He as (r & Hr & H).
      destruct (r_geom r); [|destruct H|destruct H]. destruct (ideq_spec (row_id num cfg r) i); [|destruct H].
      destruct H as [<-|[]]. cbn. apply Hn; auto. }
    destruct (stamp_untimed _ U 0) as [A B].
    assert (L : length (points_of ideq num cfg i rows) = length (stamp 0 (points_of ideq num cfg i rows)))
      by (rewrite stamp_length; reflexivity).
    rewrite L in A. do 2 f_equal. rewrite <- B. f_equal. symmetry. apply order_unique; auto.
    - rewrite A. apply seq_NoDup.
    - eapply seq_by_time; exact A.
  Qed.

  (** rows with pairwise distinct times: the order is determined by the times alone *)
  Theorem C32_distinct_times_order cfg (rows : list (row Id P)) i ls st :
    grouped cfg = false ->
    In (i, ls) (skipn (length (line_tracks ideq num cfg rows)) (read ideq num sort order cfg rows)) ->
    NoDup (map fst (stamp 0 (points_of ideq num cfg i rows))) ->
    Permutation (stamp 0 (points_of ideq num cfg i rows)) st -> by_time st ->
    ls = [map snd st].
  Proof.
    intros Hg Hin Nd Ps Bs. destruct (C32_one_track_per_id cfg rows Hg) as (ts & E & _ & _ & T).
    rewrite E, skipn_app, skipn_all, Nat.sub_diag in Hin. cbn in Hin. destruct (T i ls Hin) as (st' & -> & Pm & Bt).
    do 2 f_equal. symmetry. apply order_unique; auto.
    - eapply Permutation_NoDup; [apply Permutation_map; exact Ps|exact Nd].
    - rewrite <- Ps. exact Pm.
  Qed.

  (** **** C32, grouped reading gives the same tracks (in some order) whenever equal ids are contiguous. *)
  Theorem C32_grouped_same cfg (rows : list (row Id P)) order' :
    grouped cfg = true -> (forall l, Permutation l (order' l)) ->
    (forall r, In r rows -> last_id num cfg r = row_id num cfg r) ->
    contiguous num cfg [] None rows ->
    Permutation (read ideq num sort order cfg rows)
                (read ideq num sort order' (mkSet (no_id cfg) (no_id_whole_file cfg) false (selectors cfg)) rows).
  Proof.
    intros Hg Ho Hl Hc. set (cfg' := mkSet _ _ _ _).
    pose proof (grouped_fold ideq ideq_spec num cfg sort order order_ok rows Hg csv_start [] [] None []) as G.
    cbn [app] in G. unfold read at 1. rewrite G; clear G; auto.
    - destruct (ungrouped_fold ideq ideq_spec num cfg' sort order' rows eq_refl csv_start [] eq_refl) as [A B].
      unfold read, finish_import. cbn [c_out csv_start app] in *. rewrite A, B.
      rewrite (flush ideq num cfg' sort order' Ho rows). reflexivity.
    - intros r [].
    - intros c Hx; discriminate.
  Qed.
End C32.

(** the contract of [std::sort] is met by insertion sort *)
Section Isort.
  Context {P : Type}.
  Fixpoint insert (x : nat * P) (l : list (nat * P)) : list (nat * P) :=
    match l with [] => [x] | y :: r => if fst x <=? fst y then x :: l else y :: insert x r end.
  Definition isort (l : list (nat * P)) : list (nat * P) := fold_right insert [] l.

  Lemma insert_perm x l : Permutation (x :: l) (insert x l).
  Proof.
    induction l as [|y l IH]; cbn; [reflexivity|]. destruct (fst x <=? fst y); [reflexivity|].
    rewrite perm_swap. constructor. exact IH.
  Qed.
  Lemma by_time_cons x (l : list (nat * P)) : (forall y, In y l -> fst x <= fst y) -> by_time l -> by_time (x :: l).
  Proof.
    intros H B [|i] [|j] a b L A C; cbn in *; try lia.
    - injection A as <-. apply H. eapply nth_error_In; exact C.
    - exact (B i j a b ltac:(lia) A C).
  Qed.
  Lemma insert_sorted x l : by_time l -> by_time (insert x l).
  Proof.
    induction l as [|y l IH]; intros B; cbn.
    - apply by_time_cons; [intros ? []|exact B].
    - destruct (Nat.leb_spec (fst x) (fst y)).
      + apply by_time_cons; [|exact B]. intros z [<-|Hz]; [exact H|]. pose proof (by_time_head _ _ _ B Hz). lia.
      + apply by_time_cons; [|apply IH; eapply by_time_tail; exact B].
        intros z Hz. apply (Permutation_in _ (Permutation_sym (insert_perm x l))) in Hz as [<-|Hz]; [lia|].
        eapply by_time_head; eassumption.
  Qed.
  Lemma isort_ok : sorts isort.
  Proof.
    intros l. induction l as [|x l [A B]]; cbn.
    - split; [reflexivity|]. intros [|i] j x y ? H; discriminate.
    - split; [rewrite A at 1; apply insert_perm|apply insert_sorted; exact B].
  Qed.
  (** another sort with the same contract: equal times in reversed order *)
  Lemma isort_rev_ok : sorts (fun l => isort (rev l)).
  Proof. intros l. destruct (isort_ok (rev l)) as [A B]. split; [rewrite <- A; apply Permutation_rev|exact B]. Qed.
End Isort.

(** two tracks whose rows are interleaved, one with times, one without, a row with a line, an unreadable row and an
    unselected id *)
Definition demo_rows : list (row nat nat) :=
  [ mkRow 0 0 7 (Some 50) (Point 1); mkRow 0 1 8 None (Point 2); mkRow 0 2 7 (Some 20) (Point 3);
    mkRow 0 3 9 None (Lines [[4; 5]; [6]]); mkRow 0 4 8 None (Point 7); mkRow 0 5 7 None Unreadable;
    mkRow 0 6 6 None (Point 8); mkRow 0 7 7 (Some 30) (Point 9)].
Example C32_demo :
  read Nat.eqb (fun n => n) isort (fun l => rev l) (mkSet false false false [7; 8; 9]) demo_rows
  = [(9, [[4; 5]; [6]]); (8, [[2; 7]]); (7, [[3; 9; 1]])].
Proof. vm_compute. reflexivity. Qed.
Example C32_demo_rev_is_order : forall l : list (nat * list (nat * nat)), Permutation l (rev l).
Proof. intros; apply Permutation_rev. Qed.
Definition demo_contiguous : list (row nat nat) :=
  [ mkRow 0 0 7 (Some 50) (Point 1); mkRow 0 1 7 (Some 20) (Point 3); mkRow 0 2 8 None (Point 2);
    mkRow 0 3 8 None (Point 7); mkRow 0 4 9 None (Lines [[4; 5]; [6]])].
Example C32_demo_grouped :
  contiguous (fun n => n) (mkSet false false true []) [] None demo_contiguous
  /\ (forall r, In r demo_contiguous -> last_id (fun n => n) (mkSet false false true []) r = row_id (fun n => n) (mkSet false false true []) r)
  /\ read Nat.eqb (fun n => n) isort (fun l => l) (mkSet false false true []) demo_contiguous
     = [(7, [[3; 1]]); (8, [[2; 7]]); (9, [[4; 5]; [6]])].
Proof.
  split; [|split; [|vm_compute; reflexivity]].
  - cbn. intuition (try discriminate; try (right; intuition discriminate); auto).
  - intros r [<-|[<-|[<-|[<-|[<-|[]]]]]]; reflexivity.
Qed.

(** **** What is not true.  Grouped reading of ids that come back forwards an id twice. *)
Theorem C32_grouped_interleaved_refuted : exists rows : list (row nat nat),
  ~ NoDup (map fst (read Nat.eqb (fun n => n) isort (fun l => l) (mkSet false false true []) rows)).
Proof.
  exists [mkRow 0 0 7 None (Point 1); mkRow 0 1 8 None (Point 2); mkRow 0 2 7 None (Point 3)].
  vm_compute. intros H. inversion H as [|? ? N _]. apply N. cbn. auto.
Qed.
(** Rows of the same id and time need not keep their row order, since [std::sort] is not stable. *)
Theorem C32_equal_times_refuted : exists (sort : list (nat * nat) -> list (nat * nat)) (rows : list (row nat nat)),
  sorts sort /\ (forall r, In r rows -> r_time r = Some 5)
  /\ read Nat.eqb (fun n => n) sort (fun l => l) (mkSet false false false []) rows = [(7, [[2; 1]])]
  /\ points_of Nat.eqb (fun n => n) (mkSet false false false []) 7 rows = [(Some 5, 1); (Some 5, 2)].
Proof.
  exists (fun l => isort (rev l)), [mkRow 0 0 7 (Some 5) (Point 1); mkRow 0 1 7 (Some 5) (Point 2)].
  split; [apply isort_rev_ok|]. split; [|vm_compute; auto]. intros r [<-|[<-|[]]]; reflexivity.
Qed.
(** Without ids the row number is the id, and rows of different files with the same number become one track. *)
Theorem C32_no_id_files_merged_refuted : exists rows : list (row nat nat),
  NoDup (map (fun r => (r_file r, r_row r)) rows)
  /\ read Nat.eqb (fun n => n) isort (fun l => l) (mkSet true false false []) rows = [(0, [[1; 2]])].
Proof.
  exists [mkRow 0 0 9 None (Point 1); mkRow 1 0 9 None (Point 2)]. split; [|vm_compute; reflexivity].
  repeat constructor; cbn; intuition congruence.
Qed.
(** Without ids but one track per file, a line among the points makes grouped reading split the file's track. *)
Theorem C32_whole_file_line_refuted : exists rows : list (row nat nat),
  contiguous (fun n => n) (mkSet true true true []) [] None rows
  /\ ~ NoDup (map fst (read Nat.eqb (fun n => n) isort (fun l => l) (mkSet true true true []) rows)).
Proof.
  exists [mkRow 3 0 9 None (Point 1); mkRow 3 1 9 None (Lines [[5]]); mkRow 3 2 9 None (Point 2)]. split.
  - cbn. intuition.
  - vm_compute. intros H. inversion H as [|? ? _ K]. inversion K as [|? ? N _]. apply N. cbn. auto.
Qed.

Print Assumptions C32_one_track_per_id.
Print Assumptions C32_line_tracks.
Print Assumptions C32_row_ids.
Print Assumptions C32_row_order_without_times.
Print Assumptions C32_distinct_times_order.
Print Assumptions C32_grouped_same.
