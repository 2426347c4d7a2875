(** C99: what is equal has the same hash, so that the tables keyed by points, lines and edges find exactly what is equal. *)
From Coq Require Import NArith Permutation ZArith.
From Verif Require Import Base ListAux AdjList NetImport Hashed.
Local Open Scope nat_scope.

Lemma nth_error_ext' {A} (l m : list A) : (forall i, nth_error l i = nth_error m i) -> l = m.
Proof.
  revert m. induction l as [|a l IH]; intros [|b m] H; [reflexivity|specialize (H 0); discriminate|specialize (H 0); discriminate|].
  pose proof (H 0) as H0. injection H0 as ->. f_equal. apply IH. intros i. exact (H (S i)).
Qed.
Lemma filter_all {A} (f : A -> bool) l : (forall x, In x l -> f x = true) -> filter f l = l.
Proof. induction l as [|a l IH]; intros H; cbn; [reflexivity|]. rewrite (H a) by now left. f_equal. apply IH. intros x X. apply H. now right. Qed.

Section TableProps.
  Context {K V : Type}.
  Variable eqk : K -> K -> bool.
  Variable hash : K -> N.
  (** equality need not be reflexive (NaN) *)
  Hypothesis sym : forall a b, eqk a b = true -> eqk b a = true.
  Hypothesis trans : forall a b c, eqk a b = true -> eqk b c = true -> eqk a c = true.
  Hypothesis agree : forall a b, eqk a b = true -> hash a = hash b.
  Local Notation table := (@table K V).
  Local Notation bucket := (bucket hash).
  Local Notation t_find := (t_find eqk hash).
  Local Notation t_put := (t_put hash).

  (** the meaning: a list of entries, compared with all of them *)
  Definition l_find (k : K) (l : list (K * V)) : option V := option_map snd (find (fun e => eqk (fst e) k) l).
  Definition l_step (l : list (K * V)) (o : @op K V) : list (K * V) :=
    match o with
    | Find _ => l
    | Emplace _ k v => match l_find k l with Some _ => l | None => (k, v) :: l end
    | Erase k => filter (fun e => negb (eqk (fst e) k)) l
    end.
  Fixpoint l_run (l : list (K * V)) (ops : list (@op K V)) : list (option V) :=
    match ops with [] => [] | o :: r => l_find (key_of o) l :: l_run (l_step l o) r end.

  Definition placed (t : table) : Prop := forall i b e, nth_error t i = Some b -> In e b -> bucket (length t) (fst e) = i.
  Definition apart (l : list (K * V)) : Prop := ForallOrdPairs (fun a b => eqk (fst a) (fst b) = false) l.
  Definition holds (t : table) (l : list (K * V)) : Prop := t <> [] /\ placed t /\ Permutation (concat t) l /\ apart l.

  Lemma bucket_lt n k : 0 < n -> bucket n k < n.
  Proof. intros L. unfold Hashed.bucket. pose proof (N.mod_lt (hash k) (N.of_nat n)). lia. Qed.
  Lemma at_length i f (t : table) : length (at_bucket i f t) = length t.
  Proof. revert i. induction t as [|b t IH]; intros [|i]; cbn; auto. Qed.
  Lemma at_nth i f (t : table) j : nth_error (at_bucket i f t) j = if j =? i then option_map f (nth_error t j) else nth_error t j.
  Proof. revert i j. induction t as [|b t IH]; intros [|i] [|j]; cbn; try reflexivity; [destruct (j =? i); reflexivity|apply IH]. Qed.
  Lemma put_concat i x (t : table) : i < length t -> Permutation (concat (at_bucket i (cons x) t)) (x :: concat t).
  Proof.
    revert i. induction t as [|b t IH]; intros [|i] L; cbn in *; try lia; [reflexivity|]. rewrite (IH i) by lia. symmetry. apply Permutation_middle.
  Qed.
  Lemma in_concat_nth (t : table) e : In e (concat t) <-> exists i b, nth_error t i = Some b /\ In e b.
  Proof.
    rewrite in_concat. split.
    - intros (b & B & E). apply In_nth_error in B as (i & B). eauto.
    - intros (i & b & B & E). apply nth_error_In in B. eauto.
  Qed.

  Lemma put_ok t x : t <> [] -> placed t -> t_put x t <> [] /\ placed (t_put x t) /\ Permutation (concat (t_put x t)) (x :: concat t) /\ length (t_put x t) = length t.
  Proof.
    intros Ne Pl. assert (L : bucket (length t) (fst x) < length t) by (apply bucket_lt; destruct t; [congruence|cbn; lia]). unfold Hashed.t_put.
    split; [|split; [|split; [apply put_concat, L|apply at_length]]].
    - intros E. apply (f_equal (@length _)) in E. rewrite at_length in E. destruct t; [congruence|discriminate].
    - intros i b e H I. rewrite at_length, at_nth in *. destruct (Nat.eqb_spec i (bucket (length t) (fst x))) as [->|N]; [|eauto].
      destruct (nth_error t (bucket (length t) (fst x))) as [b0|] eqn:B; [|discriminate]. injection H as <-. destruct I as [<-|I]; [reflexivity|eauto].
  Qed.
  Lemma rehash_ok n t : t_rehash hash n t <> [] /\ placed (t_rehash hash n t) /\ Permutation (concat (t_rehash hash n t)) (concat t).
  Proof.
    unfold t_rehash. assert (G : forall l t0, t0 <> [] -> placed t0 -> fold_left (fun t x => t_put x t) l t0 <> [] /\ placed (fold_left (fun t x => t_put x t) l t0)
      /\ Permutation (concat (fold_left (fun t x => t_put x t) l t0)) (concat t0 ++ l)).
    { induction l as [|x l IH]; intros t0 Ne Pl; cbn [fold_left]; [rewrite app_nil_r; auto|].
      destruct (put_ok t0 x Ne Pl) as (A & B & D & _). destruct (IH _ A B) as (A' & B' & D'). split; [exact A'|]. split; [exact B'|].
      rewrite D', D. cbn [app]. apply Permutation_middle. }
    assert (Z : concat (@new_table K V n) = []) by (unfold new_table; clear; induction n as [|n IH]; cbn in *; auto).
    destruct (G (concat t) (new_table n)) as (A & B & D); [discriminate| |rewrite Z in D; auto].
    intros i b e H I. exfalso. assert (In e (concat (@new_table K V n))) by (apply in_concat_nth; eauto). rewrite Z in *. contradiction.
  Qed.
  Lemma find_ok t l k : holds t l -> t_find k t = l_find k l.
  Proof.
    intros (Ne & Pl & Pm & Ap). unfold Hashed.t_find, l_find.
    assert (L : bucket (length t) k < length t) by (apply bucket_lt; destruct t; [congruence|cbn; lia]).
    destruct (nth_error t (bucket (length t) k)) as [b|] eqn:B; [|apply nth_error_None in B; lia].
    destruct (find (fun e => eqk (fst e) k) l) as [e|] eqn:E.
    - apply find_some in E as [I E].
      assert (Ib : In e b).
      { apply (Permutation_in _ (Permutation_sym Pm)), in_concat_nth in I as (i & b' & B' & I). pose proof (Pl _ _ _ B' I) as Q.
        unfold Hashed.bucket in Q, B. rewrite (agree _ _ E) in Q. rewrite Q, B' in B. now injection B as <-. }
      destruct (find (fun e => eqk (fst e) k) b) as [e'|] eqn:E'.
      + apply find_some in E' as [I' E']. cbn. f_equal. f_equal.
        assert (Il : In e' l) by (apply (Permutation_in _ Pm), in_concat_nth; eauto).
        destruct (ForallOrdPairs_In Ap e' e Il I) as [Q|[Q|Q]]; [exact Q| |]; exfalso; rewrite (trans _ k _) in Q; auto; discriminate.
      + pose proof (find_none _ _ E' _ Ib). cbn in *. congruence.
    - destruct (find (fun e => eqk (fst e) k) b) as [e'|] eqn:E'; [|reflexivity]. exfalso. apply find_some in E' as [I' E'].
      assert (Il : In e' l) by (apply (Permutation_in _ Pm), in_concat_nth; eauto). pose proof (find_none _ _ E _ Il). cbn in *. congruence.
  Qed.
  Lemma filter_apart f l : apart l -> apart (filter f l).
  Proof.
    induction 1 as [|a l F _ IH]; cbn; [constructor|]. destruct (f a); [|exact IH]. constructor; [|exact IH].
    apply Forall_forall. intros x X. apply filter_In in X as [X _]. rewrite Forall_forall in F. auto.
  Qed.
  Lemma filter_perm {A} (f : A -> bool) l m : Permutation l m -> Permutation (filter f l) (filter f m).
  Proof.
    induction 1; cbn; [constructor|destruct (f x); auto|destruct (f x), (f y); auto; apply perm_swap|etransitivity; eauto].
  Qed.
  Lemma concat_filter {A} (f : A -> bool) (t : list (list A)) : concat (map (filter f) t) = filter f (concat t).
  Proof. induction t as [|b t IH]; cbn; [reflexivity|]. now rewrite filter_app, IH. Qed.
  Lemma erase_all t k : placed t -> t_erase eqk hash k t = map (filter (fun e => negb (eqk (fst e) k))) t.
  Proof.
    intros Pl. apply nth_error_ext'. intros j. unfold t_erase. rewrite at_nth, nth_error_map. destruct (Nat.eqb_spec j (bucket (length t) k)) as [->|N]; [reflexivity|].
    destruct (nth_error t j) as [b|] eqn:B; [|reflexivity]. cbn. f_equal. symmetry. apply filter_all. intros e I.
    destruct (eqk (fst e) k) eqn:E; [|reflexivity]. exfalso. apply N. rewrite <- (Pl _ _ _ B I). unfold Hashed.bucket. now rewrite (agree _ _ E).
  Qed.
  Lemma step_ok t l o : holds t l -> holds (t_step eqk hash t o) (l_step l o).
  Proof.
    intros H. pose proof H as (Ne & Pl & Pm & Ap). destruct o as [k|n k v|k]; cbn [t_step l_step]; [exact H| |].
    - unfold t_emplace. rewrite (find_ok t l k H). unfold l_find. destruct (find (fun e => eqk (fst e) k) l) as [e|] eqn:E; cbn [option_map]; [exact H|].
      assert (R : exists t1, match n with Some n => t_rehash hash n t | None => t end = t1 /\ t1 <> [] /\ placed t1 /\ Permutation (concat t1) (concat t)).
      { destruct n as [n|]; eexists; split; try reflexivity; [apply rehash_ok|auto]. }
      destruct R as (t1 & -> & Ne1 & Pl1 & Pm1). destruct (put_ok t1 (k, v) Ne1 Pl1) as (A & B & D & _). split; [exact A|]. split; [exact B|].
      split; [rewrite D, Pm1, Pm; reflexivity|]. constructor; [|exact Ap]. apply Forall_forall. intros e I. cbn [fst].
      destruct (eqk k (fst e)) eqn:Q; [|reflexivity]. apply sym in Q. pose proof (find_none _ _ E _ I). cbn in *. congruence.
    - rewrite (erase_all t k Pl). split; [destruct t; [congruence|discriminate]|]. split; [|split; [|apply filter_apart, Ap]].
      + intros i b e B I. rewrite map_length. rewrite nth_error_map in B. destruct (nth_error t i) as [b0|] eqn:B0; [|discriminate]. injection B as <-.
        apply filter_In in I as [I _]. eauto.
      + rewrite concat_filter. apply filter_perm, Pm.
  Qed.
  Lemma run_ok ops : forall t l, holds t l -> t_run eqk hash t ops = l_run l ops.
  Proof.
    induction ops as [|o r IH]; intros t l H; cbn; [reflexivity|]. rewrite (find_ok _ _ _ H). f_equal. apply IH, step_ok, H.
  Qed.
  Lemma new_holds n : holds (new_table n) [].
  Proof.
    assert (Z : concat (@new_table K V n) = []) by (unfold new_table; clear; induction n as [|n IH]; cbn in *; auto).
    split; [discriminate|]. split; [|split; [rewrite Z; constructor|constructor]].
    intros i b e H I. exfalso. assert (In e (concat (@new_table K V n))) by (apply in_concat_nth; eauto). rewrite Z in *. contradiction.
  Qed.
  (** A table whose hash agrees with its equality finds at every moment exactly what was inserted under an equal key and not erased since,
      however many buckets it has and whenever their number changes; the first of equal insertions stays. *)
  Theorem C99_table n ops : t_run eqk hash (new_table n) ops = l_run [] ops.
  Proof. apply run_ok, new_holds. Qed.
End TableProps.

Section HashProps.
  Context {C : Type}.
  Variable eqc : C -> C -> bool.
  Variable mix : N -> N -> N.
  Variable hash_c : C -> N.
  Variable hash_id : nat -> N.
  (** coordinates: [==] of floating point numbers, for which the hash is the same as well for 0.0 and -0.0 *)
  Hypothesis c_sym : forall a b, eqc a b = true -> eqc b a = true.
  Hypothesis c_trans : forall a b c, eqc a b = true -> eqc b c = true -> eqc a c = true.
  Hypothesis c_agree : forall a b, eqc a b = true -> hash_c a = hash_c b.
  Local Notation point2 := (@point2 C).
  Local Notation eq_point := (eq_point eqc).
  Local Notation hash_point := (hash_point mix hash_c).
  Local Notation hash_line := (hash_line mix hash_c).
  Local Notation hash_road := (hash_road mix hash_c hash_id).
  Local Notation hash_node := (hash_node mix hash_c hash_id).
  Local Notation hash_segment := (hash_segment mix hash_c).

  (** what a table asks of the equality and the hash of its keys *)
  Definition fit {K} (eqk : K -> K -> bool) (hash : K -> N) : Prop :=
    (forall a b, eqk a b = true -> eqk b a = true) /\ (forall a b c, eqk a b = true -> eqk b c = true -> eqk a c = true)
    /\ (forall a b, eqk a b = true -> hash a = hash b).

  Lemma point_fit : fit eq_point hash_point.
  Proof.
    unfold fit, Hashed.eq_point, Hashed.hash_point. repeat split.
    - intros [a1 a2] [b1 b2] H. cbn in *. apply andb_true_iff in H as [H1 H2]. rewrite (c_sym _ _ H1), (c_sym _ _ H2). reflexivity.
    - intros [a1 a2] [b1 b2] [d1 d2] H H'. cbn in *. apply andb_true_iff in H as [H1 H2], H' as [H3 H4].
      rewrite (c_trans _ _ _ H1 H3), (c_trans _ _ _ H2 H4). reflexivity.
    - intros [a1 a2] [b1 b2] H. cbn in *. apply andb_true_iff in H as [H1 H2]. now rewrite (c_agree _ _ H1), (c_agree _ _ H2).
  Qed.
  Lemma segment_fit : fit (eq_segment eqc) hash_segment.
  Proof.
    destruct point_fit as (S1 & T1 & A1). unfold fit, eq_segment, Hashed.hash_segment. repeat split.
    - intros a b H. apply andb_true_iff in H as [H1 H2]. rewrite (S1 _ _ H1), (S1 _ _ H2). reflexivity.
    - intros a b d H H'. apply andb_true_iff in H as [H1 H2], H' as [H3 H4]. rewrite (T1 _ _ _ H1 H3), (T1 _ _ _ H2 H4). reflexivity.
    - intros a b H. apply andb_true_iff in H as [H1 H2]. now rewrite (A1 _ _ H1), (A1 _ _ H2).
  Qed.
  Lemma line_fit : fit (eq_lines eq_point) hash_line.
  Proof.
    destruct point_fit as (S1 & T1 & A1). repeat split.
    - induction a as [|x a IH]; intros [|y b] H; cbn in *; try discriminate; [reflexivity|]. apply andb_true_iff in H as [H1 H2]. now rewrite (S1 _ _ H1), (IH _ H2).
    - induction a as [|x a IH]; intros [|y b] [|z d] H H'; cbn in *; try discriminate; [reflexivity|]. apply andb_true_iff in H as [H1 H2], H' as [H3 H4].
      now rewrite (T1 _ _ _ H1 H3), (IH _ _ H2 H4).
    - unfold Hashed.hash_line. generalize 0%N. intros seed a. revert seed. induction a as [|x a IH]; intros seed [|y b] H; cbn in *; try discriminate; [reflexivity|].
      apply andb_true_iff in H as [H1 H2]. rewrite (A1 _ _ H1). now apply IH.
  Qed.
  Lemma node_fit : fit (eq_node eqc) hash_node.
  Proof.
    destruct point_fit as (S1 & T1 & A1). unfold fit, eq_node, Hashed.hash_node. repeat split.
    - intros a b H. apply andb_true_iff in H as [H1 H2]. apply Nat.eqb_eq in H1. rewrite H1, Nat.eqb_refl, (S1 _ _ H2). reflexivity.
    - intros a b d H H'. apply andb_true_iff in H as [H1 H2], H' as [H3 H4]. apply Nat.eqb_eq in H1, H3. rewrite H1, H3, Nat.eqb_refl, (T1 _ _ _ H2 H4). reflexivity.
    - intros a b H. apply andb_true_iff in H as [H1 H2]. apply Nat.eqb_eq in H1. now rewrite H1, (A1 _ _ H2).
  Qed.
  Lemma road_fit : fit (eq_road eq_point) hash_road.
  Proof.
    destruct line_fit as (S1 & T1 & A1). unfold fit, eq_road, Hashed.hash_road. repeat split.
    - intros a b H. apply andb_true_iff in H as [H1 H2]. apply Nat.eqb_eq in H1. rewrite H1, Nat.eqb_refl, (S1 _ _ H2). reflexivity.
    - intros a b d H H'. apply andb_true_iff in H as [H1 H2], H' as [H3 H4]. apply Nat.eqb_eq in H1, H3. rewrite H1, H3, Nat.eqb_refl, (T1 _ _ _ H2 H4). reflexivity.
    - intros a b H. apply andb_true_iff in H as [H1 H2]. apply Nat.eqb_eq in H1. now rewrite H1, (A1 _ _ H2).
  Qed.

  (** Equality is symmetric and transitive and equal values have the same hash: points, segments, lines, nodes and edges. *)
  Theorem C99_agree : fit eq_point hash_point /\ fit (eq_segment eqc) hash_segment /\ fit (eq_lines eq_point) hash_line
    /\ fit (eq_node eqc) hash_node /\ fit (eq_road eq_point) hash_road.
  Proof. exact (conj point_fit (conj segment_fit (conj line_fit (conj node_fit road_fit)))). Qed.

  (** The coordinates of a value, in order; values are equal exactly if they have as many points, the same id, and equal coordinates. *)
  Definition coords (l : list point2) : list C := flat_map (fun p => [fst p; snd p]) l.
  Definition same_coords (a b : list C) : Prop := Forall2 (fun x y => eqc x y = true) a b.
  Lemma eq_lines_coords a b : eq_lines eq_point a b = true <-> same_coords (coords a) (coords b).
  Proof.
    revert b. induction a as [|[x y] a IH]; intros [|[x' y'] b]; cbn.
    - split; [constructor|reflexivity].
    - split; [discriminate|intros H; inversion H].
    - split; [discriminate|intros H; inversion H].
    - rewrite andb_true_iff, IH. unfold Hashed.eq_point. cbn. rewrite andb_true_iff. split.
      + intros [[A B] D]. repeat constructor; assumption.
      + intros H. inversion H as [|? ? ? ? A H']; subst. inversion H' as [|? ? ? ? B D]; subst. auto.
  Qed.
  Theorem C99_equal :
    (forall p q, eq_point p q = true <-> same_coords (coords [p]) (coords [q]))
    /\ (forall s t, eq_segment eqc s t = true <-> same_coords (coords [fst s; snd s]) (coords [fst t; snd t]))
    /\ (forall a b, eq_lines eq_point a b = true <-> same_coords (coords a) (coords b))
    /\ (forall a b, eq_node eqc a b = true <-> fst a = fst b /\ same_coords (coords [snd a]) (coords [snd b]))
    /\ (forall a b, eq_road eq_point a b = true <-> r_id a = r_id b /\ same_coords (coords (r_line a)) (coords (r_line b))).
  Proof.
    assert (Pt : forall p q, eq_point p q = true <-> same_coords (coords [p]) (coords [q])).
    { intros p q. rewrite <- eq_lines_coords. cbn. now rewrite andb_true_r. }
    split; [exact Pt|]. split; [|split; [exact eq_lines_coords|split]].
    - intros s t. rewrite <- eq_lines_coords. cbn. unfold eq_segment. now rewrite andb_true_r.
    - intros a b. unfold eq_node. rewrite andb_true_iff, Nat.eqb_eq, Pt. reflexivity.
    - intros a b. unfold eq_road. rewrite andb_true_iff, Nat.eqb_eq, eq_lines_coords. reflexivity.
  Qed.

  (** So the tables of the program (points in remove_duplicate_nodes, edges in remove_duplicate_edges) find exactly what is equal. *)
  Theorem C99_points {V} n (ops : list (@op point2 V)) : t_run eq_point hash_point (new_table n) ops = l_run eq_point [] ops.
  Proof. destruct point_fit as (S1 & T1 & A1). now apply C99_table. Qed.

  (** The pass over the edges with the hashed set does what C18 says of the pass that compares each edge with all before it. *)
  Theorem C99_edges resize freed n (g : graph (node point2) (road point2)) :
    hashed_duplicate_edges eq_point hash_road resize freed n g = remove_duplicate_edges eq_point freed g.
  Proof.
    destruct road_fit as (S1 & T1 & A1). unfold hashed_duplicate_edges, remove_duplicate_edges.
    enough (G : forall es g set seen re, holds (eq_road eq_point) hash_road set (map (fun d => (d, tt)) seen) ->
      hashed_edges_loop eq_point hash_road resize freed g es set re = dup_edges_loop eq_point freed g es seen re)
      by (rewrite (G (map e_id (g_es g)) g (new_table n) [] false); [reflexivity|apply new_holds]).
    clear g. induction es as [|e r IH]; intros g set seen re H; [reflexivity|]. cbn [hashed_edges_loop dup_edges_loop].
    destruct (get_edge g e) as [x|]; [|reflexivity]. cbn [derefO].
    assert (F : t_find (eq_road eq_point) hash_road (e_data x) set = if existsb (fun d => eq_road eq_point d (e_data x)) seen then Some tt else None).
    { rewrite (find_ok _ _ S1 T1 A1 _ _ _ H). unfold l_find. clear. induction seen as [|d seen IH]; cbn; [reflexivity|]. destruct (eq_road eq_point d (e_data x)); [reflexivity|exact IH]. }
    pose proof (step_ok _ _ S1 T1 A1 _ _ (Emplace (resize set) (e_data x) tt) H) as H'. cbn [t_step l_step] in H'.
    rewrite <- (find_ok _ _ S1 T1 A1 _ _ _ H), F in H'. rewrite F. destruct (existsb (fun d => eq_road eq_point d (e_data x)) seen).
    - destruct (remove_edge Bidirectional false g e) as [g1|g1| |]; cbn [bindO]; try reflexivity. destruct freed; [reflexivity|]. apply IH, H'.
    - apply IH. exact H'.
  Qed.
End HashProps.

(** Coordinates: numbers, two zeroes and NaN; a hash with many collisions. *)
Inductive coord := Num (z : Z) | MinusZero | NaN.
Definition coord_eq (a b : coord) : bool :=
  match a, b with
  | Num x, Num y => Z.eqb x y
  | Num x, MinusZero | MinusZero, Num x => Z.eqb x 0
  | MinusZero, MinusZero => true
  | _, _ => false
  end.
Definition coord_hash (a : coord) : N := match a with Num z => Z.to_N (z mod 3) | MinusZero => 0 | NaN => 1 end%N.
Lemma coord_fit : fit coord_eq coord_hash.
Proof.
  repeat split.
  - intros [x| |] [y| |] H; cbn in *; try discriminate; try exact H. now rewrite Z.eqb_sym.
  - intros [x| |] [y| |] [z| |] H H'; cbn in *; try discriminate; try reflexivity; try (apply Z.eqb_eq in H); try (apply Z.eqb_eq in H'); try apply Z.eqb_eq; congruence.
  - intros [x| |] [y| |] H; cbn in *; try discriminate; try reflexivity; apply Z.eqb_eq in H; subst; reflexivity.
Qed.
Definition mix7 (a b : N) : N := ((7 * a + b + 1) mod 5)%N.
Definition at_ (x y : Z) : @point2 coord := (Num x, Num y).
(** many keys in two buckets, then in five: -0 finds 0, the second insertion of an equal point changes nothing, and what was erased is gone *)
Example C99_case : t_run (eq_point coord_eq) (hash_point mix7 coord_hash) (new_table 1)
    [Emplace None (at_ 0 1) 10; Emplace None (at_ 3 1) 11; Emplace None (at_ 6 4) 12; Find (MinusZero, Num 1%Z); Emplace (Some 4) (at_ 3 1) 13;
     Emplace (Some 4) (at_ 9 9) 14; Find (at_ 3 1); Erase (MinusZero, Num 1%Z); Find (at_ 0 1); Find (at_ 6 4)]
  = [None; None; None; Some 10; Some 11; None; Some 11; Some 10; None; Some 12].
Proof. vm_compute. reflexivity. Qed.
Example C99_case_fit : fit (eq_point coord_eq) (hash_point mix7 coord_hash) /\ hash_point mix7 coord_hash (at_ 0 1) = hash_point mix7 coord_hash (at_ 3 1)
  /\ eq_point coord_eq (at_ 0 1) (at_ 3 1) = false.
Proof. destruct coord_fit as (A & B & D). split; [exact (point_fit coord_eq mix7 coord_hash A B D)|]. split; reflexivity. Qed.

(** C99: a hash that tells equal values apart loses entries: with a hash of the bits, the copy of a node at -0 is not found. *)
Definition bit_hash (a : coord) : N := match a with Num z => Z.to_N (z mod 3) | MinusZero => 2 | NaN => 1 end%N.
Theorem C99_bits_refuted : exists ops : list (@op (@point2 coord) nat),
  t_run (eq_point coord_eq) (hash_point mix7 bit_hash) (new_table 4) ops <> l_run (eq_point coord_eq) [] ops.
Proof. exists [Emplace None (at_ 0 1) 10; Find (MinusZero, Num 1%Z)]. vm_compute. discriminate. Qed.
(** C99: an edge with a coordinate that is not a number is not equal to itself; its copy is not found. *)
Theorem C99_nan_refuted : exists r : road (@point2 coord), forall n m,
  t_run (eq_road (eq_point coord_eq)) (hash_road mix7 coord_hash N.of_nat) (new_table n) [Emplace m r tt; Find r] = [None; None].
Proof.
  exists (mkRoad 7 [(Num 1%Z, NaN); at_ 2 2]). intros n m. destruct coord_fit as (A & B & D).
  destruct (road_fit coord_eq mix7 coord_hash N.of_nat A B D) as (A' & B' & D'). rewrite (C99_table _ _ A' B' D'). reflexivity.
Qed.

Print Assumptions C99_table.
Print Assumptions C99_agree.
Print Assumptions C99_equal.
Print Assumptions C99_points.
Print Assumptions C99_edges.
Print Assumptions C99_bits_refuted.
Print Assumptions C99_nan_refuted.
