(** C87, with real numbers: the straight distance is a metric, so on the plane A* finds shortest paths.  The real numbers
    of the standard library rest on axioms, listed at the end. *)
From Coq Require Import Reals Lra Rgeom.
From Verif Require Import Base ListAux Search SearchSpec SearchProofs SearchProps Estimate EstimateProps Euclid.
Local Open Scope R_scope.

Lemma Rleb_le x y : Rleb x y = true <-> x <= y.
Proof. unfold Rleb. destruct (Rle_dec x y); split; intros; auto; try discriminate; contradiction. Qed.

(** Minkowski's inequality for two numbers, from the one of the standard library. *)
Lemma minkowski a b c d : sqrt ((a + c) * (a + c) + (b + d) * (b + d)) <= sqrt (a * a + b * b) + sqrt (c * c + d * d).
Proof.
  pose proof (triangle 0 0 (a + c) (b + d) a b) as H. unfold dist_euc in H. unfold Rsqr in H.
  replace ((0 - (a + c)) * (0 - (a + c)) + (0 - (b + d)) * (0 - (b + d)))
    with ((a + c) * (a + c) + (b + d) * (b + d)) in H by ring.
  replace ((0 - a) * (0 - a) + (0 - b) * (0 - b)) with (a * a + b * b) in H by ring.
  replace ((a - (a + c)) * (a - (a + c)) + (b - (b + d)) * (b - (b + d))) with (c * c + d * d) in H by ring.
  exact H.
Qed.

Lemma square_nonneg x : 0 <= x * x.
Proof. exact (Rle_0_sqr x). Qed.

(** ... and for three. *)
Lemma minkowski3 a b e c d f :
  sqrt ((a + c) * (a + c) + (b + d) * (b + d) + (e + f) * (e + f))
  <= sqrt (a * a + b * b + e * e) + sqrt (c * c + d * d + f * f).
Proof.
  set (m := sqrt (b * b + e * e)). set (n := sqrt (d * d + f * f)).
  assert (M : m * m = b * b + e * e). { apply sqrt_sqrt. pose proof (square_nonneg b). pose proof (square_nonneg e). lra. }
  assert (N : n * n = d * d + f * f). { apply sqrt_sqrt. pose proof (square_nonneg d). pose proof (square_nonneg f). lra. }
  pose proof (minkowski b e d f) as H. fold m n in H.
  pose proof (sqrt_pos ((b + d) * (b + d) + (e + f) * (e + f))) as P0.
  assert (S : (b + d) * (b + d) + (e + f) * (e + f) <= (m + n) * (m + n)).
  { rewrite <- (sqrt_sqrt ((b + d) * (b + d) + (e + f) * (e + f))).
    - apply Rmult_le_compat; assumption.
    - pose proof (square_nonneg (b + d)). pose proof (square_nonneg (e + f)). lra. }
  apply Rle_trans with (sqrt ((a + c) * (a + c) + (m + n) * (m + n))).
  - apply sqrt_le_1_alt. lra.
  - replace (a * a + b * b + e * e) with (a * a + m * m) by lra.
    replace (c * c + d * d + f * f) with (c * c + n * n) by lra. apply minkowski.
Qed.

Lemma minkowski1 a c : sqrt ((a + c) * (a + c)) <= sqrt (a * a) + sqrt (c * c).
Proof. pose proof (minkowski a 0 c 0) as H. replace ((a + c) * (a + c) + (0 + 0) * (0 + 0)) with ((a + c) * (a + c)) in H by ring.
  replace (a * a + 0 * 0) with (a * a) in H by ring. replace (c * c + 0 * 0) with (c * c) in H by ring. exact H. Qed.

(** The straight distance is not negative, the same both ways, zero exactly between equal points, and no way round is
    shorter. *)
Theorem C87_metric n a b c : (1 <= n <= 3)%nat -> length a = n -> length b = n -> length c = n ->
  0 <= euclidean_distance n a b
  /\ euclidean_distance n a b = euclidean_distance n b a
  /\ (euclidean_distance n a b = 0 <-> a = b)
  /\ euclidean_distance n a c <= euclidean_distance n a b + euclidean_distance n b c.
Proof.
  intros N LA LB LC.
  assert (Z0 : forall x y, (x - y) * (x - y) = 0 -> x = y).
  { intros x y E. apply Rmult_integral in E. destruct E; lra. }
  destruct a as [|a1 [|a2 [|a3 [|a4 a]]]]; cbn in LA; try lia;
    destruct b as [|b1 [|b2 [|b3 [|b4 b]]]]; cbn in LB; try lia;
    destruct c as [|c1 [|c2 [|c3 [|c4 c]]]]; cbn in LC; try lia; subst n;
    unfold euclidean_distance, squared; cbn [nth]; (split; [apply sqrt_pos|]); (split; [f_equal; ring|]);
    (split; [split|]).
  - intros E. apply sqrt_eq_0 in E; [|pose proof (square_nonneg (a1 - b1)); lra].
    f_equal. apply Z0. lra.
  - intros [= ->]. replace (0 + (b1 - b1) * (b1 - b1)) with 0 by ring. apply sqrt_0.
  - rewrite !Rplus_0_l. replace (a1 - c1) with ((a1 - b1) + (b1 - c1)) by ring. apply minkowski1.
  - pose proof (square_nonneg (a1 - b1)). pose proof (square_nonneg (a2 - b2)).
    intros E. apply sqrt_eq_0 in E; [|lra]. f_equal; [apply Z0; lra|]. f_equal. apply Z0. lra.
  - intros [= -> ->]. replace (_ + _) with 0 by ring. apply sqrt_0.
  - rewrite !Rplus_0_l. replace (a1 - c1) with ((a1 - b1) + (b1 - c1)) by ring.
    replace (a2 - c2) with ((a2 - b2) + (b2 - c2)) by ring. apply minkowski.
  - pose proof (square_nonneg (a1 - b1)). pose proof (square_nonneg (a2 - b2)). pose proof (square_nonneg (a3 - b3)).
    intros E. apply sqrt_eq_0 in E; [|lra]. f_equal; [apply Z0; lra|]. f_equal; [apply Z0; lra|]. f_equal. apply Z0. lra.
  - intros [= -> -> ->]. replace (_ + _) with 0 by ring. apply sqrt_0.
  - rewrite !Rplus_0_l. replace (a1 - c1) with ((a1 - b1) + (b1 - c1)) by ring.
    replace (a2 - c2) with ((a2 - b2) + (b2 - c2)) by ring. replace (a3 - c3) with ((a3 - b3) + (b3 - c3)) by ring.
    apply minkowski3.
Qed.

Lemma r_lengths : lengths Rplus Rleb 0.
Proof. constructor; [constructor|..]; intros; rewrite ?Rleb_le in *; lra. Qed.

(** A* on a network of the plane, with lengths and estimates by the straight distance, returns a shortest path to every
    goal that can be reached. *)
Theorem C87_euclid (at_ : nat -> R * R) (lines : nat -> list (nat * list (R * R))) pick s vs goal :
  let e := fun a b : R * R => euclidean_distance 2 [fst a; snd a] [fst b; snd b] in
  let adj := weighted Rplus 0 e lines in
  (forall u v l, In (v, l) (lines u) -> hd_error l = Some (at_ u) /\ exists r, l = r ++ [at_ v]) ->
  setting Rplus Rleb adj pick s vs -> connected_to Rplus 0 adj s goal ->
  exists l d,
    a_star_shortest_paths Rplus Rleb 0 adj pick (estimate e at_ goal) None goal (S (edge_count adj vs)) (length vs) s = Ok l
    /\ path Rplus 0 adj s l goal d /\ shortest Rplus Rleb 0 adj s goal d.
Proof.
  intros e adj J St Co. apply (C87_plane Rplus Rleb 0 e e at_ lines r_lengths); auto.
  - intros a b c. rewrite Rleb_le. apply (C87_metric 2); try reflexivity. lia.
  - intros a b c. rewrite !Rleb_le. lra.
Qed.

(** Examples: the triangle of sides 3, 4 and 5, and a network of the plane. *)
Example ex_euclid : euclidean_distance 2 [0; 0] [3; 4] = 5.
Proof.
  unfold euclidean_distance, squared. cbn [nth]. replace (_ + _) with (5 * 5) by ring. apply sqrt_square. lra.
Qed.
Definition pl_at (v : nat) : R * R := match v with O => (0, 0) | S O => (3, 4) | _ => (3, 0) end.
Definition pl_lines (v : nat) : list (nat * list (R * R)) :=
  match v with O => [(1%nat, [(0, 0); (3, 4)]); (2%nat, [(0, 0); (3, 0)])] | S O => [(2%nat, [(3, 4); (3, 0)])] | _ => [] end.
Example ex_euclid_setting :
  (forall u v l, In (v, l) (pl_lines u) -> hd_error l = Some (pl_at u) /\ exists r, l = r ++ [pl_at v])
  /\ setting Rplus Rleb (weighted Rplus 0 (fun a b => euclidean_distance 2 [fst a; snd a] [fst b; snd b]) pl_lines)
       (pick_min Rleb) 0 [0; 1; 2]%nat.
Proof.
  split.
  - intros u v l H. destruct u as [|[|u]]; cbn in H; repeat (destruct H as [[= <- <-]|H]; [split; [reflexivity|]|]);
      try destruct H.
    + exists [(0, 0)]. reflexivity.
    + exists [(0, 0)]. reflexivity.
    + exists [(3, 4)]. reflexivity.
  - constructor.
    + apply (le_order _ _ _ r_lengths).
    + intros a b w. rewrite !Rleb_le. lra.
    + apply pick_min_heap. apply (le_order _ _ _ r_lengths).
    + repeat constructor; cbn; intuition lia.
    + cbn; auto.
    + intros u v w H. unfold weighted in H. apply in_map_iff in H. destruct H as ((v' & l) & E & H).
      cbn in E. injection E as -> _. destruct u as [|[|u]]; cbn in H; repeat (destruct H as [[= <- _]|H]; [cbn; tauto|]); destruct H.
Qed.

Print Assumptions C87_metric.
Print Assumptions C87_euclid.
