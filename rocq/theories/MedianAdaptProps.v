(** C104: the tolerance of the merge follows the distance to the road network. *)
From Coq Require Import ZArith QArith Qabs Lqa.
From Verif Require Import Base ListAux Median MedianProps MedianAdapt Buffer BufferProps.
Local Open Scope nat_scope.

Lemma qpositive_spec t : qpositive t = true <-> (0 < t)%Q.
Proof.
  unfold qpositive. rewrite negb_true_iff. split.
  - intros H. apply Qnot_le_lt. intros L. apply Qle_bool_iff in L. congruence.
  - intros H. destruct (Qle_bool t 0) eqn:E; [|reflexivity]. apply Qle_bool_iff in E. lra.
Qed.

Section C104.
  Context {C E : Type}.
  Variable cleb : C -> C -> bool.
  Variable nth_el : nat -> list C -> list C.
  Variable mean : C -> C -> C.
  Hypothesis cleb_total : forall a b, cleb a b = true \/ cleb b a = true.
  Hypothesis cleb_trans : forall a b c, cleb a b = true -> cleb b c = true -> cleb a c = true.
  Hypothesis nth_ok : nth_contract cleb nth_el.
  Variable dist : C * C -> C * C -> Q.
  Variable in_box : C * C -> Q -> C * C -> bool.
  (** the box of a positive radius contains everything within it; a point is at no distance from itself *)
  Hypothesis box_ok : forall p t q, (0 < t)%Q -> (dist p q <= t)%Q -> in_box p t q = true.
  Hypothesis dist_self : forall p, (dist p p == 0)%Q.

  (** the nearest edge of [p] is at distance [d] *)
  Definition road_at (net : option (network C E)) (p : C * C) (d : Q) : Prop :=
    exists n e r, net = Some n /\ nearest n p = e :: r /\ line_distance n p e = d.
  (** the tolerance looks at the network at [p] *)
  Definition adapts (adaptive : bool) (net : option (network C E)) (p : C * C) : Prop := adaptive = true /\ exists d, road_at net p d.

  (** **** C104: the tolerance is the given one where the network does not count, and else the least one that is neither
      below the given one nor below half the distance to the nearest road *)
  Theorem C104_tolerance adaptive (net : option (network C E)) t p :
    (~ adapts adaptive net p -> adaptive_tolerance adaptive net t p = t)
    /\ (forall d, adaptive = true -> road_at net p d ->
          (t <= adaptive_tolerance adaptive net t p)%Q /\ (d <= 2 * adaptive_tolerance adaptive net t p)%Q
          /\ (forall u, (t <= u)%Q -> (d <= 2 * u)%Q -> (adaptive_tolerance adaptive net t p <= u)%Q)).
  Proof.
    split.
    - intros H. unfold adaptive_tolerance. destruct adaptive; [|reflexivity]. destruct net as [n|]; [|reflexivity].
      destruct (nearest n p) as [|e r] eqn:En; [reflexivity|]. exfalso. apply H. split; [reflexivity|].
      exists (line_distance n p e), n, e, r. auto.
    - intros d -> (n & e & r & -> & En & Ed). unfold adaptive_tolerance. rewrite En, Ed. unfold std_max.
      destruct (Qle_bool (d * (1 # 2)) t) eqn:L.
      + apply Qle_bool_iff in L. split; [lra|]. split; [lra|]. intros; lra.
      + assert (L' : (t < d * (1 # 2))%Q) by (apply Qnot_le_lt; intros K; apply Qle_bool_iff in K; congruence).
        split; [lra|]. split; [lra|]. intros; lra.
  Qed.

  Lemma tolerance_above adaptive (net : option (network C E)) t p : (t <= adaptive_tolerance adaptive net t p)%Q.
  Proof.
    unfold adaptive_tolerance. destruct adaptive; [|lra]. destruct net as [n|]; [|lra]. destruct (nearest n p) as [|e r]; [lra|].
    unfold std_max. destruct (Qle_bool (line_distance n p e * (1 # 2)) t) eqn:L; [lra|].
    apply Qlt_le_weak, Qnot_le_lt. intros K. apply Qle_bool_iff in K. congruence.
  Qed.

  (** the runs of C38, for the tolerance of each point *)
  Definition grouped (adjust : C * C -> Q) := merged nth_el mean dist Qle_bool adjust qpositive.

  Lemma merge_cases fuel t adaptive (net : option (network C E)) line : length line < fuel ->
    exists out, (median_merge_adaptive nth_el mean dist in_box fuel t adaptive net line = Ok out
                 /\ grouped (adaptive_tolerance adaptive net t) [] line out)
      \/ (exists p stop, median_merge_adaptive nth_el mean dist in_box fuel t adaptive net line = Throw out
            /\ grouped (adaptive_tolerance adaptive net t) (p :: stop) line out
            /\ qpositive (adaptive_tolerance adaptive net t p) = false).
  Proof.
    intros H. unfold median_merge_adaptive, grouped.
    apply (C38_merge_or_throw cleb nth_el mean cleb_total cleb_trans nth_ok); [| |exact H].
    - intros p q Hp Hd. apply qpositive_spec in Hp. apply Qle_bool_iff in Hd. apply box_ok; assumption.
    - intros p Hp. apply qpositive_spec in Hp. apply Qle_bool_iff. rewrite dist_self. lra.
  Qed.

  (** **** C104: with a positive tolerance every track is merged, whatever the network *)
  Theorem C104_positive fuel t adaptive (net : option (network C E)) line : length line < fuel -> (0 < t)%Q ->
    exists out, median_merge_adaptive nth_el mean dist in_box fuel t adaptive net line = Ok out
      /\ grouped (adaptive_tolerance adaptive net t) [] line out.
  Proof.
    intros H Ht. destruct (merge_cases fuel t adaptive net line H) as (out & [K|(p & stop & _ & _ & N)]); [eauto|].
    assert (P : qpositive (adaptive_tolerance adaptive net t p) = true); [|congruence].
    apply qpositive_spec. pose proof (tolerance_above adaptive net t p). lra.
  Qed.

  (** **** C104: without a positive tolerance the merge throws only at a measurement that lies on its nearest road or
      where the network does not count, so a track beside the roads is merged *)
  Theorem C104_zero fuel t adaptive (net : option (network C E)) line : length line < fuel -> (t <= 0)%Q ->
    (exists out, median_merge_adaptive nth_el mean dist in_box fuel t adaptive net line = Ok out
       /\ grouped (adaptive_tolerance adaptive net t) [] line out)
    \/ (exists out p, median_merge_adaptive nth_el mean dist in_box fuel t adaptive net line = Throw out
       /\ In p line /\ (adapts adaptive net p -> exists d, road_at net p d /\ (d <= 0)%Q)).
  Proof.
    intros H Ht. destruct (merge_cases fuel t adaptive net line H) as (out & [K|(p & stop & K & M & N)]); [eauto|].
    right. exists out, p. split; [exact K|]. split.
    - destruct (merged_stop_in _ _ _ _ _ _ _ _ _ M) as (l & ->). apply in_or_app. right. left. reflexivity.
    - intros (Ha & d & Hd). exists d. split; [exact Hd|]. destruct (Qlt_le_dec 0 d) as [L|L]; [|exact L]. exfalso.
      destruct (C104_tolerance adaptive net t p) as [_ T]. destruct (T d Ha Hd) as (_ & T2 & _).
      assert (P : qpositive (adaptive_tolerance adaptive net t p) = true); [|congruence]. apply qpositive_spec. lra.
  Qed.
  Corollary C104_beside fuel t adaptive (net : option (network C E)) line : length line < fuel ->
    (forall p, In p line -> adaptive = true /\ exists d, road_at net p d /\ (0 < d)%Q) ->
    exists out, median_merge_adaptive nth_el mean dist in_box fuel t adaptive net line = Ok out
      /\ grouped (adaptive_tolerance adaptive net t) [] line out.
  Proof.
    intros H Hp. destruct (Qlt_le_dec 0 t) as [L|L]; [apply C104_positive; assumption|].
    destruct (C104_zero fuel t adaptive net line H L) as [K|(out & p & _ & I & R)]; [exact K|]. exfalso.
    destruct (Hp p I) as (Ha & d & Hd & Pd). destruct R as (d' & Hd' & Nd); [split; eauto|].
    destruct Hd as (n & e & r & E1 & E2 & E3), Hd' as (n' & e' & r' & F1 & F2 & F3). subst net. injection F1 as <-.
    rewrite E2 in F2. injection F2 as <- _. subst d d'. lra.
  Qed.

  Lemma merge_loop_ext (f g : C * C -> Q) : (forall p, f p = g p) -> forall fuel index todo out,
    merge_loop nth_el mean dist Qle_bool f in_box qpositive fuel index todo out
    = merge_loop nth_el mean dist Qle_bool g in_box qpositive fuel index todo out.
  Proof.
    intros Eq. induction fuel as [|fuel IH]; intros index todo out; [reflexivity|]. destruct todo as [|e r]; [reflexivity|].
    assert (Q : query dist Qle_bool f in_box index (snd e) = query dist Qle_bool g in_box index (snd e)) by (unfold query; rewrite Eq; reflexivity).
    cbn [merge_loop]. rewrite Q, Eq. destruct (negb (qpositive (g (snd e)))); [reflexivity|]. cbv zeta.
    destruct (query dist Qle_bool g in_box index (snd e)) as [|x l]; [apply IH|]. destruct (connected (x :: l) (e :: r)) as [conn rest].
    destruct conn as [|y c]; [apply IH|]. destruct (median_point nth_el mean (map snd (y :: c))) as [m| | |]; cbn [bindO]; [apply IH|reflexivity..].
  Qed.
  (** **** C104: without adaptivity, without a network and in a network without edges the merge is the one with the fixed
      tolerance, exceptions included *)
  Theorem C104_plain fuel t adaptive (net : option (network C E)) line : adaptive = false \/ net = None \/ (exists n, net = Some n /\ forall p, nearest n p = []) ->
    median_merge_adaptive nth_el mean dist in_box fuel t adaptive net line
    = median_merge nth_el mean dist Qle_bool (fun _ => t) in_box (fun r => negb (Qle_bool r 0)) fuel line.
  Proof.
    intros Off. unfold median_merge_adaptive, median_merge. apply merge_loop_ext. intros p. apply C104_tolerance.
    intros (Ha & d & n & e & r & En & Ee & _).
    destruct Off as [Off|[Off|(n' & Off & Em)]]; [congruence|congruence|]. rewrite En in Off. injection Off as <-. rewrite Em in Ee. discriminate.
  Qed.

  (** **** C104: where the network does not count at any measurement, the merge is the one with the fixed tolerance *)
  Theorem C104_off fuel t adaptive (net : option (network C E)) line : length line < fuel -> (0 < t)%Q -> adaptive = false \/ net = None \/ (exists n, net = Some n /\ forall p, nearest n p = []) ->
    exists out, median_merge_adaptive nth_el mean dist in_box fuel t adaptive net line = Ok out /\ grouped (fun _ => t) [] line out.
  Proof.
    intros H Ht Off. destruct (C104_positive fuel t adaptive net line H Ht) as (out & K & M). exists out. split; [exact K|].
    assert (Eq : forall p, adaptive_tolerance adaptive net t p = t).
    { intros p. apply C104_tolerance. intros (Ha & d & n & e & r & En & Ee & _).
      destruct Off as [Off|[Off|(n' & Off & Em)]]; [congruence|congruence|]. rewrite En in Off. injection Off as <-. rewrite Em in Ee. discriminate. }
    clear K H. unfold grouped in *. induction M as [|p run rest m o P1 P2 P3 P4 P5 M IH]; [constructor|].
    rewrite Eq in P1, P3. constructor; [exact P1| |exact P3|exact P4|exact P5|exact IH].
    intros q Hq. specialize (P2 q Hq). rewrite Eq in P2. exact P2.
  Qed.
End C104.

(** an instance: integer coordinates, the larger difference as distance, one road along the first axis *)
Definition qdist (p q : Z * Z) : Q := inject_Z (zdist p q).
Definition qbox (p : Z * Z) (t : Q) (q : Z * Z) : bool := Qle_bool (inject_Z (Z.abs (fst p - fst q))) t && Qle_bool (inject_Z (Z.abs (snd p - snd q))) t.
Definition axis : network Z unit := {| nearest := fun _ => [tt]; line_distance := fun p _ => inject_Z (Z.abs (snd p)) |}.
Example C104_instance : (forall p t q, (0 < t)%Q -> (qdist p q <= t)%Q -> qbox p t q = true) /\ (forall p, (qdist p p == 0)%Q).
Proof.
  split.
  - intros p t q _ H. unfold qdist, zdist, qbox in *. apply andb_true_iff.
    split; apply Qle_bool_iff; (eapply Qle_trans; [|exact H]); rewrite <- Zle_Qle; lia.
  - intros p. unfold qdist, zdist. rewrite !Z.sub_diag. reflexivity.
Qed.
(** four measurements near the road, and the same four beside it *)
Example C104_demo :
  median_merge_adaptive znth zmean qdist qbox 9 1 true (Some axis) [(0, 1); (3, 1); (6, 1)]%Z = Ok [(0, 1); (3, 1); (6, 1)]%Z
  /\ median_merge_adaptive znth zmean qdist qbox 9 1 true (Some axis) [(0, 12); (3, 12); (6, 12)]%Z = Ok [(3, 12)]%Z
  /\ median_merge_adaptive znth zmean qdist qbox 9 1 false (Some axis) [(0, 12); (3, 12); (6, 12)]%Z = Ok [(0, 12); (3, 12); (6, 12)]%Z
  /\ median_merge_adaptive znth zmean qdist qbox 9 0 true (Some axis) [(0, 12); (3, 12); (6, 12)]%Z = Ok [(3, 12)]%Z
  /\ median_merge_adaptive znth zmean qdist qbox 9 0 true (Some axis) [(0, 12); (9, 0); (6, 12)]%Z = Throw [(0, 12)]%Z.
Proof. repeat split; reflexivity. Qed.

(** **** C104: with the boxes of C84 in place of the contract, in the plane and for any distance that is not below the
    straight one *)
Theorem C104_boxed {E} cosine sine (nth_el : nat -> list Q -> list Q) (mean : Q -> Q -> Q) (dist : pt -> pt -> Q) fuel t adaptive (net : option (network Q E)) line :
  quarters cosine sine -> nth_contract Qle_bool nth_el ->
  (forall p q r, (0 < r)%Q -> (dist p q <= r)%Q -> (sqd p q <= r * r)%Q) -> (forall p, (dist p p == 0)%Q) ->
  length line < fuel -> (0 < t)%Q \/ (forall p, In p line -> adaptive = true /\ exists d, road_at net p d /\ (0 < d)%Q) ->
  exists out, median_merge_adaptive nth_el mean dist (in_buffer cosine sine) fuel t adaptive net line = Ok out
    /\ grouped nth_el mean dist (adaptive_tolerance adaptive net t) [] line out.
Proof.
  intros Qs N D S L P.
  assert (T1 : forall a b, Qle_bool a b = true \/ Qle_bool b a = true) by (intros a b; rewrite !Qle_bool_iff; destruct (Qlt_le_dec a b); [left|right]; lra).
  assert (T2 : forall a b c, Qle_bool a b = true -> Qle_bool b c = true -> Qle_bool a c = true) by (intros a b c; rewrite !Qle_bool_iff; lra).
  assert (B : forall p r q, (0 < r)%Q -> (dist p q <= r)%Q -> in_buffer cosine sine p r q = true).
  { intros p r q Hr Hd. apply in_buffer_spec. destruct (C84_box cosine sine Qs p r Hr) as (b & Eb & _). exists b. split; [exact Eb|].
    eapply C84_contains; eauto. }
  destruct P as [P|P]; [apply (C104_positive Qle_bool); assumption|apply (C104_beside Qle_bool); assumption].
Qed.
(** an instance: the distance along the axes *)
Definition city (p q : pt) : Q := (Qabs.Qabs (fst p - fst q) + Qabs.Qabs (snd p - snd q))%Q.
Example C104_city : (forall p q r, (0 < r)%Q -> (city p q <= r)%Q -> (sqd p q <= r * r)%Q) /\ (forall p, (city p p == 0)%Q).
Proof.
  split.
  - intros p q r Hr H. unfold city, sqd in *. revert H. generalize (fst p - fst q)%Q (snd p - snd q)%Q. intros x y.
    apply (Qabs.Qabs_case x); intros Hx; apply (Qabs.Qabs_case y); intros Hy H; nra.
  - intros p. unfold city. assert (Z1 : (fst p - fst p == 0)%Q) by ring. assert (Z2 : (snd p - snd p == 0)%Q) by ring. rewrite Z1, Z2. reflexivity.
Qed.

(** What is not true: a larger tolerance need not leave fewer measurements, because the runs then begin elsewhere. *)
Theorem C104_fewer_refuted : exists line t u out out', (0 < t)%Q /\ (t < u)%Q
  /\ median_merge_adaptive znth zmean qdist qbox (E := unit) 9 t false None line = Ok out
  /\ median_merge_adaptive znth zmean qdist qbox (E := unit) 9 u false None line = Ok out'
  /\ length out < length out'.
Proof.
  exists [(0, 0); (5, 0); (9, 0); (1, 0)]%Z, 4%Q, 5%Q. eexists _, _. split; [reflexivity|]. split; [reflexivity|].
  split; [reflexivity|]. split; [reflexivity|]. cbn. lia.
Qed.

Print Assumptions C104_tolerance.
Print Assumptions C104_positive.
Print Assumptions C104_zero.
Print Assumptions C104_beside.
Print Assumptions C104_plain.
Print Assumptions C104_off.
Print Assumptions C104_boxed.
Print Assumptions C104_fewer_refuted.
