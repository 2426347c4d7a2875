(** C87: the estimate that guides A* drops along an edge by at most its length, if the lengths of the edges are at least
    the straight distances in the unit of the coordinates; on the plane, not on the sphere. *)
From Coq Require Import ZArith Lia.
From Verif Require Import Base ListAux Search SearchSpec SearchProofs SearchProps Estimate.

(** What is needed of the lengths: exact addition, and an order in accord with it. *)
Record lengths {W} (add : W -> W -> W) (leb : W -> W -> bool) (zero : W) : Prop := {
  le_order : total_order leb;
  le_assoc : forall a b c, add a (add b c) = add (add a b) c;
  le_zero : forall a, add zero a = a;
  le_both : forall a b x y, leb a b = true -> leb x y = true -> leb (add a x) (add b y) = true
}.

(** Consecutive points of a line. *)
Fixpoint next_to {P} (l : list P) (a b : P) : Prop :=
  match l with
  | x :: ((y :: _) as rest) => (a = x /\ b = y) \/ next_to rest a b
  | _ => False
  end.

Section C87.
  Context {P W : Type}.
  Variable add : W -> W -> W.
  Variable leb : W -> W -> bool.
  Variable zero : W.
  Variable metres euclid : P -> P -> W.
  Variable at_ : nat -> P.
  Variable lines : nat -> list (nat * list P).
  Hypothesis L : lengths add leb zero.
  Hypothesis triangle : forall a b c, leb (euclid a c) (add (euclid a b) (euclid b c)) = true.
  (** Every edge leads from the point of its source to the point of its target. *)
  Hypothesis joined : forall u v l, In (v, l) (lines u) -> hd_error l = Some (at_ u) /\ exists r, l = r ++ [at_ v].

  Notation adj := (weighted add zero metres lines).
  Notation h := (estimate euclid at_).

  Lemma along_line l a z c :
    (forall x y, next_to l x y -> leb (euclid x y) (metres x y) = true) ->
    hd_error l = Some a -> (exists r, l = r ++ [z]) ->
    leb (euclid a c) (add (line_sum add zero metres l) (euclid z c)) = true.
  Proof.
    revert a. induction l as [|x l IH]; intros a H E (r & R); [discriminate E|]. injection E as ->.
    destruct l as [|y l].
    - assert (z = a) as ->. { destruct r as [|q [|q' r]]; cbn in R; congruence. }
      cbn. rewrite (le_zero _ _ _ L). apply (to_refl _ (le_order _ _ _ L)).
    - change (line_sum add zero metres (a :: y :: l)) with (add (metres a y) (line_sum add zero metres (y :: l))).
      rewrite <- (le_assoc _ _ _ L).
      apply (to_trans _ (le_order _ _ _ L)) with (add (euclid a y) (euclid y c)); [apply triangle|].
      apply (le_both _ _ _ L).
      + apply H. left. auto.
      + apply IH; [intros p q N; apply H; right; exact N | reflexivity |].
        destruct r as [|q r]; cbn in R; [discriminate R|]. injection R as -> R. exists r. exact R.
  Qed.

  (** Where the lengths are at least the straight distances of the coordinates, the estimate is consistent, so A* finds a
      shortest path to every goal it can reach. *)
  Theorem C87_consistent goal :
    (forall u v l a b, In (v, l) (lines u) -> next_to l a b -> leb (euclid a b) (metres a b) = true) ->
    consistent add leb adj (h goal).
  Proof.
    intros H d u v w I. unfold weighted in I. apply in_map_iff in I. destruct I as ((v' & l) & E & I).
    cbn in E. injection E as -> <-. destruct (joined u v l I) as [J1 J2].
    rewrite <- (le_assoc _ _ _ L). apply (le_both _ _ _ L); [apply (to_refl _ (le_order _ _ _ L))|].
    unfold estimate. apply along_line; auto. intros x y N. apply (H u v l); auto.
  Qed.

  Theorem C87_a_star pick s vs goal : setting add leb adj pick s vs -> cancels add leb ->
    (forall u v l a b, In (v, l) (lines u) -> next_to l a b -> leb (euclid a b) (metres a b) = true) ->
    connected_to add zero adj s goal ->
    exists l d, a_star_shortest_paths add leb zero adj pick (h goal) None goal (S (edge_count adj vs)) (length vs) s = Ok l
      /\ path add zero adj s l goal d /\ shortest add leb zero adj s goal d.
  Proof.
    intros St Ca H Co. apply (C10_a_star_exact add leb zero adj pick s vs goal (h goal) St Ca); [|exact Co].
    apply C87_consistent. exact H.
  Qed.

  (** On the plane the two distances are the same. *)
  Corollary C87_plane pick s vs goal : setting add leb adj pick s vs -> cancels add leb ->
    (forall a b, metres a b = euclid a b) -> connected_to add zero adj s goal ->
    exists l d, a_star_shortest_paths add leb zero adj pick (h goal) None goal (S (edge_count adj vs)) (length vs) s = Ok l
      /\ path add zero adj s l goal d /\ shortest add leb zero adj s goal d.
  Proof.
    intros St Ca E Co. apply C87_a_star; auto. intros u v l a b _ _. rewrite E. apply (to_refl _ (le_order _ _ _ L)).
  Qed.
End C87.

(** *** The sphere.  Points on the equator by their longitude in hundred thousandths of a degree; a degree is 111195
    metres, and all numbers are multiplied by a hundred thousand, so one step of longitude is 111195 long and 1 wide. *)
Definition eq_metres (a b : Z) : Z := (111195 * Z.min (Z.abs (a - b)) (36000000 - Z.abs (a - b)))%Z.
Definition eq_euclid (a b : Z) : Z := Z.abs (a - b).
Lemma z_lengths : lengths Z.add Z.leb 0%Z.
Proof. constructor; [constructor|..]; intros; rewrite ?Z.leb_le in *; lia. Qed.

(** Two ways from 179.9999 to 179.99985 degrees east: across the date line to 179.9999 degrees west and back, 45 steps
    or fifty metres, and a detour of 195 steps on this side. *)
Definition dl_at (v : nat) : Z :=
  match v with 0 => 17999990%Z | 1 => (-17999990)%Z | _ => 17999985%Z end.
Definition dl_lines (v : nat) : list (nat * list Z) :=
  match v with
  | 0 => [(1, [17999990; -17999990]%Z); (2, [17999990; 17999890; 17999985]%Z)]
  | 1 => [(2, [-17999990; 17999985]%Z)]
  | _ => []
  end.

(** The estimate at the far side of the date line is almost 360, more than the way back is long: A* takes the detour. *)
Theorem C87_date_line_refuted : exists at_ lines p d,
  (forall u v l, In (v, l) (lines u) -> hd_error l = Some (at_ u) /\ exists r, l = r ++ [at_ v])
  /\ (forall a b c, (eq_euclid a c <=? eq_euclid a b + eq_euclid b c = true)%Z)
  /\ a_star_shortest_paths Z.add Z.leb 0%Z (weighted Z.add 0%Z eq_metres lines) (pick_min Z.leb)
       (estimate eq_euclid at_ 2) None 2 10 10 0 = Ok p
  /\ path Z.add 0%Z (weighted Z.add 0%Z eq_metres lines) 0 p 2 d
  /\ (forall d', path Z.add 0%Z (weighted Z.add 0%Z eq_metres lines) 0 p 2 d' -> d' = d)
  /\ exists q e, path Z.add 0%Z (weighted Z.add 0%Z eq_metres lines) 0 q 2 e /\ (4 * e < d)%Z.
Proof.
  exists dl_at, dl_lines, [0; 2], (195 * 111195)%Z.
  split; [|split; [|split; [vm_compute; reflexivity|split; [|split]]]].
  - intros u v l H. destruct u as [|[|u]]; cbn in H; repeat (destruct H as [[= <- <-]|H]; [split; [reflexivity|]|]);
      try destruct H.
    + exists [17999990%Z]. reflexivity.
    + exists [17999990; 17999890]%Z. reflexivity.
    + exists [(-17999990)%Z]. reflexivity.
  - intros a b c. unfold eq_euclid. rewrite Z.leb_le. lia.
  - change [0; 2] with ([0] ++ [2]). change (195 * 111195)%Z with (0 + 21683025)%Z.
    eapply path_edge; [apply path_start|]. right. left. reflexivity.
  - intros d' H. inversion H as [E | l u d v w H1 H2 E1 E2 E3].
    assert (l = [0]) as ->. { destruct l as [|x [|y l]]; cbn in E1; try congruence. destruct l; discriminate E1. }
    inversion H1 as [E4 E5 | l' u' d'' v' w' K1 K2 K3 K4 K5].
    + subst u d v. cbn in H2. destruct H2 as [H2|[H2|[]]]; [discriminate H2|]. injection H2 as <-. reflexivity.
    + destruct l' as [|x [|y l']]; cbn in K3; try discriminate K3. inversion K1. destruct l; discriminate.
  - exists [0; 1; 2], (0 + 20 * 111195 + 25 * 111195)%Z. split; [|reflexivity].
    change [0; 1; 2] with (([0] ++ [1]) ++ [2]).
    eapply path_edge; [eapply path_edge; [apply path_start|]|]; left; reflexivity.
Qed.

(** Instance: points on an axis, measured in the unit of the coordinates. *)
Definition ax_at (v : nat) : Z := match v with 0 => 0%Z | 1 => 4%Z | _ => 9%Z end.
Definition ax_lines (v : nat) : list (nat * list Z) :=
  match v with
  | 0 => [(1, [0; 6; 4]%Z); (2, [0; 30; 9]%Z)]
  | 1 => [(2, [4; 9]%Z)]
  | _ => []
  end.
Example ex_estimate_joined :
  (forall u v l, In (v, l) (ax_lines u) -> hd_error l = Some (ax_at u) /\ exists r, l = r ++ [ax_at v])
  /\ (forall a b c, (eq_euclid a c <=? eq_euclid a b + eq_euclid b c = true)%Z)
  /\ cancels Z.add Z.leb
  /\ setting Z.add Z.leb (weighted Z.add 0%Z eq_euclid ax_lines) (pick_min Z.leb) 0 [0; 1; 2].
Proof.
  split; [|split; [|split]].
  - intros u v l H. destruct u as [|[|u]]; cbn in H; repeat (destruct H as [[= <- <-]|H]; [split; [reflexivity|]|]);
      try destruct H.
    + exists [0; 6]%Z. reflexivity.
    + exists [0; 30]%Z. reflexivity.
    + exists [4%Z]. reflexivity.
  - intros a b c. unfold eq_euclid. rewrite Z.leb_le. lia.
  - intros a b c. rewrite !Z.leb_le. lia.
  - constructor.
    + apply (le_order _ _ _ z_lengths).
    + intros a b w. rewrite !Z.leb_le. lia.
    + apply pick_min_heap. apply (le_order _ _ _ z_lengths).
    + repeat constructor; cbn; intuition lia.
    + cbn; auto.
    + intros [|[|u]] v w H; cbn in H; repeat (destruct H as [[= <- <-]|H]; [cbn; tauto|]); destruct H.
Qed.
Example ex_estimate_found :
  a_star_shortest_paths Z.add Z.leb 0%Z (weighted Z.add 0%Z eq_euclid ax_lines) (pick_min Z.leb)
    (estimate eq_euclid ax_at 2) None 2 10 10 0 = Ok [0; 1; 2].
Proof. vm_compute. reflexivity. Qed.

Print Assumptions C87_consistent.
Print Assumptions C87_a_star.
Print Assumptions C87_plane.
Print Assumptions C87_date_line_refuted.
