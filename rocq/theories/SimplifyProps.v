(** C19, C20: line simplification. *)
From Coq Require Import ZArith Sorted.
From Verif Require Import Base ListAux Simplify SimplifyProofs.
Local Open Scope nat_scope.

Section C19.
  Context {P D A : Type}.
  Variable leb : D -> D -> bool.
  Hypothesis leb_total : forall a b, leb a b = true \/ leb b a = true.
  Hypothesis leb_trans : forall a b c, leb a b = true -> leb b c = true -> leb a c = true.
  Variable zero : D.
  Variable dist : P -> P -> P -> D.
  Variable azimuth : P -> P -> option A.
  Variable turns_back : A -> A -> bool.

  (** [out] arises from [line] by removing the points at [idx]: the first and the last point are kept, and every removed
      point is within the tolerance of the segment between the nearest kept points before and after it *)
  Definition simplification (tol : D) (from last : nat) (line : list P) (idx : list nat) (out : list P) : Prop :=
    (forall i, In i idx -> from < i < last)
    /\ out = map snd (filter (fun e => negb (existsb (Nat.eqb (fst e)) idx)) (combine (seq 0 (length line)) line))
    /\ forall i, In i idx -> exists a b, from <= a < i /\ i < b <= last /\ ~ In a idx /\ ~ In b idx
         /\ (forall j, a < j < b -> In j idx)
         /\ exists p pa pb, nth_error line i = Some p /\ nth_error line a = Some pa /\ nth_error line b = Some pb
                            /\ leb (dist p pa pb) tol = true.

  Lemma keep_filter idx line : forall i,
    keep idx i line = map snd (filter (fun e => negb (existsb (Nat.eqb (fst e)) idx)) (combine (seq i (length line)) line)) :> list P.
  Proof.
    induction line as [|p l IH]; intros i; cbn; [reflexivity|]. destruct (existsb (Nat.eqb i) idx); cbn; rewrite IH; reflexivity.
  Qed.
  Lemma removable_simplification tol from last line idx :
    removable leb dist line tol from last idx -> simplification tol from last line idx (keep idx 0 line).
  Proof.
    intros (S1 & R1 & N1). split; [exact R1|]. split; [apply keep_filter|].
    intros i Hi. destruct (N1 i Hi) as (a & b & H1 & H2 & H3 & H4 & H5 & H6 & H7 & H8). exists a, b.
    split; [lia|]. split; [lia|]. split; [exact H5|]. split; [exact H6|]. split; [|exact H8]. intros j [J1 J2]. auto.
  Qed.

  (** **** C19: with a tolerance that is not negative the procedure ends, and its result is a simplification. *)
  Theorem C19_simplify tol line from to : leb zero tol = true -> from < to -> to <= length line ->
    exists idx, simplify_indices leb zero dist (to - from) line from to tol = Ok idx
      /\ simplification tol from (to - 1) line idx (erase_indices line idx)
      /\ simplify leb zero dist (to - from) line from to tol = Ok (erase_indices line idx).
  Proof.
    intros Hz H1 H2. destruct (simplify_indices_spec leb leb_total leb_trans zero dist tol Hz (to - from) line from to) as (idx & E & R); [lia|lia|lia|].
    exists idx. split; [exact E|]. split; [|unfold simplify; rewrite E; reflexivity].
    rewrite erase_keep by (apply R). apply removable_simplification. exact R.
  Qed.
  (** out of range nothing is removed *)
  Theorem C19_out_of_range fuel tol line from to : to <= from \/ length line < to ->
    simplify leb zero dist fuel line from to tol = Ok line.
  Proof.
    intros H. unfold simplify.
    assert (E : simplify_indices leb zero dist fuel line from to tol = Ok []).
    { destruct fuel; cbn [simplify_indices]; destruct H as [H|H];
        destruct (Nat.leb_spec to from), (Nat.ltb_spec (length line) to); try lia; cbn [orb]; rewrite ?orb_true_r; reflexivity. }
    rewrite E. reflexivity.
  Qed.

  (** **** C20: with reversals retained the result is still a simplification of the whole line, and every point at which
      the line turns back (between two segments that have a direction) is kept. *)
  Theorem C20_rich tol line retain : leb zero tol = true ->
    exists idx, simplify_rich_line_indices leb zero dist azimuth turns_back line retain tol = Ok idx
      /\ StronglySorted lt idx
      /\ simplification tol 0 (length line - 1) line idx (erase_indices line idx)
      /\ (retain = true -> forall k p q r a b,
            nth_error line k = Some p -> nth_error line (k + 1) = Some q -> nth_error line (k + 2) = Some r ->
            azimuth p q = Some a -> azimuth q r = Some b -> turns_back a b = true -> ~ In (k + 1) idx).
  Proof.
    intros Hz. destruct (rich_indices_spec leb leb_total leb_trans zero dist azimuth turns_back tol line retain Hz) as (idx & E & R & Rev).
    exists idx. split; [exact E|]. split; [apply R|]. split.
    - rewrite erase_keep by (apply R). apply removable_simplification. exact R.
    - intros Hr k p q r a b N0 N1 N2 Ea Eb T. apply (Rev Hr); [lia|].
      replace (k + 1 - 1) with k by lia. replace (k + 1 + 1) with (k + 2) by lia. rewrite N0, N1, N2. unfold reversal. rewrite Ea, Eb. exact T.
  Qed.

  (** **** C20: the implementation on lists of segments gives the segments of the simplified line. *)
  Theorem C20_segments_agree tol line retain : leb zero tol = true ->
    exists idx, simplify_rich_line_indices leb zero dist azimuth turns_back line retain tol = Ok idx
      /\ simplify_rich_segments leb zero dist azimuth turns_back (length line) (pairs line) retain tol = Ok (pairs (erase_indices line idx)).
  Proof.
    intros Hz. destruct (rich_indices_spec leb leb_total leb_trans zero dist azimuth turns_back tol line retain Hz) as (idx & E & R & Rev).
    exists idx. split; [exact E|]. rewrite erase_keep by (apply R).
    apply (rich_segments_agree leb leb_total leb_trans zero dist azimuth turns_back tol line retain idx Hz E).
  Qed.
End C19.

(** points on a line, distance to a segment, directions *)
Definition dist1 (p a b : Z) : Z := Z.max 0 (Z.max (p - Z.max a b) (Z.min a b - p)).
Definition azimuth1 (p q : Z) : option bool := if Z.eqb p q then None else Some (p <? q)%Z.
Definition tb1 (a b : bool) : bool := xorb a b.
Example C19_order : (forall a b, Z.leb a b = true \/ Z.leb b a = true) /\ (forall a b c, Z.leb a b = true -> Z.leb b c = true -> Z.leb a c = true).
Proof. split; intros *; rewrite ?Z.leb_le; lia. Qed.
(** points (x, y), distance measured vertically: enough to see removals *)
Definition dist2 (p a b : Z * Z) : Z := Z.abs (snd p - (snd a + snd b) / 2).
Example C19_demo :
  simplify Z.leb 0%Z dist2 6 [(0, 0); (1, 1); (2, 9); (3, 5); (4, 1); (5, 0)]%Z 0 6 3%Z = Ok [(0, 0); (2, 9); (5, 0)]%Z.
Proof. vm_compute. reflexivity. Qed.
(** 0, 3, 10, 9, 9, 12: turns at 10 and (over a pause) not at 9 *)
Example C20_demo :
  simplify_rich_line_indices Z.leb 0%Z dist1 azimuth1 tb1 [0; 3; 10; 9; 12; 13]%Z true 5%Z = Ok [1; 4]
  /\ simplify_rich_line_indices Z.leb 0%Z dist1 azimuth1 tb1 [0; 3; 10; 9; 12; 13]%Z false 5%Z = Ok [1; 2; 3; 4].
Proof. vm_compute. auto. Qed.

(** **** What is not true.  With a negative tolerance the recursion need not end: a straight line of three points. *)
Lemma straight_loops fuel : simplify_indices Z.leb 0%Z dist1 fuel [0; 1; 2]%Z 0 3 (-1)%Z = Fuel.
Proof.
  induction fuel as [|fuel IH]; [reflexivity|]. cbn [simplify_indices]. cbn [Nat.leb Nat.ltb Nat.sub length orb nth_error derefO].
  replace (simplify_indices Z.leb 0%Z dist1 fuel [0; 1; 2]%Z 0 (0 + 1) (-1)%Z) with (@Ok (list nat) []) by (destruct fuel; reflexivity).
  cbn -[simplify_indices]. rewrite IH.
  destruct fuel; reflexivity.
Qed.
Theorem C19_negative_tolerance_refuted : exists (line : list Z) tol, forall fuel, simplify_indices Z.leb 0%Z dist1 fuel line 0 (length line) tol = Fuel.
Proof. exists [0; 1; 2]%Z, (-1)%Z. exact straight_loops. Qed.
(** The segment variant reads an iterator that was never set in that case. *)
Theorem C20_negative_tolerance_refuted : exists (line : list Z) tol, simplify_segs Z.leb 0%Z dist1 3 (pairs line) tol = UB.
Proof. exists [0; 1; 2]%Z, (-1)%Z. reflexivity. Qed.
(** A turn over a repeated point is not seen, so that the turning point may be removed although reversals are retained. *)
Theorem C20_pause_refuted : exists line : list Z,
  simplify_rich_line_indices Z.leb 0%Z dist1 azimuth1 tb1 line true 5%Z = Ok [1; 2] /\ line = [0; 10; 10; 7]%Z.
Proof. eexists. split; [|reflexivity]. vm_compute. reflexivity. Qed.

Print Assumptions C19_simplify.
Print Assumptions C19_out_of_range.
Print Assumptions C20_rich.
Print Assumptions C20_segments_agree.
