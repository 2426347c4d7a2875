(** Buffers around points and segments (C84), and what they mean for the searches that use them (C38, C45, C58). *)
From Coq Require Import QArith Qround Lqa Lia.
From Verif Require Import Base Utils UtilsProps Buffer Median MedianProps Radius RadiusProps CandCreate CandAdopt CandAdoptProps.
Local Open Scope Q_scope.

Definition inside (b : rect) (q : pt) : Prop := fst (fst b) <= fst q <= fst (snd b) /\ snd (fst b) <= snd q <= snd (snd b).
(** the square of the distance *)
Definition sqd (p q : pt) : Q := (fst p - fst q) * (fst p - fst q) + (snd p - snd q) * (snd p - snd q).
(** the point of a segment at a share of its length *)
Definition along (s : pt * pt) (t : Q) : pt :=
  (fst (fst s) + t * (fst (snd s) - fst (fst s)), snd (fst s) + t * (snd (snd s) - snd (fst s))).
Definition on (s : pt * pt) (q : pt) : Prop := exists t, 0 <= t <= 1 /\ fst q == fst (along s t) /\ snd q == snd (along s t).

(** the four angles have the values they should have *)
Definition quarters (cosine sine : nat -> nat -> Q) : Prop :=
  (cosine 4%nat 0%nat == 1 /\ sine 4%nat 0%nat == 0) /\ (cosine 4%nat 1%nat == 0 /\ sine 4%nat 1%nat == -1)
  /\ (cosine 4%nat 2%nat == -1 /\ sine 4%nat 2%nat == 0) /\ (cosine 4%nat 3%nat == 0 /\ sine 4%nat 3%nat == 1).

Lemma smaller_spec a b : (smaller a b == a \/ smaller a b == b) /\ smaller a b <= a /\ smaller a b <= b.
Proof.
  unfold smaller. destruct (Qle_bool a b) eqn:E; cbn [negb].
  - apply Qle_bool_iff in E. repeat split; [left; reflexivity|lra|exact E].
  - assert (~ a <= b) by (intros H; apply Qle_bool_iff in H; congruence). repeat split; [right; reflexivity|lra|lra].
Qed.
Lemma larger_spec a b : (larger a b == a \/ larger a b == b) /\ a <= larger a b /\ b <= larger a b.
Proof.
  unfold larger. destruct (Qle_bool b a) eqn:E; cbn [negb].
  - apply Qle_bool_iff in E. repeat split; [left; reflexivity|lra|exact E].
  - assert (~ b <= a) by (intros H; apply Qle_bool_iff in H; congruence). repeat split; [right; reflexivity|lra|lra].
Qed.
Lemma chain_smaller a b c d : let m := smaller (smaller (smaller (smaller a b) c) d) a in
  (m == a \/ m == b \/ m == c \/ m == d) /\ m <= a /\ m <= b /\ m <= c /\ m <= d.
Proof.
  cbv zeta. destruct (smaller_spec a b) as (E1 & F1 & G1). set (m1 := smaller a b) in *. clearbody m1.
  destruct (smaller_spec m1 c) as (E2 & F2 & G2). set (m2 := smaller m1 c) in *. clearbody m2.
  destruct (smaller_spec m2 d) as (E3 & F3 & G3). set (m3 := smaller m2 d) in *. clearbody m3.
  destruct (smaller_spec m3 a) as (E4 & F4 & G4). set (m4 := smaller m3 a) in *. clearbody m4.
  split; [|repeat split; lra]. destruct E4 as [E4|E4]; [|left; exact E4]. rewrite E4.
  destruct E3 as [E3|E3]; [|right; right; right; exact E3]. rewrite E3. destruct E2 as [E2|E2]; [|right; right; left; exact E2]. rewrite E2.
  destruct E1 as [E1|E1]; [left; exact E1|right; left; exact E1].
Qed.
Lemma chain_larger a b c d : let m := larger (larger (larger (larger a b) c) d) a in
  (m == a \/ m == b \/ m == c \/ m == d) /\ a <= m /\ b <= m /\ c <= m /\ d <= m.
Proof.
  cbv zeta. destruct (larger_spec a b) as (E1 & F1 & G1). set (m1 := larger a b) in *. clearbody m1.
  destruct (larger_spec m1 c) as (E2 & F2 & G2). set (m2 := larger m1 c) in *. clearbody m2.
  destruct (larger_spec m2 d) as (E3 & F3 & G3). set (m3 := larger m2 d) in *. clearbody m3.
  destruct (larger_spec m3 a) as (E4 & F4 & G4). set (m4 := larger m3 a) in *. clearbody m4.
  split; [|repeat split; lra]. destruct E4 as [E4|E4]; [|left; exact E4]. rewrite E4.
  destruct E3 as [E3|E3]; [|right; right; right; exact E3]. rewrite E3. destruct E2 as [E2|E2]; [|right; right; left; exact E2]. rewrite E2.
  destruct E1 as [E1|E1]; [left; exact E1|right; left; exact E1].
Qed.
Lemma Qle_bool_false a b : b < a -> Qle_bool a b = false.
Proof. intros H. destruct (Qle_bool a b) eqn:E; [|reflexivity]. apply Qle_bool_iff in E. lra. Qed.
Lemma square_pos a : 0 <= a * a.
Proof. destruct (Qlt_le_dec a 0); nra. Qed.
Lemma square_le a r : 0 < r -> a * a <= r * r -> - r <= a <= r.
Proof. intros Hr H. split; nra. Qed.

Section Box.
  Variable cosine sine : nat -> nat -> Q.
  Hypothesis angles : quarters cosine sine.
  Notation buffer_box := (buffer_box cosine sine).
  Notation segment_buffer_box := (segment_buffer_box cosine sine).

  (** **** C84: a box has the width and the height of the circle, and there is none around a radius that is not positive *)
  Theorem C84_box p r : 0 < r -> exists b, buffer_box p r = Ok (Some b)
    /\ fst (fst b) == fst p - r /\ snd (fst b) == snd p - r /\ fst (snd b) == fst p + r /\ snd (snd b) == snd p + r.
  Proof.
    intros Hr. unfold Buffer.buffer_box, buffer. rewrite (Qle_bool_false _ _ Hr). cbn [bindO]. eexists. split; [reflexivity|].
    cbn [seq app map fold_left ring grow fst snd]. unfold circle_point. cbn [fst snd].
    destruct angles as ((A1 & A2) & (B1 & B2) & (C1 & C2) & (D1 & D2)).
    assert (r * cosine 4%nat 0%nat == r) by (rewrite A1; ring). assert (r * sine 4%nat 0%nat == 0) by (rewrite A2; ring).
    assert (r * cosine 4%nat 1%nat == 0) by (rewrite B1; ring). assert (r * sine 4%nat 1%nat == - r) by (rewrite B2; ring).
    assert (r * cosine 4%nat 2%nat == - r) by (rewrite C1; ring). assert (r * sine 4%nat 2%nat == 0) by (rewrite C2; ring).
    assert (r * cosine 4%nat 3%nat == 0) by (rewrite D1; ring). assert (r * sine 4%nat 3%nat == r) by (rewrite D2; ring).
    clear A1 A2 B1 B2 C1 C2 D1 D2. split; [|split; [|split]].
    1, 2: match goal with |- smaller (smaller (smaller (smaller ?a ?b) ?c) ?d) _ == _ => destruct (chain_smaller a b c d) as ([H'|[H'|[H'|H']]] & L1 & L2 & L3 & L4) end; lra.
    1, 2: match goal with |- larger (larger (larger (larger ?a ?b) ?c) ?d) _ == _ => destruct (chain_larger a b c d) as ([H'|[H'|[H'|H']]] & L1 & L2 & L3 & L4) end; lra.
  Qed.
  Theorem C84_box_throws p r : r <= 0 -> buffer_box p r = Throw None.
  Proof. intros H. apply Qle_bool_iff in H. unfold Buffer.buffer_box, buffer. rewrite H. reflexivity. Qed.
  (** there is no other outcome *)
  Corollary C84_box_iff p r : (exists b, buffer_box p r = Ok b) <-> 0 < r.
  Proof.
    split; intros H; [|destruct (C84_box p r H) as (b & E & _); eauto].
    destruct (Qlt_le_dec 0 r) as [L|L]; [exact L|]. rewrite (C84_box_throws p r L) in H. destruct H. discriminate.
  Qed.

  Lemma box_ok p r b : buffer_box p r = Ok (Some b) -> 0 < r /\ fst (fst b) == fst p - r /\ snd (fst b) == snd p - r /\ fst (snd b) == fst p + r /\ snd (snd b) == snd p + r.
  Proof.
    intros H. assert (Hr : 0 < r) by (apply (C84_box_iff p r); eauto). split; [exact Hr|].
    destruct (C84_box p r Hr) as (b' & E & F). rewrite H in E. injection E as <-. exact F.
  Qed.

  (** the box contains everything within the radius, *)
  Theorem C84_contains p r b q : buffer_box p r = Ok (Some b) -> sqd p q <= r * r -> inside b q.
  Proof.
    intros H D. destruct (box_ok _ _ _ H) as (Hr & B1 & B2 & B3 & B4). unfold inside. rewrite B1, B2, B3, B4. unfold sqd in D.
    pose proof (square_le (fst p - fst q) r Hr) as X. pose proof (square_le (snd p - snd q) r Hr) as Y.
    assert (0 <= (fst p - fst q) * (fst p - fst q)) by apply square_pos. assert (0 <= (snd p - snd q) * (snd p - snd q)) by apply square_pos.
    destruct X; [lra|]. destruct Y; [lra|]. repeat split; lra.
  Qed.
  (** it is the smallest such box, *)
  Theorem C84_smallest p r b b' : buffer_box p r = Ok (Some b) -> (forall q, sqd p q <= r * r -> inside b' q) -> forall q, inside b q -> inside b' q.
  Proof.
    intros H C q I. destruct (box_ok _ _ _ H) as (Hr & B1 & B2 & B3 & B4). unfold inside in *. rewrite B1, B2, B3, B4 in I.
    assert (C1 := C (fst p - r, snd p)). assert (C2 := C (fst p + r, snd p)). assert (C3 := C (fst p, snd p - r)). assert (C4 := C (fst p, snd p + r)).
    unfold sqd in *. cbn [fst snd] in *. destruct C1; [nra|]. destruct C2; [nra|]. destruct C3; [nra|]. destruct C4; [nra|]. repeat split; lra.
  Qed.
  (** and nothing in it is farther away than the diagonal of the square over the radius: the distance must be asked again *)
  Theorem C84_corner p r b q : buffer_box p r = Ok (Some b) -> inside b q -> sqd p q <= 2 * (r * r).
  Proof.
    intros H I. destruct (box_ok _ _ _ H) as (Hr & B1 & B2 & B3 & B4). unfold inside in I. rewrite B1, B2, B3, B4 in I. unfold sqd. destruct I as [[I1 I2] [I3 I4]].
    assert ((fst p - fst q) * (fst p - fst q) <= r * r) by nra. assert ((snd p - snd q) * (snd p - snd q) <= r * r) by nra. lra.
  Qed.
  Theorem C84_box_is_circle_refuted : exists p r b q, buffer_box p r = Ok (Some b) /\ inside b q /\ r * r < sqd p q.
  Proof.
    destruct (C84_box (0, 0) 1) as (b & E & B1 & B2 & B3 & B4); [reflexivity|]. exists (0, 0), 1, b, (1, 1). split; [exact E|].
    unfold inside. rewrite B1, B2, B3, B4. cbn [fst snd]. split; [repeat split; lra|reflexivity].
  Qed.

  (** **** C84: the box around a segment is the smallest that contains everything within the radius of one of its points *)
  Lemma finder_ok r p f : 0 < r -> exists b, buffer_box p r = Ok (Some b) /\ finder cosine sine r p f =
    let '(a, b', c, d) := f in Ok (smaller_o a (fst (fst b)), smaller_o b' (snd (fst b)), larger_o c (fst (snd b)), larger_o d (snd (snd b))).
  Proof. intros H. destruct (C84_box p r H) as (b & E & _). exists b. split; [exact E|]. unfold finder. rewrite E. reflexivity. Qed.
  Lemma segment_box_ok s r : 0 < r -> exists b, segment_buffer_box s r = Ok (Some b)
    /\ ((fst (fst b) == fst (fst s) - r \/ fst (fst b) == fst (snd s) - r) /\ fst (fst b) <= fst (fst s) - r /\ fst (fst b) <= fst (snd s) - r)
    /\ ((snd (fst b) == snd (fst s) - r \/ snd (fst b) == snd (snd s) - r) /\ snd (fst b) <= snd (fst s) - r /\ snd (fst b) <= snd (snd s) - r)
    /\ ((fst (snd b) == fst (fst s) + r \/ fst (snd b) == fst (snd s) + r) /\ fst (fst s) + r <= fst (snd b) /\ fst (snd s) + r <= fst (snd b))
    /\ ((snd (snd b) == snd (fst s) + r \/ snd (snd b) == snd (snd s) + r) /\ snd (fst s) + r <= snd (snd b) /\ snd (snd s) + r <= snd (snd b)).
  Proof.
    intros H. unfold Buffer.segment_buffer_box. destruct (finder_ok r (fst s) (None, None, None, None) H) as (b1 & E1 & ->).
    cbn [bindO smaller_o larger_o]. edestruct (finder_ok r (snd s)) as (b2 & E2 & ->); [exact H|]. cbn [bindO smaller_o larger_o].
    eexists. split; [reflexivity|]. cbn [fst snd]. destruct (box_ok _ _ _ E1) as (_ & A1 & A2 & A3 & A4). destruct (box_ok _ _ _ E2) as (_ & B1 & B2 & B3 & B4).
    rewrite <- A1, <- A2, <- A3, <- A4, <- B1, <- B2, <- B3, <- B4.
    split; [apply smaller_spec|]. split; [apply smaller_spec|]. split; apply larger_spec.
  Qed.
  Theorem C84_segment_throws s r : r <= 0 -> segment_buffer_box s r = Throw None.
  Proof. intros H. unfold Buffer.segment_buffer_box, finder. rewrite (C84_box_throws _ _ H). reflexivity. Qed.
  Theorem C84_segment s r : 0 < r -> exists b, segment_buffer_box s r = Ok (Some b)
    /\ (forall p q, on s p -> sqd p q <= r * r -> inside b q)
    /\ (forall b', (forall p q, on s p -> sqd p q <= r * r -> inside b' q) -> forall q, inside b q -> inside b' q).
  Proof.
    intros H. destruct (segment_box_ok s r H) as (b & E & (A0 & A1 & A2) & (B0 & B1 & B2) & (C0 & C1 & C2) & (D0 & D1 & D2)).
    exists b. split; [exact E|]. split.
    - intros p q (t & T & X & Y) D. unfold along in X, Y. cbn [fst snd] in X, Y. unfold sqd in D.
      assert (0 <= (fst p - fst q) * (fst p - fst q)) by apply square_pos. assert (0 <= (snd p - snd q) * (snd p - snd q)) by apply square_pos.
      destruct (square_le (fst p - fst q) r H); [lra|]. destruct (square_le (snd p - snd q) r H); [lra|].
      unfold inside. set (x1 := fst (fst s)) in *. set (x2 := fst (snd s)) in *. set (y1 := snd (fst s)) in *. set (y2 := snd (snd s)) in *.
      set (px := fst p) in *. set (py := snd p) in *. set (qx := fst q) in *. set (qy := snd q) in *.
      assert (fst (fst b) + r <= px) by (rewrite X; nra). assert (px <= fst (snd b) - r) by (rewrite X; nra).
      assert (snd (fst b) + r <= py) by (rewrite Y; nra). assert (py <= snd (snd b) - r) by (rewrite Y; nra). repeat split; lra.
    - intros b' C q I.
      assert (O1 : on s (fst s)) by (exists 0; unfold along; cbn [fst snd]; split; [lra|split; ring]).
      assert (O2 : on s (snd s)) by (exists 1; unfold along; cbn [fst snd]; split; [lra|split; ring]).
      assert (K : forall p, on s p -> fst (fst b') <= fst p - r /\ fst p + r <= fst (snd b') /\ snd (fst b') <= snd p - r /\ snd p + r <= snd (snd b')).
      { intros p O. assert (G1 := C p (fst p - r, snd p) O). assert (G2 := C p (fst p + r, snd p) O). assert (G3 := C p (fst p, snd p - r) O). assert (G4 := C p (fst p, snd p + r) O).
        unfold sqd, inside in *. cbn [fst snd] in *. destruct G1; [nra|]. destruct G2; [nra|]. destruct G3; [nra|]. destruct G4; [nra|]. repeat split; lra. }
      apply K in O1. apply K in O2. unfold inside in *. repeat split; lra.
  Qed.
  (** it is not the buffer of the segment: for a slanted one its corners are far away *)
  Theorem C84_segment_wide_refuted : exists s r b q, segment_buffer_box s r = Ok (Some b) /\ inside b q /\ forall p, on s p -> 4 * (r * r) < sqd p q.
  Proof.
    destruct (segment_box_ok ((0, 0), (10, 10)) 1) as (b & E & A & B & C & D); [reflexivity|]. exists ((0, 0), (10, 10)), 1, b, (0, 10).
    split; [exact E|]. cbn [fst snd] in *. unfold inside. cbn [fst snd]. split; [repeat split; lra|]. intros p (t & T & X & Y). unfold sqd, along in *. cbn [fst snd] in *.
    rewrite X, Y. nra.
  Qed.

  (** a query of the index with the box finds every segment with a point within the radius *)
  Definition meets_contract (meets : rect -> pt * pt -> bool) : Prop := forall b s, meets b s = true <-> exists q, on s q /\ inside b q.
  Theorem C84_meets meets p r b s q : meets_contract meets -> buffer_box p r = Ok (Some b) -> on s q -> sqd p q <= r * r -> meets b s = true.
  Proof. intros M H O D. apply M. exists q. split; [exact O|]. eapply C84_contains; eauto. Qed.

  (** *** the searches with this box in place of the oracle *)
  Definition in_buffer (p : pt) (r : Q) (q : pt) : bool :=
    match buffer_box p r with
    | Ok (Some b) => Qle_bool (fst (fst b)) (fst q) && Qle_bool (fst q) (fst (snd b)) && Qle_bool (snd (fst b)) (snd q) && Qle_bool (snd q) (snd (snd b))
    | _ => false
    end.
  Lemma in_buffer_spec p r q : in_buffer p r q = true <-> exists b, buffer_box p r = Ok (Some b) /\ inside b q.
  Proof.
    unfold in_buffer, inside. destruct (buffer_box p r) as [[b|]| | |].
    - rewrite !andb_true_iff, !Qle_bool_iff. split; [intros H; exists b; tauto|]. intros (b' & E & H). injection E as <-. tauto.
    - split; [discriminate|]. intros (b & E & _). discriminate.
    - split; [discriminate|]. intros (b & E & _). discriminate.
    - split; [discriminate|]. intros (b & E & _). discriminate.
    - split; [discriminate|]. intros (b & E & _). discriminate.
  Qed.

  (** C38: the median merge needs no assumption about the box *)
  Theorem C84_merge (nth_el : nat -> list Q -> list Q) (mean : Q -> Q -> Q) (dist : pt -> pt -> Q) (adjust : pt -> Q) line fuel :
    nth_contract Qle_bool nth_el ->
    (forall p q r, 0 < r -> dist p q <= r -> sqd p q <= r * r) -> (forall p r, 0 < r -> dist p p <= r) ->
    (length line < fuel)%nat -> (forall p, In p line -> 0 < adjust p) ->
    exists out, median_merge nth_el mean dist Qle_bool adjust in_buffer (fun r => negb (Qle_bool r 0)) fuel line = Ok out
      /\ merged nth_el mean dist Qle_bool adjust (fun r => negb (Qle_bool r 0)) [] line out.
  Proof.
    intros N D S L P.
    assert (T : forall r, negb (Qle_bool r 0) = true <-> 0 < r).
    { intros r. rewrite negb_true_iff. split; intros H; [|apply Qle_bool_false; exact H]. destruct (Qlt_le_dec 0 r) as [G|G]; [exact G|]. apply Qle_bool_iff in G. congruence. }
    apply (@C38_merge Q Q Qle_bool); auto.
    - intros a b. rewrite !Qle_bool_iff. destruct (Qlt_le_dec a b); [left|right]; lra.
    - intros a b c. rewrite !Qle_bool_iff. lra.
    - intros p q Hp Hd. apply T in Hp. apply Qle_bool_iff in Hd. apply in_buffer_spec. destruct (C84_box p _ Hp) as (b & E & _). exists b. split; [exact E|].
      eapply C84_contains; eauto.
    - intros p Hp. apply T in Hp. apply Qle_bool_iff. apply S. exact Hp.
    - intros p Hp. apply T. apply P. exact Hp.
  Qed.

  (** C45: the candidate search in CIRCLE mode, with edges that have segments in the index.  It ends, and it finds nothing only if no
      edge is as near as the upper limit. *)
  Definition query_box {E} (meets : rect -> pt * pt -> bool) (segs : E -> list (pt * pt)) (es : list E) (p : pt) (r : Q) : list E :=
    match buffer_box p r with Ok (Some b) => filter (fun e => existsb (meets b) (segs e)) es | _ => [] end.
  Lemma query_box_contains {E} meets (segs : E -> list (pt * pt)) es p r e s q :
    meets_contract meets -> 0 < r -> In e es -> In s (segs e) -> on s q -> sqd p q <= r * r -> In e (query_box meets segs es p r).
  Proof.
    intros M Hr He Hs Hq D. unfold query_box. destruct (C84_box p r Hr) as (b & B & _). rewrite B. apply filter_In. split; [exact He|].
    apply existsb_exists. exists s. split; [exact Hs|]. eapply C84_meets; eauto.
  Qed.
  Lemma query_box_in {E} meets (segs : E -> list (pt * pt)) es p r e : In e (query_box meets segs es p r) -> In e es.
  Proof. unfold query_box. destruct (buffer_box p r) as [[b|]| | |]; try (intros []). rewrite filter_In. tauto. Qed.
  Theorem C84_search {E} meets (segs : E -> list (pt * pt)) es (dist : E -> Q) nearest p s :
    meets_contract meets ->
    (forall e r, In e es -> 0 < r -> dist e <= r -> exists g q, In g (segs e) /\ on g q /\ sqd p q <= r * r) ->
    search s = Circle -> 0 < start s ->
    exists fuel l, search_edges (query_box meets segs es p) nearest dist fuel s = Ok l
      /\ (l = [] <-> forall e, In e es -> upper s < dist e)
      /\ exists c, c <= upper s /\ forall e, In e l <-> In e es /\ dist e <= c.
  Proof.
    intros M D Sm Hs.
    assert (C : forall r e, 0 < r -> In e es -> dist e <= r -> In e (query_box meets segs es p r)).
    { intros r e Hr He Hd. destruct (D e r He Hr Hd) as (g & q & G1 & G2 & G3). eapply query_box_contains; eauto. }
    assert (I : forall r e, In e (query_box meets segs es p r) -> In e es) by (intros; eapply query_box_in; eauto).
    destruct (C45_terminates (query_box meets segs es p) dist s []) as (fuel & [c l] & T); [left; exact Hs|]. specialize (T fuel (le_n _)). exists fuel, l.
    assert (R : search_edges (query_box meets segs es p) nearest dist fuel s = Ok l) by (unfold search_edges; rewrite Sm, T; reflexivity).
    split; [exact R|]. split; [eapply C45_none; eauto|].
    destruct (C45_circle _ _ (fun e => In e es) C I _ _ _ _ Sm Hs T) as (k & Ec & K & _). exists c. split; [|exact K].
    rewrite Ec. apply Qminmax.Q.le_min_r.
  Qed.

  (** C58: the adoption of near candidates, with the segments from the measurements to their candidates in the index *)
  Definition query_near (meets : rect -> pt * pt -> bool) (p : pt) (d : Q) (vs : list (nat * pt * @candidate pt)) : list (nat * pt * @candidate pt) :=
    match buffer_box p d with Ok (Some b) => filter (fun x => let '(_, q, c) := x in meets b (q, projection c)) vs | _ => [] end.
  Theorem C84_nearby meets (dist : pt -> pt -> Q) eqp (seg_dist : pt -> pt -> pt -> Q) source target vertex_point st reverse use_siblings i j c :
    meets_contract meets ->
    (forall p a b r, 0 < r -> seg_dist p a b <= r -> exists q, on (a, b) q /\ sqd p q <= r * r) ->
    (forall p, eqp p p = true) -> (forall p q, eqp p q = eqp q p) -> (forall p a b, eqp a b = true -> dist p a == dist p b) ->
    fresh dist eqp st -> near seg_dist st i j c -> i <> j ->
    exists f x, nth_error (finalize dist eqp seg_dist (query_near meets) source target vertex_point true reverse use_siblings st) i = Some f
      /\ In x (edges f) /\ same eqp x c = true.
  Proof.
    intros M D E1 E2 E3 F N Ne. refine (proj1 (C58_nearby dist eqp seg_dist (query_near meets) source target vertex_point _ _ E1 E2 E3 st reverse use_siblings i j c F N Ne)).
    - intros p d vs x. unfold query_near. destruct (buffer_box p d) as [[b|]| | |]; try (intros []). rewrite filter_In. tauto.
    - intros p d vs i' q c' Hd Hx L. unfold query_near. destruct (C84_box p d Hd) as (b & B & _). rewrite B. apply filter_In. split; [exact Hx|].
      destruct (D _ _ _ _ Hd L) as (z & O & Z). eapply C84_meets; eauto.
  Qed.

  (** C24: the box that compare.hpp (609, 671) takes finds every point within the tolerance of the comparison, whatever that is *)
  Theorem C84_compare p q tolerance : sqd p q <= tolerance * tolerance -> 0 <= tolerance -> in_buffer p (larger (1 # 1000) (2 * tolerance)) q = true.
  Proof.
    intros D T. destruct (larger_spec (1 # 1000) (2 * tolerance)) as (_ & L1 & L2). set (r := larger _ _) in *. clearbody r.
    apply in_buffer_spec. assert (Hr : 0 < r) by lra. destruct (C84_box p r Hr) as (b & B & _). exists b. split; [exact B|]. eapply C84_contains; eauto. nra.
  Qed.
End Box.

(** **** C84: the number of points of a round buffer *)
Section Points.
  Lemma floor_quot x : 0 <= x -> Z.quot (Qnum x) (Zpos (Qden x)) = Qfloor x.
  Proof. intros H. destruct x as [n d]. cbn [Qnum Qden Qfloor]. apply Z.quot_div_nonneg; [|reflexivity]. unfold Qle in H. cbn in H. lia. Qed.
  Lemma uint64_ok x : 0 <= x -> x < inject_Z (2 ^ 64) -> to_uint64 x = Ok (Z.to_N (Qfloor x)).
  Proof.
    intros H L. unfold to_uint64. rewrite (floor_quot x H). assert (A : (0 <= Qfloor x)%Z) by (apply (Qfloor_resp_le 0 x H)).
    assert (B : (Qfloor x < 2 ^ 64)%Z). { rewrite Zlt_Qlt. eapply Qle_lt_trans; [apply Qfloor_le|exact L]. }
    destruct (Qfloor x <? 0)%Z eqn:E1; [lia|]. destruct (2 ^ 64 <=? Qfloor x)%Z eqn:E2; [lia|]. reflexivity.
  Qed.
  (** a power of two, at least eight and at least the radius over four (without its fraction), and no more than necessary *)
  Theorem C84_points r : 0 < r -> r / 4 < inject_Z (2 ^ 63 + 1) -> exists n k, points_for r = Ok n /\ n = (2 ^ k)%N
    /\ (8 <= n)%N /\ (Qfloor (r / 4) <= Z.of_N n)%Z /\ forall j, (8 <= 2 ^ j)%N -> (Qfloor (r / 4) <= Z.of_N (2 ^ j))%Z -> (n <= 2 ^ j)%N.
  Proof.
    intros H L. assert (H4 : 0 <= r / 4) by (apply Qle_shift_div_l; [reflexivity|lra]). unfold points_for. rewrite uint64_ok; [|exact H4|].
    2:{ eapply Qlt_trans; [exact L|]. reflexivity. }
    cbn [bindO]. set (z := Qfloor (r / 4)) in *. assert (A : (0 <= z)%Z) by (apply (Qfloor_resp_le 0 _ H4)).
    assert (B : (z < 2 ^ 63 + 1)%Z). { rewrite Zlt_Qlt. eapply Qle_lt_trans; [apply Qfloor_le|exact L]. }
    destruct (Z.eq_dec z 0) as [->|Nz].
    - exists 8%N, 3%N. split; [reflexivity|]. repeat split; [discriminate|discriminate|]. auto.
    - destruct (C36_next_pow2 (Z.to_N z)) as (k & -> & K2 & K3); [lia|lia|].
      destruct (N.le_gt_cases 8 (2 ^ k)) as [G|G].
      + exists (2 ^ k)%N, k. rewrite N.max_l by exact G. repeat split; [exact G|lia|]. intros j J1 J2. apply K3. lia.
      + exists 8%N, 3%N. rewrite N.max_r by lia. repeat split; [lia|lia|auto].
  Qed.
  (** the ring has that many points and is closed *)
  Theorem C84_round cosine sine p r n : 0 < r -> points_for r = Ok n -> exists l, round_buffer cosine sine p r = Ok l
    /\ length l = S (N.to_nat n) /\ hd_error l = hd_error (rev l).
  Proof.
    intros H E. unfold round_buffer, buffer. rewrite E. cbn [bindO]. rewrite (Qle_bool_false _ _ H). eexists. split; [reflexivity|]. split.
    - unfold ring. rewrite map_length, app_length, seq_length. cbn. lia.
    - assert (G : (8 <= n)%N). { unfold points_for in E. destruct (to_uint64 (r / 4)); cbn [bindO] in E; try discriminate. injection E as <-. lia. }
      unfold ring. rewrite map_app, rev_app_distr. cbn [map rev app hd_error]. destruct (N.to_nat n) as [|m] eqn:En; [lia|]. reflexivity.
  Qed.
  (** for huge radii the number of points overflows to zero and eight are taken, *)
  Theorem C84_points_overflow_refuted : exists r n k, 0 < r /\ points_for r = Ok n /\ (8 <= 2 ^ k)%N /\ (n < 2 ^ k)%N /\ inject_Z (Z.of_N (2 ^ k)) <= r / 4.
  Proof. exists (inject_Z (2 ^ 66 - 4)), 8%N, 62%N. split; [reflexivity|]. split; [vm_compute; reflexivity|]. repeat split; vm_compute; congruence. Qed.
  (** and beyond, or for negative ones, the conversion is undefined before the radius is looked at *)
  Theorem C84_undefined cosine sine p r : r <= -4 \/ inject_Z (2 ^ 66) <= r -> round_buffer cosine sine p r = UB.
  Proof.
    intros H. unfold round_buffer, points_for.
    assert (U : to_uint64 (r / 4) = UB); [|rewrite U; reflexivity]. unfold to_uint64. set (x := r / 4) in *.
    assert (X : x <= -1 \/ inject_Z (2 ^ 64) <= x).
    { destruct H as [H|H]; [left; apply Qle_shift_div_r; [reflexivity|lra]|right; apply Qle_shift_div_l; [reflexivity|]].
      eapply Qle_trans; [|exact H]. vm_compute. discriminate. }
    clearbody x. destruct x as [a b]. cbn [Qnum Qden]. destruct X as [X|X]; unfold Qle, inject_Z in X; cbn [Qnum Qden] in X.
    - replace (Z.quot a (Zpos b) <? 0)%Z with true; [reflexivity|]. symmetry. apply Z.ltb_lt.
      assert (a = - (- a))%Z as -> by lia. rewrite Z.quot_opp_l by lia. assert (1 <= Z.quot (- a) (Zpos b))%Z; [|lia].
      rewrite Z.quot_div_nonneg by lia. apply Z.div_le_lower_bound; lia.
    - replace (2 ^ 64 <=? Z.quot a (Zpos b))%Z with true; [rewrite orb_true_r; reflexivity|]. symmetry. apply Z.leb_le.
      rewrite Z.quot_div_nonneg by lia. apply Z.div_le_lower_bound; lia.
  Qed.
End Points.

(** ** An instance: meeting a box by clipping the segment, and the four directions *)
Definition clip (lo hi x dx : Q) : option (Q * Q) :=
  if Qeq_bool dx 0 then (if Qle_bool lo x && Qle_bool x hi then Some (0, 1) else None)
  else if Qle_bool 0 dx then Some (larger 0 ((lo - x) / dx), smaller 1 ((hi - x) / dx))
  else Some (larger 0 ((hi - x) / dx), smaller 1 ((lo - x) / dx)).
Definition meets_ex (b : rect) (s : pt * pt) : bool :=
  match clip (fst (fst b)) (fst (snd b)) (fst (fst s)) (fst (snd s) - fst (fst s)), clip (snd (fst b)) (snd (snd b)) (snd (fst s)) (snd (snd s) - snd (fst s)) with
  | Some (l, h), Some (l', h') => Qle_bool (larger l l') (smaller h h')
  | _, _ => false
  end.
Lemma larger_le a b t : larger a b <= t <-> a <= t /\ b <= t.
Proof. destruct (larger_spec a b) as ([E|E] & L1 & L2); split; intros; try split; lra. Qed.
Lemma le_smaller a b t : t <= smaller a b <-> t <= a /\ t <= b.
Proof. destruct (smaller_spec a b) as ([E|E] & L1 & L2); split; intros; try split; lra. Qed.
Lemma clip_spec lo hi x dx t : 0 <= t <= 1 /\ lo <= x + t * dx <= hi <-> match clip lo hi x dx with Some (l, h) => l <= t <= h | None => False end.
Proof.
  unfold clip. destruct (Qeq_bool dx 0) eqn:E0.
  - apply Qeq_bool_iff in E0. assert (T : x + t * dx == x) by (rewrite E0; ring). rewrite T.
    destruct (Qle_bool lo x && Qle_bool x hi) eqn:A.
    + apply andb_true_iff in A as [A B]. apply Qle_bool_iff in A. apply Qle_bool_iff in B. tauto.
    + split; [|intros []]. intros [_ [B C]]. apply Qle_bool_iff in B. apply Qle_bool_iff in C. rewrite B, C in A. discriminate.
  - assert (N : ~ dx == 0) by (intros N; apply Qeq_bool_iff in N; congruence).
    destruct (Qle_bool 0 dx) eqn:S.
    + apply Qle_bool_iff in S. assert (P : 0 < dx) by (destruct (Qlt_le_dec 0 dx) as [Q|Q]; [exact Q|exfalso; apply N; lra]).
      rewrite larger_le, le_smaller.
      assert (D1 : (lo - x) / dx <= t <-> lo - x <= t * dx) by (split; [intros G; apply Qle_trans with ((lo - x) / dx * dx); [field_simplify; [lra|exact N]|nra]|apply Qle_shift_div_r; exact P]).
      assert (D2 : t <= (hi - x) / dx <-> t * dx <= hi - x) by (split; [intros G; apply Qle_trans with ((hi - x) / dx * dx); [nra|field_simplify; [lra|exact N]]|apply Qle_shift_div_l; exact P]).
      rewrite D1, D2. split; intros; repeat split; lra.
    + assert (P : dx < 0) by (destruct (Qlt_le_dec dx 0) as [Q|Q]; [exact Q|apply Qle_bool_iff in Q; congruence]).
      rewrite larger_le, le_smaller.
      assert (F : forall y, (y - x) / dx == (x - y) / - dx) by (intros; field; lra). rewrite !F.
      assert (M : ~ - dx == 0) by lra.
      assert (D1 : (x - hi) / - dx <= t <-> x - hi <= t * - dx) by (split; [intros G; apply Qle_trans with ((x - hi) / - dx * - dx); [field_simplify; [lra|exact N]|nra]|apply Qle_shift_div_r; lra]).
      assert (D2 : t <= (x - lo) / - dx <-> t * - dx <= x - lo) by (split; [intros G; apply Qle_trans with ((x - lo) / - dx * - dx); [nra|field_simplify; [lra|exact N]]|apply Qle_shift_div_l; lra]).
      rewrite D1, D2. split; intros; repeat split; lra.
Qed.
Lemma meets_ex_ok : meets_contract meets_ex.
Proof.
  intros b s. assert (T : (exists q, on s q /\ inside b q) <-> exists t, (0 <= t <= 1 /\ fst (fst b) <= fst (fst s) + t * (fst (snd s) - fst (fst s)) <= fst (snd b))
    /\ (0 <= t <= 1 /\ snd (fst b) <= snd (fst s) + t * (snd (snd s) - snd (fst s)) <= snd (snd b))).
  { split.
    - intros (q & (t & T & X & Y) & I). exists t. unfold inside, along in *. cbn [fst snd] in *. rewrite X, Y in I. tauto.
    - intros (t & A & B). exists (along s t). split; [exists t; split; [tauto|split; reflexivity]|]. unfold inside, along. cbn [fst snd]. tauto. }
  rewrite T. clear T. setoid_rewrite clip_spec. unfold meets_ex.
  destruct (clip (fst (fst b)) _ _ _) as [[l h]|]; [|split; [discriminate|intros (t & [] & _)]].
  destruct (clip (snd (fst b)) _ _ _) as [[l' h']|]; [|split; [discriminate|intros (t & _ & [])]].
  rewrite Qle_bool_iff. split.
  - intros H. exists (larger l l'). destruct (larger_spec l l') as (_ & L1 & L2). apply le_smaller in H. tauto.
  - intros (t & A & B). apply Qle_trans with t; [apply larger_le|apply le_smaller]; tauto.
Qed.
Definition cos_ex (n i : nat) : Q := match i with 0%nat => 1 | 2%nat => -1 | _ => 0 end.
Definition sin_ex (n i : nat) : Q := match i with 1%nat => -1 | 3%nat => 1 | _ => 0 end.
Example C84_angles_ex : quarters cos_ex sin_ex.
Proof. repeat split; reflexivity. Qed.
Definition show (o : outcome (option rect)) : outcome (option rect) :=
  bindO o (fun b => b) (fun b => Ok (option_map (fun b => ((Qred (fst (fst b)), Qred (snd (fst b))), (Qred (fst (snd b)), Qred (snd (snd b))))) b)).
Example C84_box_ex : show (buffer_box cos_ex sin_ex (3, 4) (1 # 2)) = Ok (Some ((5 # 2, 7 # 2), (7 # 2, 9 # 2)))
  /\ buffer_box cos_ex sin_ex (3, 4) 0 = Throw None.
Proof. split; vm_compute; reflexivity. Qed.
Example C84_segment_ex : show (segment_buffer_box cos_ex sin_ex ((3, 4), (-1, 7)) 1) = Ok (Some ((-2, 3), (4, 8))).
Proof. vm_compute. reflexivity. Qed.
Example C84_points_ex : map points_for [1 # 3; 100; 1000] = [Ok 8%N; Ok 32%N; Ok 256%N].
Proof. vm_compute. reflexivity. Qed.
(** a segment that passes by at distance one is found with radius one, one at distance two is not *)
Example C84_meets_ex : meets_contract meets_ex
  /\ match buffer_box cos_ex sin_ex (0, 0) 1 with Ok (Some b) => map (meets_ex b) [((1, -5), (1, 9)); ((2, -5), (2, 9)); ((-5, -5), (9, 9))] | _ => [] end = [true; false; true].
Proof. split; [exact meets_ex_ok|vm_compute; reflexivity]. Qed.
(** one edge beside the point at distance three, first looked for with radius one *)
Example C84_search_ex : let segs := fun _ : nat => [((3, -5), (3, 9))] in
  (forall e r, In e [7%nat] -> 0 < r -> 3 <= r -> exists g q, In g (segs e) /\ on g q /\ sqd (0, 0) q <= r * r)
  /\ search_edges (query_box cos_ex sin_ex meets_ex segs [7%nat] (0, 0)) [] (fun _ => 3) 10 (mkSettings 1 0 100 false Circle None None) = Ok [7%nat].
Proof.
  split; [|vm_compute; reflexivity]. intros e r _ Hr Hd. exists ((3, -5), (3, 9)), (3, 0). split; [left; reflexivity|].
  split; [exists (5 # 14); split; [split; discriminate|split; reflexivity]|]. unfold sqd. cbn [fst snd]. nra.
Qed.

Print Assumptions C84_box.
Print Assumptions C84_box_throws.
Print Assumptions C84_box_iff.
Print Assumptions C84_contains.
Print Assumptions C84_smallest.
Print Assumptions C84_corner.
Print Assumptions C84_box_is_circle_refuted.
Print Assumptions C84_segment.
Print Assumptions C84_segment_throws.
Print Assumptions C84_segment_wide_refuted.
Print Assumptions C84_meets.
Print Assumptions C84_merge.
Print Assumptions C84_search.
Print Assumptions C84_nearby.
Print Assumptions C84_compare.
Print Assumptions C84_points.
Print Assumptions C84_round.
Print Assumptions C84_points_overflow_refuted.
Print Assumptions C84_undefined.
