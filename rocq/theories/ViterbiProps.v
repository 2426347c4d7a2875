(** Properties C14 (optimality) and C15 (well-formedness) of the Viterbi decoder.

    The vocabulary ([score_laws], [shaped], [score], [complete], ...) is at the top of ViterbiProofs.v.
    [score_laws] holds for doubles without NaN and without plus infinity (rounded addition is monotone and minus
    infinity absorbs), so rounding is covered: [score] adds in the order in which the program adds. *)
From Verif Require Import Base ListAux Viterbi ViterbiProofs.
From Coq Require Import ZArith.

Section Props.
  Context {V : Type}.
  Variable bot : V.
  Variable add : V -> V -> V.
  Variable ltb : V -> V -> bool.
  Variable log_inv : nat -> V.
  Notation viterbi := (viterbi bot add ltb log_inv).
  Notation score := (score bot add log_inv).
  Notation below := (below ltb).

  Definition never : nat -> bool := fun _ => false.

  (** C14.  Without a deadline the decoder returns normally.  Either it returns a complete candidate sequence whose
      score is above minus infinity and not exceeded by any complete sequence, or it returns the empty policy and no
      complete sequence has a score above minus infinity. *)
  Theorem C14_viterbi_optimal M : score_laws bot add ltb -> shaped M ->
    exists pol, viterbi M never = Ok pol /\
      ((exists t0 cs, complete M t0 cs /\ pol = combine (seq t0 (length cs)) cs /\ ltb bot (score M t0 cs) = true /\
          forall t1 cs', complete M t1 cs' -> below (score M t1 cs') (score M t0 cs)) \/
       (pol = [] /\ forall t0 cs, complete M t0 cs -> ltb bot (score M t0 cs) = false)).
  Proof.
    intros L SH. destruct (viterbi_result bot add ltb log_inv M L SH never) as [[(i & _ & A) _]|(_ & pol & E & R)];
      [discriminate A|].
    exists pol. split; [exact E|]. destruct R as [[-> R]|(t0 & cs & C & -> & P & R)].
    - right. split; [reflexivity|]. exact R.
    - left. exists t0, cs. repeat (split; [assumption || reflexivity|]). intros t1 cs' C'.
      assert (t1 = t0) by (destruct C as [F _], C' as [F' _]; eapply first_unique; eassumption). subst t1.
      apply R. exact C'.
  Qed.

  (** C15.  Whatever the deadline does, the decoder returns normally (no lookup fails), and the policy is empty or
      names, in step order, exactly one valid candidate for every step from the first step with candidates on. *)
  Theorem C15_viterbi_well_formed M abort : score_laws bot add ltb -> shaped M ->
    exists pol, viterbi M abort = Ok pol /\
      (pol = [] \/
       exists t0, first_step M t0 /\ map fst pol = seq t0 (steps M - t0) /\
         forall t c, In (t, c) pol -> c < width M t).
  Proof.
    intros L SH. destruct (viterbi_result bot add ltb log_inv M L SH abort) as [[_ E]|(_ & pol & E & R)].
    { exists []. split; [exact E|]. left. reflexivity. }
    exists pol. split; [exact E|]. destruct R as [[-> R]|(t0 & cs & C & -> & P & R)]; [left; reflexivity|].
    right. exists t0. destruct C as (F & Len & C). split; [exact F|]. rewrite <- Len. split.
    - clear. generalize t0. induction cs as [|c r IH]; intros t; cbn; [reflexivity|]. f_equal. apply IH.
    - intros t c H. unfold choices in C. clear - C H.
      induction C as [|x y l l' Hxy HC IH]; [destruct H|]. cbn in H.
      destruct H as [[= -> ->]|H]; [exact Hxy|apply IH; exact H].
  Qed.

  (** C15: if the deadline fires during decoding the policy is empty. *)
  Theorem C15_aborted_empty M abort i : score_laws bot add ltb -> shaped M ->
    i < polls M -> abort i = true -> viterbi M abort = Ok [].
  Proof.
    intros L SH Hi A. destruct (viterbi_result bot add ltb log_inv M L SH abort) as [[_ E]|[N _]]; [exact E|].
    exfalso. apply N. exists i. split; assumption.
  Qed.

  (** C15: a step without candidates after a step with candidates empties the whole policy. *)
  Theorem C15_gap_empties M t u : score_laws bot add ltb -> shaped M ->
    0 < width M t -> t < u -> u < steps M -> width M u = 0 -> viterbi M never = Ok [].
  Proof.
    intros L SH Ht Hu Hs Hw. destruct (viterbi_result bot add ltb log_inv M L SH never) as [[_ E]|(_ & pol & E & R)]; [exact E|].
    destruct R as [[-> _]|(t0 & cs & (F & Len & C) & _)]; [exact E|]. exfalso.
    destruct F as (F1 & F2 & F3).
    assert (t0 <= t). { destruct (le_lt_dec t0 t) as [H|H]; [exact H|]. rewrite (F3 t H) in Ht. lia. }
    unfold choices in C. rewrite Len in C.
    assert (G : forall l l', Forall2 (fun t c => c < width M t) l l' -> In u l -> 0 < width M u).
    { clear. induction 1 as [|x y l l' H]; [intros []|]. intros [->|Hin]; [lia|auto]. }
    assert (0 < width M u); [|lia]. eapply G; [exact C|]. apply in_seq. lia.
  Qed.

  (** The tables built by [hmm::set] fit together, for all scores and any number of candidates per point. *)
  Lemma nth_map_seq {A} (f : nat -> A) n t d : nth t (map f (seq 0 n)) d = if t <? n then f t else d.
  Proof.
    destruct (t <? n) eqn:E.
    - apply Nat.ltb_lt in E. rewrite (nth_indep _ d (f 0)) by (rewrite map_length, seq_length; exact E).
      rewrite map_nth, seq_nth by exact E. reflexivity.
    - apply Nat.ltb_ge in E. apply nth_overflow. rewrite map_length, seq_length. exact E.
  Qed.

  Lemma hmm_width {E} obs tr (edges : list (list E)) t :
    width (hmm_tables log_inv obs tr edges) t = length (nth t edges []).
  Proof.
    unfold width, hmm_tables. cbn [observations]. rewrite nth_map_seq. destruct (t <? length edges) eqn:H.
    - rewrite map_length, seq_length. reflexivity.
    - apply Nat.ltb_ge in H. rewrite (nth_overflow edges) by exact H. reflexivity.
  Qed.

  Lemma hmm_shaped {E} obs tr (edges : list (list E)) : shaped (hmm_tables log_inv obs tr edges).
  Proof.
    constructor.
    - unfold steps. cbn. rewrite !map_length. reflexivity.
    - intros t. rewrite hmm_width. cbn [transitions hmm_tables]. rewrite nth_map_seq.
      destruct (t <? length edges) eqn:H.
      + destruct t; rewrite map_length, seq_length; reflexivity.
      + apply Nat.ltb_ge in H. rewrite (nth_overflow edges) by exact H. reflexivity.
    - intros g Hg. rewrite hmm_width in Hg. cbn [transitions hmm_tables]. rewrite nth_map_seq.
      destruct (0 <? length edges) eqn:H.
      + rewrite (nth_map_seq (fun _ => [log_inv (length (nth 0 edges []))])).
        apply Nat.ltb_lt in Hg. rewrite Hg. reflexivity.
      + apply Nat.ltb_ge in H. rewrite (nth_overflow edges) in Hg by exact H. cbn in Hg. lia.
    - intros t g Hg. rewrite hmm_width in *. cbn [transitions hmm_tables]. rewrite nth_map_seq.
      destruct (S t <? length edges) eqn:H.
      + rewrite nth_map_seq. apply Nat.ltb_lt in Hg. rewrite Hg, map_length, seq_length. reflexivity.
      + apply Nat.ltb_ge in H. rewrite (nth_overflow edges) in Hg by exact H. cbn in Hg. lia.
  Qed.

  (** C14/C15 end to end for the tables of the hidden Markov environment: every number of points, candidates per
      point and score functions. *)
  Theorem C15_on_hmm {E} obs tr (edges : list (list E)) abort : score_laws bot add ltb ->
    exists pol, viterbi (hmm_tables log_inv obs tr edges) abort = Ok pol /\
      forall t c, In (t, c) pol -> t < length edges /\ c < length (nth t edges []).
  Proof.
    intros L. destruct (C15_viterbi_well_formed (hmm_tables log_inv obs tr edges) abort L (hmm_shaped _ _ _))
      as (pol & H & R).
    exists pol. split; [exact H|]. intros t c Hin. destruct R as [->|(t0 & F & Fst & R)]; [destruct Hin|].
    specialize (R t c Hin). rewrite hmm_width in R. split; [|exact R].
    assert (I : In t (map fst pol)) by (apply in_map_iff; exists (t, c); split; [reflexivity|exact Hin]).
    rewrite Fst in I. apply in_seq in I. destruct F as (F & _). unfold steps in *. cbn in *.
    rewrite map_length, seq_length in *. lia.
  Qed.
End Props.

(** Integers with minus infinity as scores. *)
Definition zb : Type := option Z.
Definition zadd (a b : zb) : zb := match a, b with Some x, Some y => Some (x + y)%Z | _, _ => None end.
Definition zltb (a b : zb) : bool :=
  match a, b with
  | _, None => false
  | None, Some _ => true
  | Some x, Some y => (x <? y)%Z
  end.
Example zb_laws : score_laws None zadd zltb.
Proof.
  constructor; unfold below.
  - intros [a|]; cbn; [apply Z.ltb_irrefl|reflexivity].
  - intros [a|] [b|] [c|]; cbn; try discriminate; try reflexivity. rewrite !Z.ltb_ge. lia.
  - intros [a|] [b|]; cbn; auto. rewrite !Z.ltb_ge. lia.
  - intros [a|]; reflexivity.
  - intros [a|] [b|] [c|]; cbn; try discriminate; try reflexivity. rewrite !Z.ltb_ge. lia.
  - intros [c|]; reflexivity.
Qed.

(** Four steps; the first one has no candidates, so decoding starts late. The greedy choice at step 1 (candidate 0) is
    not on the best sequence and one transition is impossible. *)
Definition demo : trellis zb :=
  mkTrellis [[]; [Some (-1); Some (-2)]; [Some (-1); Some (-1)]; [Some (-3); Some (-3); Some (-9)]]%Z
            [[]; [[]; []]; [[Some (-9); Some (-1)]; [None; Some (-7)]];
             [[Some (-1); Some 0]; [None; None]; [Some (-1); Some (-1)]]]%Z.
Example demo_shaped : shaped demo.
Proof.
  constructor.
  - reflexivity.
  - intros [|[|[|[|t]]]]; try reflexivity. cbn. destruct t; reflexivity.
  - cbn. lia.
  - intros [|[|[|[|t]]]] g H; cbn in *; try lia.
    + destruct g as [|[|g]]; try reflexivity; lia.
    + destruct g as [|[|g]]; try reflexivity; lia.
    + destruct g as [|[|[|g]]]; try reflexivity; lia.
Qed.
Example demo_policy : viterbi None zadd zltb (fun _ => Some (-1)%Z) demo never = Ok [(1, 1); (2, 0); (3, 0)].
Proof. vm_compute. reflexivity. Qed.
Example demo_complete : complete demo 1 [1; 0; 0] /\ score None zadd (fun _ => Some (-1)%Z) demo 1 [1; 0; 0] = Some (-9)%Z.
Proof.
  split; [|reflexivity]. split; [|split; [reflexivity|]].
  - split; [cbn; lia|]. split; [cbn; lia|]. intros t Ht. replace t with 0 by lia. reflexivity.
  - repeat constructor; cbn; lia.
Qed.
(** all sequences impossible *)
Example demo_dead : viterbi None zadd zltb (fun _ => Some (-1)%Z)
  (mkTrellis [[Some (-1)%Z]; [Some (-1)%Z]] [[[Some 0%Z]]; [[None]]]) never = Ok [].
Proof. reflexivity. Qed.

(** The wording "one candidate for every step" fails for steps without candidates: a gap in the middle gives the empty
    policy although every other step has candidates with finite scores. *)
Theorem C14_gap_refuted : exists M : trellis zb, shaped M /\ 0 < width M 0 /\ 0 < width M 2 /\
  (forall t g, t <> 1 -> g < width M t -> emit None M t g <> None) /\
  viterbi None zadd zltb (fun _ => Some 0%Z) M never = Ok [].
Proof.
  exists (mkTrellis [[Some (-1)%Z]; []; [Some (-1)%Z]] [[[Some 0%Z]]; []; [[]]]).
  split; [|split; [cbn; lia|split; [cbn; lia|split; [|reflexivity]]]].
  - constructor.
    + reflexivity.
    + intros [|[|[|t]]]; try reflexivity. cbn. destruct t; reflexivity.
    + intros [|g] H; cbn in *; [reflexivity|lia].
    + intros [|[|[|t]]] [|g] H; cbn in *; try lia; try reflexivity; destruct t; cbn in H; lia.
  - intros [|[|[|t]]] [|g] Ht Hg; unfold emit; cbn in *; try congruence; try lia; destruct t; cbn in Hg; lia.
Qed.

Print Assumptions C14_viterbi_optimal.
Print Assumptions C14_gap_refuted.
Print Assumptions C15_viterbi_well_formed.
Print Assumptions C15_aborted_empty.
Print Assumptions C15_gap_empties.
Print Assumptions C15_on_hmm.
