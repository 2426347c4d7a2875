(** C67: matching with the hidden Markov model, from the decoded policy to the route. What the scores and the decoder give (C62) is put together with the
    route of a policy (C54). *)
From Verif Require Import Base ListAux Viterbi ViterbiProofs ViterbiProps HmmScore HmmScoreProps Assemble AssembleProofs AssembleProps Route RouteProofs MatchProps.
From Coq Require Import Lqa.

Section Match.
  Variable logpow : Q -> Q -> Q.
  Variable f_distance f_length f_azimuth f_turn f_direction : Q.
  Variable seg_length seg_azimuth turn : nat -> option Q.
  Variable next_equal : nat -> bool.
  Variable distances : list (list Q).
  Variable info : nat -> nat -> nat -> route_info.
  Variable log_inv : nat -> Q.
  Notation observation := (observation logpow f_distance distances).
  Notation transition := (transition logpow f_length f_azimuth f_turn f_direction seg_length seg_azimuth turn next_equal info).
  Notation tables := (hmm_tables (fun n => Some (log_inv n)) observation transition distances).
  Notation decode := (viterbi None qadd qltb (fun n => Some (log_inv n)) tables).
  Notation value := (value logpow f_distance f_length f_azimuth f_turn f_direction seg_length seg_azimuth turn next_equal distances info).
  Context {P L : Type}.
  Variable eqp : P -> P -> bool.
  Hypothesis eqp_eq : forall a b, eqp a b = true <-> a = b.
  Variable zeroL : L.
  Variable addL : L -> L -> L.
  Variable dist : P -> P -> L.
  Variable opposite : P * P -> P * P -> bool.
  Variable between : nat * nat -> nat * nat -> outcome (@route P).
  Variable in_edges : P -> bool.
  Variable place : nat * nat -> P.
  Notation candidates_route := (candidates_route eqp zeroL addL dist opposite between in_edges).
  (** [t] is an edge of the next measurement, and the route to it is valid *)
  Definition next_valid (f t : nat * nat) : Prop := fst t = S (fst f) /\ r_invalid (info (fst t) (snd t) (snd f)) = false.

  Lemma chain_linked cs : forall i, (forall k s t, nth_error cs k = Some s -> nth_error cs (S k) = Some t -> r_invalid (info (S (i + k)) t s) = false) ->
    linked next_valid (combine (seq i (length cs)) cs).
  Proof.
    induction cs as [|c cs IH]; intros i H; [exact I|]. specialize (IH (S i)). destruct cs as [|d cs]; [exact I|]. cbn [length seq combine linked]. split.
    - split; [reflexivity|]. cbn [fst snd]. specialize (H 0 c d eq_refl eq_refl). rewrite Nat.add_0_r in H. exact H.
    - apply IH. intros k s t Hs Ht. replace (S i + k) with (i + S k) by lia. apply (H (S k)); assumption.
  Qed.

  (** Matching ends. If no choice of one edge for every measurement is linked by valid routes, nothing is matched; else the policy is a best such
      choice, and the route leads from the place of its first edge to that of its last one, over the routes between them. *)
  Theorem C67_match : log_laws logpow -> measured seg_length seg_azimuth turn info ->
    (0 <= f_distance)%Q -> (0 <= f_length)%Q -> (0 <= f_azimuth)%Q -> (0 <= f_turn)%Q -> (0 <= f_direction)%Q ->
    distances <> [] -> Forall (fun l => l <> [] /\ Forall (fun d => 0 <= d)%Q l) distances ->
    (forall f t, next_valid f t -> exists r, between f t = Ok r /\ invalid r = false /\ path (place f) (lines r) (place t)) ->
    forall join_merges, exists pol t, decode never = Ok pol /\ candidates_route join_merges pol = Ok t
      /\ ((pol = [] /\ t = flagged true /\ forall cs, ~ edge_chain distances info cs)
          \/ exists cs, pol = combine (seq 0 (length cs)) cs /\ edge_chain distances info cs /\ (forall cs', edge_chain distances info cs' -> (value cs' <= value cs)%Q)
               /\ run_route eqp opposite between in_edges place join_merges pol t).
  Proof.
    intros Hl Hm F0 F1 F2 F3 F4 Nn D Hb j.
    destruct (C62_policy logpow f_distance f_length f_azimuth f_turn f_direction seg_length seg_azimuth turn next_equal distances info log_inv Hl Hm F0 F1 F2 F3 F4 D Nn) as (pol & E & R).
    exists pol. destruct R as [[-> No]|(cs & Ep & Ch & Best)].
    - exists (flagged true). split; [exact E|]. split; [reflexivity|]. left. auto.
    - assert (Len : length cs = length distances) by apply Ch.
      assert (Lk : linked next_valid pol) by (rewrite Ep; apply chain_linked; intros k s t; apply Ch).
      assert (M : map fst pol = seq 0 (length cs)).
      { rewrite Ep. generalize 0. clear. induction cs as [|c cs IH]; intros i; [reflexivity|]. cbn [length seq combine map fst]. rewrite IH. reflexivity. }
      destruct (run_has eqp eqp_eq zeroL addL dist opposite between in_edges place next_valid Hb j pol) as (t & Et & Rt).
      + intros ->. cbn in M. destruct cs; [|discriminate M]. destruct distances; [congruence|discriminate Len].
      + exact Lk.
      + rewrite M. apply seq_NoDup.
      + exists t. split; [exact E|]. split; [exact Et|]. right. exists cs. auto.
  Qed.

  (** The deadline: if it has passed at a moment the decoder looks at the clock, the result is empty as well. *)
End Match.

(** *** Example: the road of C54, first without and then with the measurement that cannot be reached *)
Definition hinfo (to target source : nat) : route_info :=
  match to with 0 => mkInfo true None None None | S from => zinfo from source to target end.
Definition hseg (i : nat) : option Q := Some (nth i [3; 16; 6; 2] 0)%Q.
Definition hdecode (distances : list (list Q)) :=
  viterbi None qadd qltb (fun n => Some (1 - inject_Z (Z.of_nat n))%Q)
    (hmm_tables (fun n => Some (1 - inject_Z (Z.of_nat n))%Q) (observation demo_logpow 1 distances)
       (transition demo_logpow 1 1 1 1 hseg (fun _ => None) (fun _ => None) (fun _ => false) hinfo) distances) never.
Definition hmatch (distances : list (list Q)) := match hdecode distances with Ok p => Some (p, lines (shown (flagged true) (zwhole false p))) | _ => None end.
Example C67_ex_match : hmatch (firstn 4 zdistances) = Some ([(0, 1); (1, 0); (2, 0); (3, 0)], [[2; 4]; [4; 10]; [10; 20]; [20; 25; 27]]%Z).
Proof. vm_compute. reflexivity. Qed.
Example C67_ex_met : measured hseg (fun _ => None) (fun _ => None) hinfo /\ Forall (fun l => l <> [] /\ Forall (fun d => 0 <= d)%Q l) zdistances
  /\ forall f t, next_valid hinfo f t -> exists r, zbetween f t = Ok r /\ invalid r = false /\ path (zplace f) (lines r) (zplace t).
Proof.
  destruct C66_ex_met as (M & _ & B). split; [|split].
  - constructor; try (intros; exact I).
    + intros i. apply (MdpRewardProps.le_seg _ _ _ _ _ M i).
    + intros [|t] x y; [exact I|]. apply (MdpRewardProps.le_route _ _ _ _ _ M).
    + intros [|t] x y; [exact I|]. unfold hinfo, zinfo. destruct (invalid _); exact I.
    + intros [|t] x y; [exact I|]. apply (MdpRewardProps.le_turns _ _ _ _ _ M).
  - repeat constructor; try discriminate.
  - intros [p e] [q f] [E V]. cbn [fst snd] in E, V. subst q. apply B. exact V.
Qed.

(** A single measurement that cannot be reached from the one before empties the whole match, which the step-wise model does not (C66): the
    valid routes before it are lost. *)
Theorem C67_break_refuted : exists p r, hmatch (firstn 4 zdistances) = Some (p, r) /\ r <> [] /\ hmatch zdistances = Some ([], [])
  /\ exists q, zmatch true = Some (p ++ q, r).
Proof. eexists; eexists. split; [exact C67_ex_match|]. split; [discriminate|]. split; [vm_compute; reflexivity|]. exists [(3, 0); (4, 0)]. exact (proj1 C66_ex_match). Qed.

Print Assumptions C67_match.
Print Assumptions C67_break_refuted.
