(** C66: from the learned policy to the route. The way value iteration finds is cut by the skips into runs; within a run each edge is reached from the
    one before by a valid route; the route of the policy is made of the routes of the runs. *)
From Verif Require Import Base ListAux Env EnvProps Value ValueProps EnvLearn EnvLearnProofs HmmScoreProps MdpReward MdpRewardProps EnvLearnProps Assemble AssembleProofs AssembleProps Route RouteProofs.
From Coq Require Import Lqa Sorted.
Import Env EnvProps EnvLearnProps.
Open Scope nat_scope.

(** the runs one after the other, each but the last followed by its last entry once more, the mark of a skip *)
Fixpoint with_marks (runs : list (list (nat * nat))) : list (nat * nat) :=
  match runs with
  | [] => []
  | [r] => r
  | r :: rest => r ++ [last r (0, 0)] ++ with_marks rest
  end.
(** neighbouring entries are connected *)
Fixpoint linked (ok : nat * nat -> nat * nat -> Prop) (r : list (nat * nat)) : Prop :=
  match r with
  | x :: ((y :: _) as t) => ok x y /\ linked ok t
  | _ => True
  end.

Section Runs.
  Variable cands : list nat.
  Variable first_reward : istate -> iaction -> Q.
  Variable judge : istate -> iaction -> @verdict Q.
  Notation pure := (pure 0%Q cands 3 first_reward judge).
  Notation offered := (offered cands).
  Notation way := (way cands first_reward judge).
  Notation N := (Z.of_nat (length cands)).
  (** what is not skipped is connected *)
  Variable ok : nat * nat -> nat * nat -> Prop.
  Hypothesis judged : forall p a q e, (0 <= p)%Z -> (0 <= a)%Z -> (0 <= q)%Z -> (0 <= e)%Z -> v_skip (judge [p; a; q] e) = false -> ok (Z.to_nat p, Z.to_nat a) (Z.to_nat q, Z.to_nat e).
  Hypothesis some : Forall (fun n => 0 < n) cands.

  Lemma edge_here q a : (0 <= q < N)%Z -> offered [q] a \/ (exists p x, offered [p; x; q] a) -> edge_at cands q (action2internal a) /\ (0 <= action2internal a)%Z.
  Proof.
    intros Hq O. assert (O' : offered [q] a) by (destruct O as [O|(p & x & O)]; exact O). clear O.
    assert (E : edge_at cands q (action2internal a)).
    { unfold EnvProps.offered in O'. cbn [back rev app] in O'. destruct (at_pos cands q) as [n|] eqn:En.
      - assert (Hn : 0 < n). { unfold at_pos in En. destruct (q <? 0)%Z; [discriminate|]. apply nth_error_In in En. rewrite Forall_forall in some. apply some, En. }
        destruct n as [|n]; [lia|]. exists (S n). split; [exact En|]. destruct a as [|[|a]]; [lia|lia|]. cbn [action2internal]. unfold special_actions. lia.
      - exfalso. unfold at_pos in En. destruct (Z.ltb_spec q 0); [lia|]. apply nth_error_None in En. lia. }
    split; [exact E|]. destruct E as (n & _ & H). lia.
  Qed.
  Lemma pure_one q a : (0 <= action2internal a)%Z -> edge_at cands q (action2internal a) ->
    pure [q] a = Ok ([q; action2internal a; (q + 1)%Z], action2internal a, first_reward [q] (action2internal a), (N <=? q + 1)%Z).
  Proof.
    intros H0 E. assert (N0 : (action2internal a <? 0)%Z = false) by (apply Z.ltb_ge; lia).
    unfold EnvProps.pure, new_state, reward. cbn [length Nat.leb Nat.ltb Env.back rev app derefO bindO skipn]. rewrite N0, (edge_at_ok _ _ _ E). reflexivity.
  Qed.
  Lemma pure_three p x q a : (0 <= x)%Z -> edge_at cands p x -> (0 <= action2internal a)%Z -> edge_at cands q (action2internal a) ->
    exists rw, pure [p; x; q] a = (if v_skip (judge [p; x; q] (action2internal a)) then Ok ([q], skip, rw, (N <=? q)%Z) else Ok ([q; action2internal a; (q + 1)%Z], action2internal a, rw, (N <=? q + 1)%Z)).
  Proof.
    intros Hx Ex H0 E. assert (N0 : (action2internal a <? 0)%Z = false) by (apply Z.ltb_ge; lia). assert (Nx : (x <? 0)%Z = false) by (apply Z.ltb_ge; lia).
    unfold EnvProps.pure, new_state, reward. cbn [length Nat.leb Nat.ltb Env.back rev app derefO bindO skipn]. rewrite N0, (edge_at_ok _ _ _ E). cbn [bindO]. unfold from_back. cbn [length Nat.sub nth_error derefO].
    rewrite Nx, (edge_at_ok _ _ _ Ex). cbn [bindO]. rewrite andb_false_r. eexists. destruct (v_skip (judge [p; x; q] (action2internal a))); reflexivity.
  Qed.

  Lemma seq_cut q n : (0 <= q < n)%Z -> Z.to_nat q :: seq (Z.to_nat (q + 1)) (Z.to_nat (n - (q + 1))) = seq (Z.to_nat q) (Z.to_nat (n - q)).
  Proof. intros H. replace (Z.to_nat (n - q)) with (S (Z.to_nat (n - (q + 1)))) by lia. cbn [seq]. replace (Z.to_nat (q + 1)) with (S (Z.to_nat q)) by lia. reflexivity. Qed.
  Lemma with_marks_cons r rest : rest <> [] -> with_marks (r :: rest) = r ++ [last r (0, 0)] ++ with_marks rest.
  Proof. destruct rest; [contradiction|reflexivity]. Qed.

  Lemma runs_exist w :
    (forall q, way [q] w -> (0 <= q < N)%Z -> exists x r rs, (forall l, picks l w = with_marks ((x :: r) :: rs)) /\ linked ok (x :: r) /\ Forall (fun r => r <> [] /\ linked ok r) rs
       /\ map fst (concat ((x :: r) :: rs)) = seq (Z.to_nat q) (Z.to_nat (N - q)))
    /\ (forall p a, way [p; a; (p + 1)%Z] w -> (0 <= p)%Z -> (p + 1 < N)%Z -> (0 <= a)%Z -> edge_at cands p a ->
       exists r rs, (Z.to_nat p, Z.to_nat a) :: picks (Some (Z.to_nat p, Z.to_nat a)) w = with_marks (((Z.to_nat p, Z.to_nat a) :: r) :: rs) /\ linked ok ((Z.to_nat p, Z.to_nat a) :: r)
         /\ Forall (fun r => r <> [] /\ linked ok r) rs /\ map fst (r ++ concat rs) = seq (Z.to_nat (p + 1)) (Z.to_nat (N - (p + 1)))).
  Proof.
    induction w as [|[[b a'] rw] w [IHa IHb]]; (split; [intros q W Hq|intros p x W Hp Hq Hx Ex]); try solve [inversion W].
    - inversion W as [s0 b1 a ns a0 r0 B O P|s0 b1 a ns a0 r0 w0 B O P W0]; subst; cbn in B; injection B as <-; destruct (edge_here q a Hq (or_introl O)) as [E H0];
        rewrite (pure_one q a H0 E) in P; injection P as <- <- <- D; set (ia := action2internal a) in *; (assert (G : (0 <=? ia)%Z = true) by (apply Z.leb_le; exact H0)).
      + apply Z.leb_le in D. exists (Z.to_nat q, Z.to_nat ia), [], []. split; [intros l; cbn [picks]; rewrite G; reflexivity|]. split; [exact I|]. split; [constructor|].
        cbn [concat map app fst]. replace (Z.to_nat (N - q)) with 1 by lia. reflexivity.
      + apply Z.leb_gt in D. destruct (IHb q ia W0) as (r & rs & E1 & E2 & E3 & E4); [lia|lia|exact H0|exact E|].
        exists (Z.to_nat q, Z.to_nat ia), r, rs. split; [intros l; cbn [picks]; rewrite G; exact E1|]. split; [exact E2|]. split; [exact E3|].
        cbn [concat]. rewrite <- app_comm_cons. cbn [map fst]. rewrite E4. apply seq_cut. lia.
    - inversion W as [s0 b1 a ns a0 r0 B O P|s0 b1 a ns a0 r0 w0 B O P W0]; subst; cbn in B; injection B as <-; destruct (edge_here (p + 1)%Z a ltac:(lia) (or_intror (ex_intro _ p (ex_intro _ x O)))) as [E H0];
        destruct (pure_three p x (p + 1)%Z a Hx Ex H0 E) as [rw' P']; rewrite P in P'; set (ia := action2internal a) in *; (assert (G : (0 <=? ia)%Z = true) by (apply Z.leb_le; exact H0));
        destruct (v_skip (judge [p; x; (p + 1)%Z] ia)) eqn:V; injection P' as -> -> -> D; symmetry in D.
      + apply Z.leb_le in D. lia.
      + apply Z.leb_le in D. exists [(Z.to_nat (p + 1), Z.to_nat ia)], []. cbn [picks]. rewrite G. split; [reflexivity|]. split; [cbn [linked]; split; [apply judged; auto; lia|exact I]|]. split; [constructor|].
        cbn [concat map app fst]. replace (Z.to_nat (N - (p + 1))) with 1 by lia. reflexivity.
      + destruct (IHa (p + 1)%Z W0) as (y & r & rs & E1 & E2 & E3 & E4); [lia|]. exists [], ((y :: r) :: rs). cbn [picks]. change (0 <=? skip)%Z with false. cbn match.
        rewrite E1. split; [reflexivity|]. split; [exact I|]. split; [constructor; [split; [discriminate|exact E2]|exact E3]|]. exact E4.
      + apply Z.leb_gt in D. destruct (IHb (p + 1)%Z ia W0) as (r & rs & E1 & E2 & E3 & E4); [lia|lia|exact H0|exact E|].
        exists ((Z.to_nat (p + 1), Z.to_nat ia) :: r), rs. cbn [picks]. rewrite G. split; [|split; [|split; [exact E3|]]].
        * rewrite E1. destruct rs as [|r2 rs]; [reflexivity|]. rewrite !with_marks_cons by discriminate. reflexivity.
        * cbn [linked]. split; [apply judged; auto; lia|exact E2].
        * rewrite <- app_comm_cons. cbn [map fst]. rewrite E4. apply seq_cut. lia.
  Qed.
End Runs.

(** *** The runs of the policy *)
Theorem C66_runs cands (first_reward : istate -> iaction -> Q) (judge : istate -> iaction -> @verdict Q) (ok : nat * nat -> nat * nat -> Prop) w :
  (forall p a q e, (0 <= p)%Z -> (0 <= a)%Z -> (0 <= q)%Z -> (0 <= e)%Z -> v_skip (judge [p; a; q] e) = false -> ok (Z.to_nat p, Z.to_nat a) (Z.to_nat q, Z.to_nat e)) ->
  Forall (fun n => 0 < n) cands -> cands <> [] -> way cands first_reward judge [0%Z] w ->
  exists runs, runs <> [] /\ picks None w = with_marks runs /\ Forall (fun r => r <> [] /\ linked ok r) runs /\ map fst (concat runs) = seq 0 (length cands).
Proof.
  intros J S Nn W. destruct (runs_exist cands first_reward judge ok J S w) as [H _]. destruct (H 0%Z W) as (x & r & rs & E1 & E2 & E3 & E4); [destruct cands; [contradiction|cbn [length]; lia]|].
  exists ((x :: r) :: rs). split; [discriminate|]. split; [apply E1|]. split; [constructor; [split; [discriminate|exact E2]|exact E3]|]. rewrite E4. f_equal; lia.
Qed.

(** *** The route of runs *)
Section Routes.
  Context {P L : Type}.
  Variable eqp : P -> P -> bool.
  Hypothesis eqp_eq : forall a b, eqp a b = true <-> a = b.
  Variable zeroL : L.
  Variable addL : L -> L -> L.
  Variable dist : P -> P -> L.
  Variable opposite : P * P -> P * P -> bool.
  Variable between : nat * nat -> nat * nat -> outcome (@route P).
  Variable in_edges : P -> bool.
  Variable place : nat * nat -> P.
  Variable ok : nat * nat -> nat * nat -> Prop.
  (** connected entries have a route between their places *)
  Hypothesis good : forall f t, ok f t -> exists r, between f t = Ok r /\ invalid r = false /\ path (place f) (lines r) (place t).
  Notation candidates_route := (candidates_route eqp zeroL addL dist opposite between in_edges).
  Notation routed := (routed between place).

  Lemma linked_routed pol : forall f, linked ok (f :: pol) -> NoDup (map fst (f :: pol)) -> exists rs, routed (f :: pol) rs.
  Proof.
    induction pol as [|t pol IH]; intros f Lk ND; [exists []; constructor|]. destruct Lk as [O Lk]. cbn [map] in ND. apply NoDup_cons_iff in ND. destruct ND as [Nf ND].
    destruct (IH t Lk ND) as [rs R]. destruct (good f t O) as (r & B & I & Hp). exists (r :: rs). constructor; auto. intros E. apply Nf. left. symmetry. exact E.
  Qed.
  Lemma not_marked r : NoDup (map fst r) -> ~ marked r.
  Proof.
    induction r as [|a r IH]; [intros _ []|]. destruct r as [|b r]; [intros _ []|]. intros ND [E|M]; cbn [map] in ND; apply NoDup_cons_iff in ND; destruct ND as [Na ND]; [apply Na; left; symmetry; exact E|exact (IH ND M)].
  Qed.

  (** what the route of a run is: it leads from its first to its last place, over the routes between its entries *)
  Definition run_route (join_merges : bool) (run : list (nat * nat)) (part : @route P) : Prop :=
    exists f pol rs, run = f :: pol /\ routed run rs /\ (invalid part = false <-> exists r l, In r rs /\ In l (lines r) /\ RouteProofs.moves l)
      /\ (invalid part = true -> part = flagged true)
      /\ (invalid part = false -> path (place f) (lines part) (place (last run f))
          /\ (if join_merges then thinner eqp opposite in_edges (poly eqp (place f) (concat (map lines rs))) (poly eqp (place f) (lines part))
              else poly eqp (place f) (lines part) = poly eqp (place f) (concat (map lines rs)))).

  Lemma run_has j run : run <> [] -> linked ok run -> NoDup (map fst run) -> exists part, candidates_route j run = Ok part /\ run_route j run part.
  Proof.
    intros Nn Lk ND. destruct run as [|f pol]; [contradiction|]. destruct (linked_routed pol f Lk ND) as [rs R].
    destruct (C54_connected eqp eqp_eq zeroL addL dist opposite between in_edges place j f pol rs R) as (t & E & I1 & I2 & I3).
    exists t. split; [exact E|]. exists f, pol, rs. split; [reflexivity|]. split; [exact R|]. split; [exact I1|]. split; [exact I3|exact I2].
  Qed.

  Theorem C66_route join_merges runs : runs <> [] -> Forall (fun r => r <> [] /\ linked ok r) runs -> NoDup (map fst (concat runs)) ->
    exists t parts, candidates_route join_merges (with_marks runs) = Ok t /\ Forall2 (run_route join_merges) runs parts
      /\ lines t = concat (map lines parts) /\ invalid t = forallb invalid parts.
  Proof.
    induction runs as [|run runs IH]; intros Nn F ND; [contradiction|]. inversion F as [|x l [Nr Lr] F']; subst. cbn [concat] in ND. rewrite map_app in ND.
    assert (ND1 : NoDup (map fst run)) by (apply NoDup_app' in ND || idtac; revert ND; generalize (map fst (concat runs)); intros l H; induction (map fst run) as [|y m IHm]; [constructor|]; cbn in H; apply NoDup_cons_iff in H; destruct H as [H1 H2]; constructor; [intros Hy; apply H1, in_or_app; left; exact Hy|apply IHm, H2]).
    assert (ND2 : NoDup (map fst (concat runs))) by (revert ND; induction (map fst run) as [|y m IHm]; [auto|]; cbn; intros H; apply NoDup_cons_iff in H; inversion ND1; subst; apply IHm; [assumption|apply H]).
    destruct (run_has join_merges run Nr Lr ND1) as (part & Ep & Rp). destruct runs as [|run2 runs].
    - cbn [with_marks]. exists part, [part]. split; [exact Ep|]. split; [constructor; [exact Rp|constructor]|]. cbn [map concat forallb]. rewrite app_nil_r, andb_true_r. auto.
    - destruct (IH ltac:(discriminate) F' ND2) as (t & parts & Et & Rt & Lt & It). rewrite with_marks_cons by discriminate.
      destruct (@exists_last _ run Nr) as (pre & f & ->). rewrite last_last. rewrite <- app_assoc. cbn [app].
      destruct (C54_skip eqp zeroL addL dist opposite between in_edges place join_merges pre f f (with_marks (run2 :: runs)) part t (not_marked _ ND1) eq_refl Ep Et) as (r & Er & Hl & Hi).
      exists r, (part :: parts). split; [exact Er|]. split; [constructor; assumption|]. cbn [map concat forallb]. rewrite Hl, Hi, Lt, It. auto.
  Qed.
End Routes.

(** *** Matching: learning and then putting the route together *)
Section Match.
  Variable f_distance f_length f_azimuth f_turn f_direction : Q.
  Variable seg_length seg_azimuth turn : nat -> option Q.
  Variable next_equal : nat -> bool.
  Variable equal_points : nat -> nat -> bool.
  Variable point_distance azimuth_between : nat -> nat -> Q.
  Variable direction_between : nat -> nat -> nat -> Q.
  Variable distances : list (list Q).
  Variable info : nat -> nat -> nat -> nat -> route_info.
  Variable attaches : nat -> nat -> nat -> nat -> nat -> nat -> bool.
  Variable return_length : nat -> nat -> nat -> nat -> nat -> nat -> option Q.
  Variable sort : list (nat * Q) -> list (nat * Q).
  Variable intelligent : bool.
  Variable discount threshold : Q.
  Notation cands := (map (@length Q) distances).
  Notation first := (mdp_first f_distance distances).
  Notation judge := (mdp_judge f_distance f_length f_azimuth f_turn f_direction true seg_length seg_azimuth turn next_equal
    equal_points point_distance azimuth_between direction_between distances info attaches return_length).
  Context {P L : Type}.
  Variable eqp : P -> P -> bool.
  Hypothesis eqp_eq : forall a b, eqp a b = true <-> a = b.
  Variable zeroL : L.
  Variable addL : L -> L -> L.
  Variable dist : P -> P -> L.
  Variable opposite : P * P -> P * P -> bool.
  Variable between : nat * nat -> nat * nat -> outcome (@route P).
  Variable in_edges : P -> bool.
  Variable place : nat * nat -> P.
  Definition valid_route (f t : nat * nat) : Prop := r_invalid (info (fst f) (snd f) (fst t) (snd t)) = false.

  (** If errors are skipped and every measurement has candidates, matching ends with a route: the policy is a sequence of runs with one edge for each
      measurement, each edge of a run is reached from the one before by a valid route, and the lines of the result are those of the runs. *)
  Theorem C66_match : (forall l, Permutation (sort l) l) -> lengths seg_length point_distance distances info return_length -> factors f_distance f_length f_azimuth f_turn f_direction ->
    (0 <= discount <= 1)%Q -> (0 < threshold)%Q -> distances <> [] -> ~ In [] distances ->
    (forall f t, valid_route f t -> exists r, between f t = Ok r /\ invalid r = false /\ path (place f) (lines r) (place t)) ->
    forall join_merges extra cur, exists k, forall fuel, k <= fuel -> exists e runs rewards t parts,
      e_learn cands 3 first judge sort intelligent discount threshold fuel extra cur = Ok (e, (with_marks runs, rewards))
      /\ map fst (concat runs) = seq 0 (length distances) /\ Forall (fun r => r <> [] /\ linked valid_route r) runs
      /\ candidates_route eqp zeroL addL dist opposite between in_edges join_merges (with_marks runs) = Ok t
      /\ lines t = concat (map lines parts) /\ invalid t = forallb invalid parts /\ Forall2 (run_route eqp opposite between in_edges place join_merges) runs parts.
  Proof.
    intros Hs Hl Hf Hd Ht Nn Ne Hb j extra cur.
    assert (S : Forall (fun n => 0 < n) cands) by (apply Forall_map, Forall_forall; intros l Hi; destruct l; [contradiction|cbn; lia]).
    assert (J : forall p a q e, (0 <= p)%Z -> (0 <= a)%Z -> (0 <= q)%Z -> (0 <= e)%Z -> v_skip (judge [p; a; q] e) = false -> valid_route (Z.to_nat p, Z.to_nat a) (Z.to_nat q, Z.to_nat e)).
    { intros p a q e Hp Ha Hq He V. unfold valid_route. cbn [fst snd].
      destruct (C63_skip f_distance f_length f_azimuth f_turn f_direction true seg_length seg_azimuth turn next_equal equal_points point_distance azimuth_between direction_between distances info attaches return_length [p; a; q] e Hl) as [_ K].
      unfold entry, from_back in K. cbn [length Nat.sub nth_error] in K. destruct (r_invalid (info (Z.to_nat p) (Z.to_nat a) (Z.to_nat q) (Z.to_nat e))) eqn:E; [|reflexivity].
      rewrite (proj2 K) in V; [discriminate V|]. split; [reflexivity|]. left. reflexivity. }
    destruct (C65_match f_distance f_length f_azimuth f_turn f_direction true seg_length seg_azimuth turn next_equal equal_points point_distance azimuth_between direction_between distances info attaches return_length
      sort intelligent discount threshold Hs Hl Hf Hd Ht extra cur) as [k H]. exists k. intros fuel Hk. destruct (H fuel Hk) as (e & w & Le & W & _).
    destruct (C66_runs cands first judge valid_route w J S ltac:(intros E; apply map_eq_nil in E; contradiction) W) as (runs & Rn & Rp & Rl & Rs).
    rewrite map_length in Rs.
    destruct (C66_route eqp eqp_eq zeroL addL dist opposite between in_edges place valid_route Hb j runs Rn Rl) as (t & parts & Et & Rt & Lt & It); [rewrite Rs; apply seq_NoDup|].
    exists e, runs, (map snd w), t, parts. rewrite <- Rp. split; [exact Le|]. split; [exact Rs|]. split; [exact Rl|]. rewrite Rp. auto.
  Qed.
End Match.

(** *** Example: the road of C54, whose candidates are at 20 or 2, 4, 20 or 25, 27 and 25 *)
Definition zlength (r : @route Z) : Q := fold_right (fun l x => (inject_Z (Z.abs (last l 0%Z - hd 0%Z l)%Z) + x)%Q) 0%Q (lines r).
Definition zinfo (p e q f : nat) : route_info := let t := shown (flagged true) (zbetween (p, e) (q, f)) in if invalid t then mkInfo true None None None else mkInfo false (Some (zlength t)) None None.
Definition zdistances : list (list Q) := [[2; 1]; [1]; [1; 2]; [1]; [1]]%Q.
Definition zjudge (skip_errors : bool) := mdp_judge 1 1 1 1 1 skip_errors (fun i => Some (nth i [3; 16; 6; 2] 0)%Q) (fun _ => None) (fun _ => None) (fun _ => false) (fun _ _ => false) (fun _ _ => 5%Q) (fun _ _ => 0%Q) (fun _ _ _ => 0%Q)
  zdistances zinfo (fun _ _ _ _ _ _ => true) (fun _ _ _ _ _ _ => None).
Definition zmatch (skip_errors : bool) :=
  match e_learn (map (@length Q) zdistances) 3 (mdp_first 1 zdistances) (zjudge skip_errors) worst_first false (99 # 100) (1 # 1000) 60 0 0 with
  | Ok (_, (p, _)) => Some (p, lines (shown (flagged true) (zwhole false p)))
  | _ => None
  end.
(** errors are skipped: the way from 27 to 25, against the road, is left out; the result is the route of the first run *)
Example C66_ex_match : zmatch true = Some ([(0, 1); (1, 0); (2, 0); (3, 0); (3, 0); (4, 0)], [[2; 4]; [4; 10]; [10; 20]; [20; 25; 27]]%Z)
  /\ with_marks [[(0, 1); (1, 0); (2, 0); (3, 0)]; [(4, 0)]] = [(0, 1); (1, 0); (2, 0); (3, 0); (3, 0); (4, 0)].
Proof. split; vm_compute; reflexivity. Qed.

Fixpoint pathb (p : Z) (ls : list (list Z)) (q : Z) : bool :=
  match ls with
  | [] => (p =? q)%Z
  | [] :: _ => false
  | (x :: t) :: ls' => (x =? p)%Z && pathb (last (x :: t) p) ls' q
  end.
Lemma pathb_path ls : forall p q, pathb p ls q = true -> path p ls q.
Proof.
  induction ls as [|[|x t] ls IH]; intros p q H; cbn [pathb] in H; [apply Z.eqb_eq in H; subst; apply path_nil|discriminate H|].
  apply andb_prop in H. destruct H as [E H]. apply Z.eqb_eq in E. subst x. eapply path_cons; [reflexivity|]. apply IH, H.
Qed.
Definition zplace (x : nat * nat) : Z := match nth_error zcands (fst x) with Some es => match nth_error es (snd x) with Some c => ce_point c | None => 0 end | None => 0 end.
Definition zspots : list (nat * nat) := [(0, 0); (0, 1); (1, 0); (2, 0); (2, 1); (3, 0); (4, 0)].
Lemma zspots_all x es c : nth_error zcands (fst x) = Some es -> nth_error es (snd x) = Some c -> In x zspots.
Proof.
  destruct x as [p e]. cbn [fst snd]. intros Hp He. unfold zcands in Hp.
  do 5 (destruct p as [|p]; [injection Hp as <-; do 2 (destruct e as [|e]; [try discriminate He; unfold zspots; cbn; tauto|]); destruct e; discriminate He|]). destruct p; discriminate Hp.
Qed.
Definition zgood (x y : nat * nat) : bool := match zbetween x y with Ok r => invalid r || pathb (zplace x) (lines r) (zplace y) | _ => true end.
Lemma zgood_all : forallb (fun x => forallb (zgood x) zspots) zspots = true.
Proof. vm_compute. reflexivity. Qed.
(** what [C66_match] asks for holds of the road *)
Example C66_ex_met : lengths (fun i => Some (nth i [3; 16; 6; 2] 0)%Q) (fun _ _ => 5%Q) zdistances zinfo (fun _ _ _ _ _ _ => None) /\ ~ In [] zdistances
  /\ forall f t, valid_route zinfo f t -> exists r, zbetween f t = Ok r /\ invalid r = false /\ path (zplace f) (lines r) (zplace t).
Proof.
  split; [|split; [cbn; intuition discriminate|]].
  - split.
    + intros i. do 4 (destruct i as [|i]; [cbn; lra|]). destruct i; cbn; lra.
    + intros. lra.
    + intros l Hi. cbn in Hi. repeat (destruct Hi as [<-|Hi]; [repeat constructor; lra|]). contradiction.
    + intros p e q f. unfold zinfo. destruct (invalid _); [exact I|]. cbn [r_length nonneg]. unfold zlength. induction (lines _) as [|l ls IH]; cbn [fold_right]; [lra|].
      assert (0 <= inject_Z (Z.abs (last l 0%Z - hd 0%Z l)))%Q by (change 0%Q with (inject_Z 0); rewrite <- Zle_Qle; lia). lra.
    + intros p e q f. unfold zinfo. destruct (invalid _); exact I.
    + intros. exact I.
  - intros [p e] [q f] V. unfold valid_route, zinfo in V. cbn [fst snd] in V. destruct (zbetween (p, e) (q, f)) as [r|x| |] eqn:Eb; try (cbn in V; discriminate V).
    cbn [shown] in V. destruct (invalid r) eqn:Ir; [discriminate V|]. exists r. split; [reflexivity|]. split; [exact Ir|].
    assert (S : In (p, e) zspots /\ In (q, f) zspots).
    { pose proof Eb as B. unfold zbetween, policy_between in B. destruct (nth_error zcands (fst (p, e))) as [es|] eqn:E1; [|discriminate B]. cbn [derefO] in B.
      destruct (nth_error es (snd (p, e))) eqn:E2; [|discriminate B]. cbn [derefO] in B. destruct (nth_error zcands (fst (q, f))) as [es'|] eqn:E3; [|discriminate B]. cbn [derefO] in B.
      destruct (nth_error es' (snd (q, f))) eqn:E4; [|discriminate B]. split; eapply zspots_all; eassumption. }
    pose proof (proj1 (forallb_forall _ _) zgood_all _ (proj1 S)) as G. cbn beta in G. pose proof (proj1 (forallb_forall _ _) G _ (proj2 S)) as G2. unfold zgood in G2. rewrite Eb, Ir in G2. apply pathb_path, G2.
Qed.

(** *** Measurements without candidates

    The policy holds the last edge once more for each of them, and the repetitions are read as marks of gaps in pairs: over one measurement without
    candidates there is a gap although the route is valid, over two there is a route. So that every measurement has a candidate is needed above. *)
Definition across (distances : list (list Q)) :=
  match e_learn (map (@length Q) distances) 3 (mdp_first 1 distances)
      (mdp_judge 1 1 1 1 1 true (fun i => Some 10%Q) (fun _ => None) (fun _ => None) (fun _ => false) (fun _ _ => false) (fun _ _ => 5%Q) (fun _ _ => 0%Q) (fun _ _ _ => 0%Q)
         distances (fun _ _ _ _ => mkInfo false (Some 10%Q) None None) (fun _ _ _ _ _ _ => true) (fun _ _ _ _ _ _ => None))
      worst_first false (99 # 100) (1 # 1000) 60 0 0 with
  | Ok (_, (p, _)) => Some (p, lines (shown (flagged true) (candidates_route Z.eqb 0%Z Z.add RouteProps.zdist RouteProps.zopp (fun f t => Ok (of_lines [[Z.of_nat (fst f); Z.of_nat (fst t)]])) (fun _ => true) false p)))
  | _ => None
  end.
Theorem C66_gap_refuted : across [[1]; [1]]%Q = Some ([(0, 0); (1, 0)], [[0; 1]]%Z)
  /\ across [[1]; []; [1]]%Q = Some ([(0, 0); (0, 0); (2, 0)], []) /\ across [[1]; []; []; [1]]%Q = Some ([(0, 0); (0, 0); (0, 0); (3, 0)], [[0; 3]]%Z).
Proof. repeat split; vm_compute; reflexivity. Qed.

Print Assumptions C66_runs.
Print Assumptions C66_route.
Print Assumptions C66_match.
Print Assumptions C66_gap_refuted.
