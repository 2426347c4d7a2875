(** C65: value iteration on the step-wise environment finds, in the end, a way through the candidates of nearly the best return. *)
From Verif Require Import Base ListAux Env EnvProps Value ValueProps EnvLearn EnvLearnProofs HmmScoreProps MdpReward MdpRewardProps.
From Coq Require Import Lqa Sorted.
Open Scope nat_scope.

Section C65.
  Variable cands : list nat.
  Variable first_reward : istate -> iaction -> Q.
  Variable judge : istate -> iaction -> @verdict Q.
  Variable sort : list (nat * Q) -> list (nat * Q).
  Variable intelligent : bool.
  Variable discount threshold : Q.
  Notation env := (@env Q).
  Notation pure := (pure 0%Q cands 3 first_reward judge).
  Notation inv3 := (inv3 0%Q cands 3 first_reward judge).
  Notation offered := (offered cands).
  Notation learn_env := (e_learn cands 3 first_reward judge sort intelligent discount threshold).

  (** the ways from an internal state to the end: measurement, action as it is reported back, and reward of each step *)
  Inductive way : istate -> list (Z * iaction * Q) -> Prop :=
  | way_end s b a ns a' rw : back s = Some b -> offered s a -> pure s a = Ok (ns, a', rw, true) -> way s [(b, a', rw)]
  | way_on s b a ns a' rw w : back s = Some b -> offered s a -> pure s a = Ok (ns, a', rw, false) -> way ns w -> way s ((b, a', rw) :: w).
  Definition total (w : list (Z * iaction * Q)) : Q := return_of discount (map snd w).
  (** the policy belonging to it: an edge for each step; the last one again where the step gives none *)
  Fixpoint picks (last : option (nat * nat)) (w : list (Z * iaction * Q)) : list (nat * nat) :=
    match w with
    | [] => []
    | (b, a, _) :: r =>
        let e := if (0 <=? a)%Z then Some (Z.to_nat b, Z.to_nat a) else last in
        match e with Some x => x :: picks e r | None => picks None r end
    end.

  Section Tables.
    Hypothesis sort_perm : forall l, Permutation (sort l) l.
    Variable E : env.
    Variable states : list nat.
    Hypothesis KE : inv3 E.
    Hypothesis Ne : near cands E states.
    Hypothesis St : forall i s, In i states -> nth_error (st_list E) i = Some s -> settled_at cands first_reward judge E s.
    Notation acts := (acts_of cands first_reward judge sort intelligent E).
    Notation stp := (stp_of cands first_reward judge E).
    Hypothesis closed : forall s a, In s states -> In a (acts s) -> final stp s a = false -> In (next stp s a) states.

    Lemma back_action s a ns a' rw d : ok3 cands s -> offered s a -> pure s a = Ok (ns, a', rw, d) -> action2internal (internal2action a') = a'.
    Proof.
      intros K O P. destruct (C41_next _ _ _ _ _ _ _ _ _ _ _ P) as (b & B & H). destruct H as [(_ & ->)|[(_ & _ & ->)|(L & _)]].
      - destruct a as [|[|a]]; [reflexivity|reflexivity|]. unfold action2internal at 2 3. unfold internal2action, no_action, skip.
        replace (Z.of_nat (S (S a) - special_actions)) with (Z.of_nat a) by (unfold special_actions; lia).
        destruct (Z.eqb_spec (Z.of_nat a) (-1)); [lia|]. destruct (Z.eqb_spec (Z.of_nat a) (-2)); [lia|].
        replace (Z.to_nat (Z.of_nat a + Z.of_nat special_actions)) with (S (S a)) by (unfold special_actions; lia). unfold action2internal, special_actions. lia.
      - reflexivity.
      - destruct K as [(p & ->)|(p & x & q & -> & _)]; cbn in L; lia.
    Qed.

    Lemma table i s a : In i states -> nth_error (st_list E) i = Some s -> offered s a ->
      exists ns a' rw d j, pure s a = Ok (ns, a', rw, d) /\ nth_error (st_list E) j = Some ns /\ stp i a = (j, internal2action a', rw, d).
    Proof.
      intros Hi Ns O. destruct (pure_safe 0%Q cands 3 first_reward judge s a eq_refl (proj2 KE _ _ Ns) O) as (ns & a' & rw & d & P & _).
      pose proof (St i s Hi Ns a ns a' rw d O P) as I. apply In_nth_error in I. destruct I as [j Nj]. exists ns, a', rw, d, j. split; [exact P|]. split; [exact Nj|].
      unfold stp_of. rewrite Ns, P. assert (F : find_state (st_map E) ns = Some j) by (apply (find_wf _ _ _ _ _ E ns j (proj1 KE)), Nj). rewrite F. reflexivity.
    Qed.
    Lemma acts_in i s a : nth_error (st_list E) i = Some s -> In a (acts i) <-> offered s a.
    Proof. intros Ns. rewrite (acts_at cands first_reward judge sort intelligent E i s Ns). apply offers_in, sort_perm. Qed.

    Lemma walk_way w : forall i s, In i states -> nth_error (st_list E) i = Some s -> walk acts stp i w ->
      exists w', way s w' /\ map snd w' = gains stp w /\ forall last, picks last w' = entries stp (cand_of E) action2internal last w.
    Proof.
      induction w as [|[t a] w IH]; intros i s Hi Ns W.
      - apply walk_nil in W. exfalso. rewrite (acts_at cands first_reward judge sort intelligent E i s Ns) in W. exact (offers_some cands first_reward judge sort intelligent sort_perm s W).
      - apply walk_cons in W. destruct W as (-> & Ha & W). pose proof (proj1 (acts_in t s a Ns) Ha) as O. destruct (Ne t Hi) as (s' & b & Ns' & B & _). rewrite Ns in Ns'. injection Ns' as <-.
        destruct (table t s a Hi Ns O) as (ns & a' & rw & d & j & P & Nj & T). pose proof (back_action s a ns a' rw d (proj2 KE _ _ Ns) O P) as Ba.
        assert (Tk : taken stp t a = internal2action a') by (unfold taken; rewrite T; reflexivity). assert (Gn : gain stp t a = rw) by (unfold gain; rewrite T; reflexivity).
        assert (Fn : final stp t a = d) by (unfold final; rewrite T; reflexivity). assert (Nx : next stp t a = j) by (unfold next; rewrite T; reflexivity).
        assert (Ca : cand_of E t = Z.to_nat b) by (unfold cand_of; rewrite Ns, B; reflexivity).
        destruct W as [[F ->]|[F W]].
        + rewrite Fn in F. subst d. exists [(b, a', rw)]. split; [apply (way_end s b a ns a' rw B O P)|]. split; [cbn; rewrite Gn; reflexivity|].
          intros last. cbn [picks entries]. rewrite Tk, Ba, Ca. destruct (0 <=? a')%Z; reflexivity.
        + assert (Hj : In j states) by (rewrite <- Nx; apply closed; auto). rewrite Fn in F. subst d. rewrite Nx in W. destruct (IH j ns Hj Nj W) as (w' & W' & G & Pk).
          exists ((b, a', rw) :: w'). split; [apply (way_on s b a ns a' rw w' B O P W')|]. split; [cbn; rewrite Gn; f_equal; exact G|].
          intros last. cbn [picks entries]. rewrite Tk, Ba, Ca. destruct (0 <=? a')%Z; [rewrite Pk; reflexivity|]. destruct last; rewrite Pk; reflexivity.
    Qed.

    Lemma way_walk w' : forall i s, In i states -> nth_error (st_list E) i = Some s -> way s w' -> exists w, walk acts stp i w /\ gains stp w = map snd w'.
    Proof.
      induction w' as [|[[b a'] rw] w' IH]; intros i s Hi Ns W; [inversion W|]. inversion W as [s0 b0 a ns a0 r0 B O P|s0 b0 a ns a0 r0 w0 B O P W0]; subst.
      - destruct (table i s a Hi Ns O) as (ns2 & a2 & rw2 & d & j & P2 & Nj & T). rewrite P in P2. injection P2 as <- <- <- <-.
        exists [(i, a)]. split; [apply walk_end; [apply (acts_in i s a Ns), O|unfold final; rewrite T; reflexivity]|]. cbn. unfold gain. rewrite T. reflexivity.
      - destruct (table i s a Hi Ns O) as (ns2 & a2 & rw2 & d & j & P2 & Nj & T). rewrite P in P2. injection P2 as <- <- <- <-.
        assert (F : final stp i a = false) by (unfold final; rewrite T; reflexivity). assert (Nx : next stp i a = j) by (unfold next; rewrite T; reflexivity).
        assert (Hj : In j states) by (rewrite <- Nx; apply closed; [exact Hi|apply (acts_in i s a Ns), O|exact F]). destruct (IH j ns Hj Nj W0) as (w & W1 & G).
        exists ((i, a) :: w). split; [apply walk_on; [apply (acts_in i s a Ns), O|exact F|rewrite Nx; exact W1]|]. cbn. f_equal; [unfold gain; rewrite T; reflexivity|exact G].
    Qed.
  End Tables.

  Lemma least (l : list Q) : exists B, forall x, In x l -> (B <= x)%Q.
  Proof.
    induction l as [|y l [B IH]]; [exists 0%Q; intros x []|]. destruct (Qlt_le_dec y B) as [H|H].
    - exists y. intros x [<-|Hx]; [apply Qle_refl|]. specialize (IH x Hx). lra.
    - exists B. intros x [<-|Hx]; [exact H|apply IH, Hx].
  Qed.

  (** the rewards are not positive *)
  Definition costs : Prop := forall s new a rw new' a', reward 0%Q cands first_reward judge s new a = Ok (rw, new', a') -> (rw <= 0)%Q.
  Lemma costs_pure s a ns a' rw d : costs -> pure s a = Ok (ns, a', rw, d) -> (rw <= 0)%Q.
  Proof.
    intros H P. unfold EnvProps.pure in P. destruct (new_state 3 s (action2internal a)) as [n0|x| |]; try discriminate P. cbn [bindO] in P.
    destruct (reward 0%Q cands first_reward judge s n0 (action2internal a)) as [[[r n1] a1]|x| |] eqn:Er; try discriminate P. cbn [bindO] in P.
    destruct (is_done cands n1); try discriminate P. cbn in P. injection P as <- <- <- <-. apply (H _ _ _ _ _ _ Er).
  Qed.

  (** Learning ends without undefined behaviour, whatever the state the environment was left in; what it gives is the policy of a way from the first
      measurement to the end, with its rewards; and no way has a return better by more than the threshold for each step. *)
  Theorem C65_learn : (forall l, Permutation (sort l) l) -> costs -> (0 <= discount <= 1)%Q -> (0 < threshold)%Q ->
    forall extra cur, exists k, forall fuel, k <= fuel -> exists e w, learn_env fuel extra cur = Ok (e, (picks None w, map snd w)) /\ way [0%Z] w
      /\ forall w', way [0%Z] w' -> (total w' <= total w + inject_Z (Z.of_nat (length w)) * (discount * threshold))%Q.
  Proof.
    intros Hs Hc Hd Ht extra cur. destruct (learn_sim cands first_reward judge sort intelligent discount threshold Hs cur) as (E & states & highest & KE & N0 & Ne & St & G & L).
    set (acts := acts_of cands first_reward judge sort intelligent E) in *. set (stp := stp_of cands first_reward judge E) in *.
    set (U := length (universe cands)) in *.
    destruct (C49_states acts stp 0 U states highest (G U (le_n _))) as (ND & Re & Hi).
    pose proof (gen_closed acts stp 0 U states highest (G U (le_n _))) as Cl.
    assert (R0 : In 0 states) by (apply Re; constructor).
    assert (Rs : forall s, reached acts stp 0 s -> exists si, In s states /\ nth_error (st_list E) s = Some si).
    { intros s Hr. apply Re in Hr. destruct (Ne s Hr) as (si & p & Ns & _). eauto. }
    destruct (least (flat_map (fun s => map (reward_at cands first_reward judge s) (offers cands first_reward judge sort intelligent s)) (st_list E))) as [B HB].
    assert (Hg : forall s a, reached acts stp 0 s -> In a (acts s) -> (B <= gain stp s a <= 0)%Q).
    { intros s a Hr Ha. destruct (Rs s Hr) as (si & Hs' & Ns). pose proof (proj1 (acts_in Hs E s si a Ns) Ha) as O.
      destruct (table E states KE St s si a Hs' Ns O) as (ns & a' & rw & d & j & P & _ & T). fold stp in T. unfold gain. rewrite T. cbn [fst snd]. split; [|apply (costs_pure _ _ _ _ _ _ Hc P)].
      apply HB. apply in_flat_map. exists si. split; [apply (nth_error_In _ _ Ns)|]. apply in_map_iff. exists a. split; [unfold reward_at; rewrite P; reflexivity|]. apply offers_in; auto. }
    assert (Ends : exists k, forall fuel, k <= fuel -> exists p rs, learn acts stp 0 discount threshold (cand_of E) action2internal fuel extra = Ok (p, rs)).
    { apply (C49_ends acts stp 0 discount threshold (cand_of E) action2internal (length (st_list E)) B (fun i => match nth_error (st_list E) i with Some s => Z.to_nat (phi cands s) | None => 0 end)); auto.
      - intros s Hr. destruct (Rs s Hr) as (si & _ & Ns). apply nth_error_Some. congruence.
      - intros s a Hr Ha F. destruct (Rs s Hr) as (si & Hs' & Ns). pose proof (proj1 (acts_in Hs E s si a Ns) Ha) as O.
        destruct (table E states KE St s si a Hs' Ns O) as (ns & a' & rw & d & j & P & Nj & T). fold stp in T. unfold final in F. unfold next. rewrite T in *. cbn [fst snd] in *. subst d.
        rewrite Ns, Nj. destruct (pure_phi _ _ _ _ _ _ _ _ _ _ P) as [P1 P2]. lia. }
    destruct Ends as [k Hk]. exists (U + k). intros fuel Hf. destruct (Hk fuel) as (p & rs & Lr); [lia|]. destruct (L fuel extra (p, rs)) as (e & Le & _); [lia|exact Lr|].
    assert (Hn : forall s a, reached acts stp 0 s -> In a (acts s) -> (gain stp s a <= 0)%Q) by (intros s a Hr Ha; apply (Hg s a Hr Ha)).
    destruct (C49_greedy acts stp 0 discount threshold (cand_of E) action2internal fuel extra p rs (proj1 Hd) Hn Lr) as [(A & _)|(states2 & highest2 & V & w & _ & Gr)].
    { exfalso. unfold acts in A. rewrite (acts_at cands first_reward judge sort intelligent E 0 [0%Z] N0) in A. exact (offers_some cands first_reward judge sort intelligent Hs [0%Z] A). }
    assert (W : walk acts stp 0 w /\ p = entries stp (cand_of E) action2internal None w /\ rs = gains stp w) by tauto. destruct W as (W & Ep & Er).
    destruct (walk_way Hs E states KE Ne St Cl w 0 [0%Z] R0 N0 W) as (w' & W' & Gw & Pk).
    exists e, w'. rewrite Pk, Gw. fold stp. rewrite <- Ep, <- Er. split; [exact Le|]. split; [exact W'|].
    intros w2 W2. destruct (way_walk Hs E states KE St Cl w2 0 [0%Z] R0 N0 W2) as (v & Wv & Gv). unfold total.
    rewrite <- Gv. assert (Ll : length w' = length rs) by (rewrite Er; unfold stp; rewrite <- Gw, map_length; reflexivity). rewrite Ll, Gw. fold stp. rewrite <- Er.
    apply (C49_near_best acts stp 0 discount threshold (cand_of E) action2internal fuel extra p rs v); auto. lra.
  Qed.

  (** *** What a way looks like *)
  Lemma step_position s a ns a' rw d b : ok3 cands s -> back s = Some b -> offered s a -> pure s a = Ok (ns, a', rw, d) ->
    ok3 cands ns /\ d = (Z.of_nat (length cands) <=? match back ns with Some x => x | None => 0 end)%Z
    /\ ((back ns = Some (b + 1)%Z /\ (a' = no_action \/ edge_at cands b a')) \/ (back ns = Some b /\ a' = skip)).
  Proof.
    intros K B O P. destruct (pure_safe 0%Q cands 3 first_reward judge s a eq_refl K O) as (ns2 & a2 & rw2 & d2 & P2 & K2). rewrite P in P2. injection P2 as <- <- <- <-.
    split; [exact K2|]. destruct (pure_done _ _ _ _ _ _ _ _ _ _ _ P) as (x & Bx & Dx). rewrite Bx. split; [exact Dx|].
    destruct (C41_next _ _ _ _ _ _ _ _ _ _ _ P) as (b2 & B2 & H). rewrite B in B2. injection B2 as <-. destruct H as [(En & ->)|[(L & En & ->)|(L & _)]].
    - left. split; [|apply (offered_edge cands s a b B O)]. rewrite En in Bx. unfold back in Bx. rewrite rev_app_distr in Bx. cbn in Bx. rewrite Bx. reflexivity.
    - right. split; [|reflexivity]. destruct K as [(p & ->)|(p & y & q & -> & _)]; [cbn in L; lia|]. subst ns. cbn in *. congruence.
    - destruct K as [(p & ->)|(p & y & q & -> & _)]; cbn in L; lia.
  Qed.

  Definition place (x : Z * iaction * Q) : Z := fst (fst x).
  (** the measurements are passed in their order, none is left out, and the edges are those of their candidates *)
  Lemma way_places w : forall s b, way s w -> ok3 cands s -> back s = Some b ->
    StronglySorted (fun x y => place x <= place y)%Z w /\ Forall (fun x => b <= place x)%Z w
    /\ (forall c, (b <= c < Z.of_nat (length cands))%Z -> exists x, In x w /\ place x = c)
    /\ Forall (fun x => snd (fst x) = no_action \/ snd (fst x) = skip \/ edge_at cands (place x) (snd (fst x))) w.
  Proof.
    induction w as [|[[b0 a'] rw] w IH]; intros s b W K B; [inversion W|]. inversion W as [s0 b1 a ns a0 r0 B0 O P|s0 b1 a ns a0 r0 w0 B0 O P W0]; subst; rewrite B in B0; injection B0 as <-;
      destruct (step_position _ _ _ _ _ _ b K B O P) as (Kn & D & H).
    - split; [constructor; constructor|]. split; [constructor; [cbn; lia|constructor]|]. split.
      + intros c Hc. exists (b, a', rw). split; [left; reflexivity|]. cbn. symmetry in D. apply Z.leb_le in D. destruct H as [(Bn & _)|(Bn & _)]; rewrite Bn in D; lia.
      + constructor; [|constructor]. cbn. tauto.
    - assert (Bn : exists b', back ns = Some b' /\ (b <= b' <= b + 1)%Z) by (destruct H as [(Bn & _)|(Bn & _)]; eexists; (split; [exact Bn|lia])).
      destruct Bn as (b' & Bn & Hb). destruct (IH ns b' W0 Kn Bn) as (I1 & I2 & I3 & I4).
      assert (F : Forall (fun x => b <= place x)%Z w) by (eapply Forall_impl; [|exact I2]; cbn; intros x Hx; lia).
      split; [constructor; [exact I1|exact F]|]. split; [constructor; [cbn; lia|exact F]|]. split.
      + intros c Hc. destruct (Z.eq_dec b c) as [->|Hn]; [exists (c, a', rw); split; [left; reflexivity|reflexivity]|]. destruct (I3 c) as (x & Hx & Px); [lia|]. exists x. split; [right; exact Hx|exact Px].
      + constructor; [cbn; tauto|exact I4].
  Qed.

  Definition fine (x : nat * nat) : Prop := exists n, nth_error cands (fst x) = Some n /\ snd x < n.
  Lemma picks_fine w : forall last, Forall (fun x => snd (fst x) = no_action \/ snd (fst x) = skip \/ edge_at cands (place x) (snd (fst x))) w ->
    (forall x, last = Some x -> fine x) -> Forall fine (picks last w).
  Proof.
    induction w as [|[[b a] rw] w IH]; intros last F L; [constructor|]. inversion F as [|y l Fa F']; subst. cbn in Fa. cbn [picks].
    destruct (Z.leb_spec 0 a) as [H|H].
    - assert (Fx : fine (Z.to_nat b, Z.to_nat a)).
      { destruct Fa as [->|[->|(n & En & Hn)]]; [unfold no_action in H; lia|unfold skip in H; lia|]. exists n. cbn. unfold at_pos in En. destruct (b <? 0)%Z; [discriminate|]. split; [exact En|lia]. }
      constructor; [exact Fx|]. apply IH; [exact F'|]. intros x E. injection E as <-. exact Fx.
    - destruct last as [x|]; [constructor; [apply L; reflexivity|]|]; apply IH; auto; discriminate.
  Qed.
  Lemma picks_sorted w : forall last, StronglySorted (fun x y => place x <= place y)%Z w -> Forall (fun x => 0 <= place x)%Z w ->
    (forall x, last = Some x -> Forall (fun y => Z.of_nat (fst x) <= place y)%Z w) ->
    StronglySorted le (map fst (picks last w)) /\ (forall x y, last = Some x -> In y (picks last w) -> fst x <= fst y).
  Proof.
    induction w as [|[[b a] rw] w IH]; intros last S F L; [split; [constructor|intros x y _ []]|]. inversion S as [|y l S' Sf]; subst. inversion F as [|y l F0 F']; subst. cbn in F0.
    cbn [picks]. destruct (Z.leb_spec 0 a) as [H|H].
    - destruct (IH (Some (Z.to_nat b, Z.to_nat a)) S' F') as [I1 I2].
      { intros x E. injection E as <-. cbn [fst]. eapply Forall_impl; [|exact Sf]. cbn. intros y Hy. lia. }
      split.
      + cbn [map fst]. constructor; [exact I1|]. apply Forall_map. apply Forall_forall. intros y Hy. apply (I2 _ y eq_refl Hy).
      + intros x y E Hy. specialize (L x E). inversion L as [|z l L0 L']; subst. cbn in L0. destruct Hy as [<-|Hy]; [cbn; lia|]. specialize (I2 _ y eq_refl Hy). cbn [fst] in I2. lia.
    - destruct last as [x|].
      + specialize (L x eq_refl). inversion L as [|z l L0 L']; subst. destruct (IH (Some x) S' F') as [I1 I2]; [intros y E; injection E as <-; exact L'|].
        split; [cbn [map]; constructor; [exact I1|]; apply Forall_map, Forall_forall; intros y Hy; apply (I2 _ y eq_refl Hy)|]. intros z y E [<-|Hy]; injection E as <-; [lia|apply (I2 _ y eq_refl Hy)].
      + destruct (IH None S' F') as [I1 I2]; [discriminate|]. split; [exact I1|]. intros x y E; discriminate E.
  Qed.

  (** The policy can be used: its entries name edges that are there, and their measurements do not go back. *)
  Theorem C65_policy w : way [0%Z] w -> Forall (fun '(c, e) => exists n, nth_error cands c = Some n /\ e < n) (picks None w) /\ StronglySorted le (map fst (picks None w))
    /\ StronglySorted (fun x y => place x <= place y)%Z w /\ (forall c, c < length cands -> exists a rw, In (Z.of_nat c, a, rw) w).
  Proof.
    intros W. destruct (way_places w [0%Z] 0%Z W) as (S & F & C & E); [left; exists 0%Z; reflexivity|reflexivity|]. split; [|split; [|split; [exact S|]]].
    - eapply Forall_impl; [|apply (picks_fine w None E)]; [intros [c e] H; exact H|discriminate].
    - apply (picks_sorted w None S F). discriminate.
    - intros c Hc. destruct (C (Z.of_nat c)) as ([[b a] rw] & Hx & Px); [lia|]. cbn in Px. subst b. exists a, rw. exact Hx.
  Qed.
End C65.

(** *** With the rewards of the environment *)
Section Mdp.
  Variable f_distance f_length f_azimuth f_turn f_direction : Q.
  Variable skip_errors : bool.
  Variable seg_length seg_azimuth turn : nat -> option Q.
  Variable next_equal : nat -> bool.
  Variable equal_points : nat -> nat -> bool.
  Variable point_distance azimuth_between : nat -> nat -> Q.
  Variable direction_between : nat -> nat -> nat -> Q.
  Variable distances : list (list Q).
  Variable route : nat -> nat -> nat -> nat -> route_info.
  Variable attaches : nat -> nat -> nat -> nat -> nat -> nat -> bool.
  Variable return_length : nat -> nat -> nat -> nat -> nat -> nat -> option Q.
  Variable sort : list (nat * Q) -> list (nat * Q).
  Variable intelligent : bool.
  Variable discount threshold : Q.
  Notation cands := (map (@length Q) distances).
  Notation first := (mdp_first f_distance distances).
  Notation judge := (mdp_judge f_distance f_length f_azimuth f_turn f_direction skip_errors seg_length seg_azimuth turn next_equal
    equal_points point_distance azimuth_between direction_between distances route attaches return_length).

  (** For every track, network and candidates, with factors that are not negative: learning ends with the policy of a way whose return is the best
      one up to the threshold for each step, and its entries are edges of the candidates. *)
  Theorem C65_match : (forall l, Permutation (sort l) l) -> lengths seg_length point_distance distances route return_length -> factors f_distance f_length f_azimuth f_turn f_direction ->
    (0 <= discount <= 1)%Q -> (0 < threshold)%Q -> forall extra cur, exists k, forall fuel, k <= fuel ->
    exists e w, e_learn cands 3 first judge sort intelligent discount threshold fuel extra cur = Ok (e, (picks None w, map snd w)) /\ way cands first judge [0%Z] w
      /\ (forall w', way cands first judge [0%Z] w' -> (total discount w' <= total discount w + inject_Z (Z.of_nat (length w)) * (discount * threshold))%Q)
      /\ (total discount w <= 0)%Q
      /\ Forall (fun '(c, i) => exists l, nth_error distances c = Some l /\ i < length l) (picks None w) /\ StronglySorted le (map fst (picks None w)).
  Proof.
    intros Hs Hl Hf Hd Ht extra cur. assert (Hc : costs cands first judge) by (intros s new a rw new' a' H; exact (C63_reward _ _ _ _ _ _ _ _ _ _ _ _ _ _ _ _ _ _ s new a rw new' a' Hl Hf H)).
    destruct (C65_learn cands first judge sort intelligent discount threshold Hs Hc Hd Ht extra cur) as [k H]. exists k. intros fuel Hk. destruct (H fuel Hk) as (e & w & L & W & B).
    exists e, w. split; [exact L|]. split; [exact W|]. split; [exact B|]. destruct (C65_policy cands first judge w W) as (P1 & P2 & _). split; [|split; [|exact P2]].
    - clear - W Hc Hd. revert W. generalize [0%Z]. induction w as [|[[b a'] rw] w IH]; intros s W; [inversion W|]. inversion W as [s0 b1 a ns a0 r0 B0 O P|s0 b1 a ns a0 r0 w0 B0 O P W0]; subst; pose proof (costs_pure _ _ _ _ _ _ _ _ _ Hc P) as C0.
      + unfold total. cbn. lra.
      + specialize (IH ns W0). unfold total in *. cbn [map snd return_of fold_right]. fold (return_of discount (map snd w)). nra.
    - eapply Forall_impl; [|exact P1]. intros [c i] (n & En & Hn). rewrite nth_error_map in En. destruct (nth_error distances c) as [l|]; [|discriminate]. cbn in En. injection En as <-. eauto.
  Qed.
End Mdp.

(** *** Example: the demonstration of the rewards, where one edge of the second point is not reachable and the route to the third is too long *)
Definition worst_first (l : list (nat * Q)) : list (nat * Q) := rev l.
Definition run_demo (skip_errors : bool) := match e_learn (map (@length Q) demo_distances) 3 (mdp_first 1 demo_distances) (ex_judge skip_errors) worst_first true (99 # 100) (1 # 1000) 40 0 0
  with Ok (_, r) => Some r | _ => None end.
(** skipping errors: twice the route is given up and the matching begins anew at the same measurement; the policy repeats the edge before *)
Example C65_ex_skip : run_demo true = Some ([(0, 0); (0, 0); (1, 0); (1, 0); (2, 1)], [-9; -13; 0 # 10; -2479 # 3; -1 # 10]%Q).
Proof. vm_compute. reflexivity. Qed.
Example C65_ex_met : (forall l, Permutation (worst_first l) l) /\ lengths ex_seg (fun _ _ => 5%Q) demo_distances ex_route (fun _ _ _ _ _ _ => None) /\ factors 1 1 1 1 1 /\ (0 <= 99 # 100 <= 1)%Q /\ (0 < 1 # 1000)%Q.
Proof.
  split; [intros l; apply Permutation_sym, Permutation_rev|]. split; [exact ex_lengths|]. split; [exact ex_factors|]. split; [split; discriminate|reflexivity].
Qed.
(** Without skipping, an edge that no route leads to may be chosen though another edge can be reached: its penalty, the rest of the track, is
    smaller than the costs of the route. *)
Theorem C65_reachable_refuted : exists distances route judge, judge = ex_judge false /\ distances = demo_distances /\ route = ex_route
  /\ r_invalid (route 0 0 1 0) = true /\ r_invalid (route 0 0 1 1) = false
  /\ match e_learn (map (@length Q) distances) 3 (mdp_first 1 distances) judge worst_first true (99 # 100) (1 # 1000) 40 0 0 with Ok (_, (p, _)) => p = [(0, 0); (1, 0); (2, 1)] | _ => False end.
Proof. eexists demo_distances, ex_route, _. split; [reflexivity|]. split; [reflexivity|]. split; [reflexivity|]. split; [reflexivity|]. split; [reflexivity|]. vm_compute. reflexivity. Qed.

Print Assumptions C65_learn.
Print Assumptions C65_policy.
Print Assumptions C65_match.
