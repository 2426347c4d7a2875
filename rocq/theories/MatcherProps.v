(** C68: matching a track part by part. *)
From Coq Require Import ZArith NArith.
From Verif Require Import Base ListAux RichLine Route RouteProofs RouteProps Utils UtilsProps Matcher.
Local Open Scope nat_scope.

Section C68.
  Context {Track Env Line P L : Type}.
  Variable eqp : P -> P -> bool.
  Hypothesis eqp_eq : forall a b, eqp a b = true <-> a = b.
  Variable zeroL : L.
  Variable addL : L -> L -> L.
  Variable dist : P -> P -> L.
  Hypothesis add_assoc : forall a b c, addL a (addL b c) = addL (addL a b) c.
  Hypothesis add_0_l : forall a, addL zeroL a = a.

  Variable set : Track -> timer -> list tcall * Env.
  Variable learner : Env -> timer -> list tcall * outcome (list (nat * nat)).
  Variable env_line : Env -> Line.
  Variable result : Env -> list (nat * nat) -> outcome (@route P).
  Variable edges_list : @route P -> outcome (list nat).
  Variable export_edges_route : list nat -> @route P.
  Variable edge_ids : list nat -> list N.
  Variable export_edges export_edge_ids : bool.
  Notation match_loop := (match_loop set learner env_line result edges_list export_edges_route edge_ids export_edges export_edge_ids).
  Notation match_part := (match_part set learner env_line result edges_list export_edges_route edge_ids export_edges export_edge_ids).
  Notation match_track := (match_track eqp set learner env_line result edges_list export_edges_route edge_ids export_edges export_edge_ids).

  (** What is reported for one part of the track: its environment was set and, unless the time was up then, the learner ran on it; the route is the one
      of the policy, or consists of the edges along it, and the ids are those of these edges. *)
  Record entry := mkEntry { en_line : Line; en_policy : list (nat * nat); en_route : @route P; en_ids : list N; en_late : bool }.
  Definition reported (track : Track) (x : entry) : Prop :=
    exists t env, snd (set track t) = env /\ en_line x = env_line env
      /\ (if en_late x then en_policy x = [] else exists t1, tm_reached t1 = false /\ snd (learner env t1) = Ok (en_policy x))
      /\ exists r, result env (en_policy x) = Ok r
           /\ (if export_edges then exists es, edges_list r = Ok es /\ en_route x = export_edges_route es else en_route x = r)
           /\ (if export_edge_ids then exists es, edges_list r = Ok es /\ en_ids x = edge_ids es else en_ids x = []).
  Definition filled (m0 m : @matched Line P) (xs : list entry) : Prop :=
    m_prepared m = m_prepared m0 ++ map en_line xs /\ m_policies m = m_policies m0 ++ map en_policy xs
    /\ m_matches m = m_matches m0 ++ map en_route xs /\ m_ids m = m_ids m0 ++ concat (map en_ids xs).

  Lemma part_reported track now m t m1 t1 : match_part track now m t = Ok (m1, t1) ->
    exists x, reported track x /\ filled m m1 [x] /\ m_aborted m1 = m_aborted m /\ (en_late x = true -> tm_reached t1 = true)
      /\ exists cs, t1 = trun t cs /\ (forall c, In (CSetMax c) cs -> exists tr t0, In (CSetMax c) (fst (set tr t0)) \/ exists e, In (CSetMax c) (fst (learner e t0))).
  Proof.
    unfold Matcher.match_part. destruct (set track t) as [calls env] eqn:Es. set (t0 := update_and_has_reached (trun t calls) now).
    destruct (if tm_reached t0 then ([], Ok []) else learner env t0) as [calls2 answer] eqn:El. destruct answer as [policy|x| |]; try discriminate. cbn [bindO].
    destruct (result env policy) as [r|x| |] eqn:Er; try discriminate. cbn [bindO]. unfold exported.
    intros H. assert (X : exists r1 ids, (if export_edge_ids || export_edges then bindO (edges_list r) (fun _ => (r, [])) (fun es => Ok (if export_edges then export_edges_route es else r, if export_edge_ids then edge_ids es else [])) else Ok (r, [])) = Ok (r1, ids)
        /\ Ok (mkMatched (m_prepared m ++ [env_line env]) (m_policies m ++ [policy]) (m_matches m ++ [r1]) (m_ids m ++ ids) (m_aborted m), trun t0 calls2) = Ok (m1, t1)).
    { destruct (if export_edge_ids || export_edges then _ else _) as [[r1 ids]|x| |] eqn:Ee; try discriminate H. exists r1, ids. split; [reflexivity|exact H]. }
    clear H. destruct X as (r1 & ids & Ee & [= <- <-]).
    exists (mkEntry (env_line env) policy r1 ids (tm_reached t0)). split; [|split; [|split; [|split]]].
    - exists t, env. rewrite Es. split; [reflexivity|]. split; [reflexivity|]. cbn [en_late en_policy en_route en_ids]. split.
      + destruct (tm_reached t0) eqn:R; [injection El as <- <-; reflexivity|]. exists t0. rewrite El. auto.
      + exists r. split; [exact Er|]. destruct export_edge_ids, export_edges; cbn [orb] in Ee; try (injection Ee as <- <-; auto);
          destruct (edges_list r) as [es|x| |]; try discriminate Ee; cbn [bindO] in Ee; injection Ee as <- <-; split; eauto.
    - split; [reflexivity|]. split; [reflexivity|]. split; [reflexivity|]. cbn [map concat en_ids m_ids]. rewrite app_nil_r. reflexivity.
    - reflexivity.
    - cbn [en_late]. intros R. apply (C40_latch t0 calls2 R).
    - exists (calls ++ [CBoth now] ++ calls2). split; [unfold trun; rewrite !fold_left_app; reflexivity|]. intros c Hc. apply in_app_or in Hc. destruct Hc as [Hc|Hc].
      + exists track, t. left. rewrite Es. exact Hc.
      + apply in_app_or in Hc. destruct Hc as [[Hc|[]]|Hc]; [discriminate Hc|]. destruct (tm_reached t0); [injection El as <- _; contradiction|]. exists track, t0. right. exists env. rewrite El. exact Hc.
  Qed.

  Lemma loop_reported clock tracks : forall i m t m1 t1, tm_reached t = false -> m_aborted m = false -> match_loop clock i tracks m t = Ok (m1, t1) ->
    exists n xs, n <= length tracks /\ Forall2 reported (firstn n tracks) xs /\ filled m m1 xs /\ m_aborted m1 = tm_reached t1
      /\ (m_aborted m1 = false -> n = length tracks) /\ (m_aborted m1 = true -> 0 < n)
      /\ (forall k x, nth_error xs k = Some x -> en_late x = true -> m_aborted m1 = true /\ S k = n)
      /\ exists cs, t1 = trun t cs /\ (forall c, In (CSetMax c) cs -> exists tr t0, In (CSetMax c) (fst (set tr t0)) \/ exists e, In (CSetMax c) (fst (learner e t0))).
  Proof.
    induction tracks as [|tr tracks IH]; intros i m t m1 t1 R A H; cbn [Matcher.match_loop] in H.
    - injection H as <- <-. exists 0, []. split; [lia|]. split; [constructor|]. split; [unfold filled; cbn; rewrite !app_nil_r; auto|]. split; [congruence|]. split; [reflexivity|]. split; [congruence|].
      split; [intros k x Hk; destruct k; discriminate Hk|]. exists []. split; [reflexivity|intros c []].
    - destruct (match_part tr (clock i) m t) as [[m2 t2]|x| |] eqn:Ep; try discriminate H. cbn [bindO] in H.
      destruct (part_reported _ _ _ _ _ _ Ep) as (x & Rx & Fx & Ax & Lx & cs & Ec & Sc). destruct (tm_reached (reached t2)) eqn:R2.
      + injection H as <- <-. exists 1, [x]. split; [cbn; lia|]. split; [cbn [firstn]; constructor; [exact Rx|constructor]|]. split; [exact Fx|]. cbn [m_aborted]. split; [congruence|]. split; [discriminate|].
        split; [lia|]. split; [intros [|k] y Hy _; [auto|destruct k; discriminate Hy]|].
        exists (cs ++ [CReached]). split; [unfold trun; rewrite fold_left_app; fold (trun t cs); rewrite <- Ec; reflexivity|]. intros c Hc. apply in_app_or in Hc. destruct Hc as [Hc|[Hc|[]]]; [apply Sc, Hc|discriminate Hc].
      + destruct (IH (S i) m2 (reached t2) m1 t1 R2 ltac:(congruence) H) as (n & xs & Hn & Fxs & F & Am & Nn & N0 & La & cs2 & Ec2 & Sc2).
        exists (S n), (x :: xs). split; [cbn; lia|]. split; [cbn [firstn]; constructor; assumption|]. split.
        { destruct Fx as (F1 & F2 & F3 & F4). destruct F as (G1 & G2 & G3 & G4). unfold filled. rewrite G1, G2, G3, G4, F1, F2, F3, F4. cbn [map concat]. rewrite ?app_nil_r, <- ?app_assoc. auto. }
        split; [exact Am|]. split; [intros E; cbn; rewrite (Nn E); reflexivity|]. split; [lia|]. split.
        * intros [|k] y Hy Ly; cbn in Hy; [|destruct (La k y Hy Ly) as [K1 K2]; split; [exact K1|lia]]. injection Hy as <-. specialize (Lx Ly).
          unfold reached in R2. rewrite Lx in R2. congruence.
        * exists (cs ++ [CReached] ++ cs2). split; [unfold trun; rewrite !fold_left_app; fold (trun t cs); rewrite <- Ec; exact Ec2|]. intros c Hc. apply in_app_or in Hc. destruct Hc as [Hc|[Hc|Hc]]; [apply Sc, Hc|discriminate Hc|apply Sc2, Hc].
  Qed.

  (** The result has one prepared line, policy and route for each of the first parts of the track in their order, and the ids of these parts one after the
      other. It is not marked as aborted just if these are all the parts and the learner was run for each; else the time was up, and only the last one of
      them can have been left out. *)
  Theorem C68_parts clock start max tracks m t r : match_track clock start max tracks = Ok (m, t, r) ->
    exists n xs, n <= length tracks /\ Forall2 reported (firstn n tracks) xs
      /\ m_prepared m = map en_line xs /\ m_policies m = map en_policy xs /\ m_matches m = map en_route xs /\ m_ids m = concat (map en_ids xs)
      /\ (m_aborted m = false -> n = length tracks /\ Forall (fun x => en_late x = false) xs)
      /\ (m_aborted m = true -> 0 < n /\ Forall (fun x => en_late x = false) (removelast xs)) /\ m_aborted m = tm_reached t.
  Proof.
    unfold Matcher.match_track. destruct (match_loop clock 0 tracks _ _) as [[m1 t1]|x| |] eqn:El; try discriminate. cbn [bindO].
    destruct (merge eqp (m_matches m1) false false); try discriminate. cbn [bindO]. intros [= -> -> ->].
    destruct (loop_reported clock tracks 0 (mkMatched [] [] [] [] false) (timer_make start max) m t eq_refl eq_refl El) as (n & xs & Hn & Fxs & (F1 & F2 & F3 & F4) & Am & Nn & N0 & La & _).
    exists n, xs. repeat (split; [assumption|]). pose proof (Forall2_len _ _ _ Fxs) as Len. rewrite firstn_length, Nat.min_l in Len by exact Hn.
    assert (G : forall ys, (forall k x, nth_error ys k = Some x -> en_late x = false) -> Forall (fun x => en_late x = false) ys).
    { intros ys H. apply Forall_forall. intros x Hx. apply In_nth_error in Hx. destruct Hx as [k Hk]. apply (H k x Hk). }
    split; [|split; [|exact Am]].
    - intros A. split; [apply Nn, A|]. apply G. intros k x Hk. destruct (en_late x) eqn:E; [|reflexivity]. destruct (La k x Hk E). congruence.
    - intros A. split; [apply N0, A|]. apply G. intros k x Hk. destruct (en_late x) eqn:E; [exfalso|reflexivity].
      assert (Hl : k < length (removelast xs)) by (apply nth_error_Some; congruence).
      assert (Hr : nth_error xs k = Some x).
      { destruct xs as [|y ys]; [destruct k; discriminate Hk|]. rewrite (@app_removelast_last _ (y :: ys) y) by discriminate. rewrite nth_error_app1 by exact Hl. exact Hk. }
      destruct (La k x Hr E) as [_ K]. destruct xs as [|y ys]; [destruct k; discriminate Hk|]. rewrite (@app_removelast_last _ (y :: ys) y), app_length in Len by discriminate. cbn [length] in Len. lia.
  Qed.

  (** Where no other limit is set meanwhile, a result marked as aborted took at least the time allowed; without a limit none is. *)
  Theorem C68_limit clock start max tracks m t r : (forall tr t0 c, ~ In (CSetMax c) (fst (set tr t0))) -> (forall e t0 c, ~ In (CSetMax c) (fst (learner e t0))) ->
    match_track clock start max tracks = Ok (m, t, r) -> m_aborted m = true -> (0 < max)%Z /\ (max <= tm_current t - start)%Z.
  Proof.
    intros S1 S2. unfold Matcher.match_track. destruct (match_loop clock 0 tracks _ _) as [[m1 t1]|x| |] eqn:El; try discriminate. cbn [bindO].
    destruct (merge eqp (m_matches m1) false false); try discriminate. cbn [bindO]. intros [= -> -> ->] A.
    destruct (loop_reported clock tracks 0 (mkMatched [] [] [] [] false) (timer_make start max) m t eq_refl eq_refl El) as (n & xs & _ & _ & _ & Am & _ & _ & _ & cs & Ec & Sc).
    assert (I : forall cs t, (forall c, ~ In (CSetMax c) cs) -> tm_start t = start -> tm_max t = max -> (tm_reached t = true -> (0 < max)%Z /\ (max <= tm_current t - start)%Z) ->
       tm_start (trun t cs) = start /\ tm_max (trun t cs) = max /\ (tm_reached (trun t cs) = true -> (0 < max)%Z /\ (max <= tm_current (trun t cs) - start)%Z)).
    { clear. induction cs as [|c cs IH]; intros t N H1 H2 H3; [auto|]. unfold trun. cbn [fold_left]. fold (trun (fst (tstep t c)) cs).
      assert (K : tm_start (fst (tstep t c)) = start /\ tm_max (fst (tstep t c)) = max /\ (tm_reached (fst (tstep t c)) = true -> (0 < max)%Z /\ (max <= tm_current (fst (tstep t c)) - start)%Z)).
      { destruct c as [now| |now|x]; [| | |exfalso; apply (N x); left; reflexivity]; cbn [tstep fst]; unfold update_and_has_reached, reached, update, has_max;
          destruct (tm_reached t) eqn:R; rewrite ?R; cbn [tm_reached tm_start tm_max tm_current]; rewrite ?R; cbn [tm_reached tm_start tm_max tm_current]; auto; (split; [assumption|]); (split; [assumption|]);
          intros E; try discriminate E; apply andb_prop in E; destruct E as [E1 E2]; apply Z.ltb_lt in E1; apply Z.leb_le in E2; lia. }
      destruct K as (K1 & K2 & K3). apply IH; auto. intros x Hx. apply (N x). right. exact Hx. }
    destruct (I cs (timer_make start max)) as (_ & _ & K).
    - intros c Hc. destruct (Sc c Hc) as (tr & t0 & [Hi|(e & Hi)]); [apply (S1 _ _ _ Hi)|apply (S2 _ _ _ Hi)].
    - reflexivity.
    - reflexivity.
    - discriminate.
    - rewrite Ec. apply K. rewrite <- Ec. congruence.
  Qed.

  (** The route that is reported for the track consists of the routes of the parts, those that are invalid or do not move left out; its length is the sum
      of theirs. It is invalid just if all of them are. *)
  Theorem C68_route clock start max tracks m t r ks : match_track clock start max tracks = Ok (m, t, r) -> kept (m_matches m) ks ->
    lines r = concat (map lines ks) /\ (invalid r = true <-> forall x, In x (m_matches m) -> invalid x = true)
    /\ ((forall x, In x (m_matches m) -> invalid x = true -> lines x = []) ->
        total eqp zeroL addL dist (lines r) = fold_right (fun x l => addL (total eqp zeroL addL dist (lines x)) l) zeroL (m_matches m)).
  Proof.
    unfold Matcher.match_track. destruct (match_loop clock 0 tracks _ _) as [[m1 t1]|x| |]; try discriminate. cbn [bindO].
    destruct (merge eqp (m_matches m1) false false) as [r1|x| |] eqn:Em; try discriminate. cbn [bindO]. intros [= -> -> ->] K.
    destruct (C48_merge eqp eqp_eq zeroL addL dist add_assoc add_0_l (fun _ _ => false) _ _ K) as (r2 & E & H1 & H2 & H3). rewrite Em in E. injection E as <-. auto.
  Qed.
End C68.

(** *** Example: three parts, the environment of the second one takes long *)
Definition demo_set (tr : Z) (t : timer) : list tcall * Z := ([CBoth (tm_current t + tr)], tr).
Definition demo_learner (e : Z) (t : timer) : list tcall * outcome (list (nat * nat)) := ([CBoth (tm_current t + 1)], Ok [(0, Z.to_nat e); (1, 0)]).
Definition demo_result (e : Z) (p : list (nat * nat)) : outcome (@route Z) := Ok (match p with [] => flagged true | _ => of_lines [[e; e + 1]]%Z end).
Definition demo_match (max : Z) (tracks : list Z) :=
  match match_track Z.eqb demo_set demo_learner (fun e => e) demo_result (fun r => Ok (map (@length Z) (lines r))) (fun es => of_lines []) (map N.of_nat) false true (fun i => 100 + 10 * Z.of_nat i)%Z 100%Z max tracks with
  | Ok (m, t, r) => Some (m_policies m, m_ids m, m_aborted m, invalid r, lines r)
  | _ => None
  end.
Example C68_ex : demo_match 0 [2; 60; 3]%Z = Some ([[(0, 2); (1, 0)]; [(0, 60); (1, 0)]; [(0, 3); (1, 0)]], [2; 2; 2]%N, false, false, [[2; 3]; [60; 61]; [3; 4]]%Z)
  /\ demo_match 50 [2; 60; 3]%Z = Some ([[(0, 2); (1, 0)]; []], [2]%N, true, false, [[2; 3]]%Z) /\ demo_match 50 [2; 3]%Z = Some ([[(0, 2); (1, 0)]; [(0, 3); (1, 0)]], [2; 2]%N, false, false, [[2; 3]; [3; 4]]%Z).
Proof. repeat split; vm_compute; reflexivity. Qed.
Example C68_ex_met : (forall tr t0 c, ~ In (CSetMax c) (fst (demo_set tr t0))) /\ (forall e t0 c, ~ In (CSetMax c) (fst (demo_learner e t0))) /\ kept [of_lines [[2; 3]]%Z; flagged true] [of_lines [[2; 3]]%Z].
Proof.
  split; [intros tr t0 c [H|[]]; discriminate H|]. split; [intros e t0 c [H|[]]; discriminate H|]. apply kept_take; [split; [reflexivity|]|apply kept_drop; [intros [H _]; discriminate H|apply kept_nil]].
  exists [2; 3]%Z. split; [left; reflexivity|]. apply (moving_spec Z.eqb Z.eqb_eq). reflexivity.
Qed.
(** An aborted result may be complete: if the time is up when the learner of the last part has its policy, nothing is missing, and still the result is marked. *)
Theorem C68_complete_refuted : exists tracks, demo_match 11 tracks = Some ([[(0, 2); (1, 0)]; [(0, 3); (1, 0)]], [2; 2]%N, true, false, [[2; 3]; [3; 4]]%Z).
Proof. exists [2; 3]%Z. vm_compute. reflexivity. Qed.

Print Assumptions C68_parts.
Print Assumptions C68_limit.
Print Assumptions C68_route.
Print Assumptions C68_complete_refuted.
