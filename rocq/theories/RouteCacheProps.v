(** C81: remembered attributes of routes. C82: remembered attributes of segments. *)
From Coq Require Import ZArith.
From Verif Require Import Base ListAux RichLine RichLineProofs RichLineProps RichAttrProps MultiRich MultiRichProps Route RouteDirs RouteDirsProps Assemble RouteCache.
Local Open Scope nat_scope.

Section C81.
  Context {P L A : Type}.
  Variable eqp : P -> P -> bool.
  Variable dist : P -> P -> L.
  Variable azi : P -> P -> A.
  Variable addL : L -> L -> L.
  Variable zeroL : L.
  Variable addA : A -> A -> A.
  Variable zeroA : A.
  Variable diffA : A -> A -> A.
  Variable absA : A -> A.
  Variable opposite : P * P -> P * P -> bool.
  Notation route := (@route P).
  Notation croute := (@croute P L A).
  Notation fresh := (@fresh P L A).
  Notation lazy_ask := (lazy_ask eqp dist azi addL zeroL addA zeroA diffA absA).
  Notation lazy_asks := (lazy_asks eqp dist azi addL zeroL addA zeroA diffA absA).
  Notation eager_of := (eager_of eqp dist azi addL zeroL addA zeroA diffA absA).
  Notation c_join := (@c_join P L A eqp opposite).
  Notation c_merge := (@c_merge P L A eqp).
  Notation dirs_loop := (dirs_loop eqp azi addA zeroA diffA absA).
  Notation compute_directions := (@compute_directions P L A eqp azi addA zeroA diffA absA).
  Notation compute_length := (@compute_length P L A eqp dist addL zeroL).
  Notation compute_azimuth := (@compute_azimuth P L A eqp azi zeroA).
  Notation turn := (turn eqp azi zeroA diffA).
  Notation rloop := (route_directions_loop eqp azi addA zeroA diffA).

  (** ** What the plain route says, route.hpp 130-424; where it raises because there is no value, the remembered value is "not valid" *)
  Definition told {V} (x : outcome V) : cv V := match x with Ok v => Val v | _ => Invalid end.
  Definition expected (r : route) (q : query) : @reply L A :=
    match q with
    | QConnected => RBool (is_connected eqp r)
    | QHasLength => RBool (has_length eqp zeroL addL dist r)
    | QLength => RLength (told (route_length eqp zeroL addL dist r))
    | QHasAzimuth => RBool (route_has_azimuth eqp r)
    | QAzimuth => RAngle (told (route_azimuth eqp azi zeroA r))
    | QHasDirections => RBool (match route_has_directions eqp azi diffA r with Ok b => b | _ => false end)
    | QDirections => RAngle (told (route_directions eqp azi addA zeroA diffA (fun x => x) r))
    | QAbsolute => RAngle (told (route_directions eqp azi addA zeroA diffA absA r))
    end.

  (** a line that ends with a step onto the only point of the next line *)
  Definition dangling (a b : list P) : Prop := exists u p q s, a = u ++ [p; q] /\ b = [s] /\ eqp q s = true /\ eqp p q = false.
  Definition sound (ls : list (list P)) : Prop := forall u a b v, ls = u ++ a :: b :: v -> ~ dangling a b.

  (** ** lengths *)
  Lemma length_loop_fold : forall ls acc, 2 <= length ls ->
    length_loop eqp zeroL addL dist ls acc = fold_left (fun acc l => add_line eqp zeroL addL dist l acc) ls acc.
  Proof.
    induction ls as [|a ls IH]; intros acc H; [cbn in H; lia|]. destruct ls as [|b [|c r]]; [cbn in H; lia|reflexivity|].
    change (length_loop eqp zeroL addL dist (a :: b :: c :: r) acc) with (length_loop eqp zeroL addL dist (b :: c :: r) (add_line eqp zeroL addL dist a acc)).
    rewrite IH by (cbn; lia). reflexivity.
  Qed.
  Lemma fold_has : forall ls acc, fst (fold_left (fun acc l => add_line eqp zeroL addL dist l acc) ls acc) = (fst acc || existsb (line_has_length eqp zeroL addL dist) ls)%bool.
  Proof.
    induction ls as [|a ls IH]; intros acc; cbn [fold_left existsb]; [destruct (fst acc); reflexivity|]. rewrite IH. unfold add_line, line_has_length.
    destruct (plain_length eqp dist addL zeroL a); cbn [fst]; destruct (fst acc); reflexivity.
  Qed.
  Lemma has_loop_existsb : forall ls, 2 <= length ls -> has_length_loop eqp zeroL addL dist ls = existsb (line_has_length eqp zeroL addL dist) ls.
  Proof.
    induction ls as [|a ls IH]; intros H; [cbn in H; lia|]. destruct ls as [|b [|c r]]; [cbn in H; lia| |].
    - cbn [has_length_loop existsb]. destruct (line_has_length eqp zeroL addL dist a), (line_has_length eqp zeroL addL dist b); reflexivity.
    - change (has_length_loop eqp zeroL addL dist (a :: b :: c :: r)) with (if line_has_length eqp zeroL addL dist a then true else has_length_loop eqp zeroL addL dist (b :: c :: r)).
      rewrite IH by (cbn; lia). cbn [existsb]. destruct (line_has_length eqp zeroL addL dist a); reflexivity.
  Qed.
  Lemma data_length_told : forall r, data_length eqp dist addL zeroL (lines r) = told (route_length eqp zeroL addL dist r).
  Proof.
    intros r. unfold data_length, route_length. destruct (lines r) as [|a [|b ls]] eqn:E; [reflexivity| |].
    - unfold line_has_length, of_outcome. destruct (plain_length eqp dist addL zeroL a); reflexivity.
    - rewrite <- (length_loop_fold (a :: b :: ls)) by (cbn; lia). destruct (length_loop eqp zeroL addL dist (a :: b :: ls) (false, zeroL)) as [[] x]; reflexivity.
  Qed.
  Lemma data_length_valid : forall r, valid_cv (data_length eqp dist addL zeroL (lines r)) = has_length eqp zeroL addL dist r.
  Proof.
    intros r. unfold data_length, has_length. destruct (lines r) as [|a [|b ls]] eqn:E; [reflexivity| |].
    - unfold line_has_length, of_outcome. destruct (plain_length eqp dist addL zeroL a); reflexivity.
    - rewrite has_loop_existsb by (cbn; lia). pose proof (fold_has (a :: b :: ls) (false, zeroL)) as H.
      destruct (fold_left _ (a :: b :: ls) (false, zeroL)) as [h x]. cbn [fst orb] in H. rewrite <- H. destruct h; reflexivity.
  Qed.

  (** ** azimuths *)
  Lemma data_azimuth_told : forall r, data_azimuth eqp azi zeroA (lines r) = told (route_azimuth eqp azi zeroA r).
  Proof.
    intros r. unfold data_azimuth, route_azimuth. destruct (lines r) as [|a [|b ls]]; [reflexivity| |].
    - destruct (plain_has_azimuth eqp a); reflexivity.
    - destruct (route_ends (a :: b :: ls)) as [[p q]|]; [destruct (eqp p q)|]; reflexivity.
  Qed.
  Lemma data_azimuth_valid : forall r, valid_cv (data_azimuth eqp azi zeroA (lines r)) = route_has_azimuth eqp r.
  Proof.
    intros r. unfold data_azimuth, route_has_azimuth. destruct (lines r) as [|a [|b ls]]; [reflexivity| |].
    - destruct a as [|p [|q a]]; [reflexivity|reflexivity|]. unfold plain_has_azimuth, plain_azimuth. destruct (eqp p (last (q :: a) q)); reflexivity.
    - destruct (route_ends (a :: b :: ls)) as [[p q]|]; [destruct (eqp p q)|]; reflexivity.
  Qed.

  (** ** turns *)
  Lemma turn_cases : forall a b, (dangling a b /\ turn a b = Throw None) \/ (~ dangling a b /\ exists t, turn a b = Ok t).
  Proof.
    intros a b. destruct (Nat.eq_dec (length b) 1) as [E|E].
    - destruct b as [|s [|]]; [discriminate| |discriminate].
      destruct (rev a) as [|q [|p u]] eqn:Er.
      + right. assert (a = []) as -> by (rewrite <- (rev_involutive a), Er; reflexivity). split; [|exists None; reflexivity].
        intros (u & p & q & s' & H & _). destruct u; discriminate.
      + right. assert (a = [q]) as -> by (rewrite <- (rev_involutive a), Er; reflexivity). split.
        * intros (u & p & q' & s' & H & _). destruct u as [|x [|y u]]; discriminate.
        * exists None. unfold RouteDirs.turn, has_turn. cbn [is_empty negb andb length Nat.leb]. rewrite andb_false_r. reflexivity.
      + assert (a = rev u ++ [p; q]) as Ea by (rewrite <- (rev_involutive a), Er; cbn; rewrite <- app_assoc; reflexivity).
        assert (is_empty a = false) as He by (rewrite Ea; destruct (rev u); reflexivity).
        assert ((2 <=? length a) = true) as Hl by (apply Nat.leb_le; rewrite Ea, app_length; cbn; lia).
        unfold RouteDirs.turn, has_turn, attaches. rewrite He, Er, Hl. cbn [is_empty negb andb]. unfold has_azimuth_at. rewrite (segment_last a p q u Er).
        destruct (eqp q s) eqn:Es; cbn [andb bindO].
        * destruct (eqp p q) eqn:Epq; cbn [negb bindO].
          -- right. split; [|exists None; reflexivity]. intros (u' & p' & q' & s' & H & _ & _ & H2). rewrite Ea in H.
             change [p; q] with ([p] ++ [q]) in H. change [p'; q'] with ([p'] ++ [q']) in H. rewrite !app_assoc in H.
             apply app_inj_tail in H. destruct H as [H ->]. apply app_inj_tail in H. destruct H as [_ ->]. congruence.
          -- left. split; [|reflexivity]. exists (rev u), p, q, s. auto.
        * right. split; [|exists None; reflexivity]. intros (u' & p' & q' & s' & H & Hs & H2 & _). injection Hs as <-. rewrite Ea in H.
          change [p; q] with ([p] ++ [q]) in H. change [p'; q'] with ([p'] ++ [q']) in H. rewrite !app_assoc in H.
          apply app_inj_tail in H. destruct H as [_ ->]. congruence.
    - right. split; [|exists (spec_joint eqp azi diffA a b); apply (turn_spec eqp azi zeroA diffA a b E)].
      intros (u & p & q & s & _ & -> & _). apply E. reflexivity.
  Qed.
  Lemma turn_attached : forall a b d, turn a b = Ok (Some d) -> attaches eqp a b = true.
  Proof.
    intros a b d. unfold RouteDirs.turn, has_turn. destruct (negb (is_empty a) && negb (is_empty b)); [|discriminate]. destruct (attaches eqp a b); [reflexivity|discriminate].
  Qed.
  Lemma add_ok : forall g l acc, add_directions eqp azi addA zeroA diffA g l acc = Ok (acc_of addA (listed (spec_dirs eqp azi addA zeroA diffA g l)) acc).
  Proof. exact (add_directions_spec eqp dist azi addL zeroL addA zeroA diffA). Qed.
  Lemma has_same : forall g l, some (spec_dirs eqp azi addA zeroA diffA (fun x => x) l) = some (spec_dirs eqp azi addA zeroA diffA g l).
  Proof.
    intros g l. rewrite <- (has_directions_spec eqp dist azi addL zeroL addA zeroA diffA l (fun x => x)). exact (has_directions_spec eqp dist azi addL zeroL addA zeroA diffA l g).
  Qed.
  Lemma add_both_spec : forall l s, exists h d a,
    add_both eqp azi addA zeroA diffA absA l s = Ok (mkS h d a (s_conn s)) /\
    add_directions eqp azi addA zeroA diffA (fun x => x) l (s_has s, s_dirs s) = Ok (h, d) /\
    add_directions eqp azi addA zeroA diffA absA l (s_has s, s_abs s) = Ok (h, a).
  Proof.
    intros l s. unfold add_both. rewrite !add_ok. pose proof (has_same absA l) as H.
    destruct (spec_dirs eqp azi addA zeroA diffA (fun x => x) l), (spec_dirs eqp azi addA zeroA diffA absA l); try discriminate; cbn [listed acc_of bindO snd];
      do 3 eexists; repeat split.
  Qed.

  Lemma rloop_cons : forall g a b r acc, rloop g (a :: b :: r) acc =
    bindO (turn a b) (fun _ => acc) (fun t =>
      bindO (add_directions eqp azi addA zeroA diffA g a (match t with Some d => (true, addA (snd acc) (g d)) | None => acc end)) (fun x => x) (fun acc2 =>
      bindO (match r with [] => add_directions eqp azi addA zeroA diffA g b acc2 | _ => Ok acc2 end) (fun x => x) (fun acc3 => rloop g (b :: r) acc3))).
  Proof. reflexivity. Qed.
  Lemma dirs_cons : forall a b r s, dirs_loop (a :: b :: r) s =
    bindO (turn a b) (fun _ => s) (fun t =>
      bindO (add_both eqp azi addA zeroA diffA absA a (match t with
         | Some d => mkS true (addA (s_dirs s) d) (addA (s_abs s) (absA d)) (s_conn s)
         | None => mkS (s_has s) (s_dirs s) (s_abs s) (s_conn s && (is_empty a || is_empty b || attaches eqp a b)) end)) (fun x => x) (fun s2 =>
      bindO (match r with [] => add_both eqp azi addA zeroA diffA absA b s2 | _ => Ok s2 end) (fun x => x) (fun s3 => dirs_loop (b :: r) s3))).
  Proof. reflexivity. Qed.

  Lemma sound_tail : forall a ls, sound (a :: ls) -> sound ls.
  Proof. intros a ls H u x y v ->. apply (H (a :: u) x y v). reflexivity. Qed.

  (** one round of the loop: both sums, and whether the route is connected up to here *)
  Lemma dirs_round : forall a b r s, ~ dangling a b -> exists h d z,
    let s' := mkS h d z (s_conn s && (is_empty a || is_empty b || attaches eqp a b)) in
    dirs_loop (a :: b :: r) s = dirs_loop (b :: r) s' /\ rloop (fun x => x) (a :: b :: r) (s_has s, s_dirs s) = rloop (fun x => x) (b :: r) (h, d)
    /\ rloop absA (a :: b :: r) (s_has s, s_abs s) = rloop absA (b :: r) (h, z).
  Proof.
    intros a b r s Nd. destruct (turn_cases a b) as [[Hd _]|[_ [t Ht]]]; [contradiction|].
    set (c := (s_conn s && (is_empty a || is_empty b || attaches eqp a b))%bool).
    set (s1 := match t with Some d => mkS true (addA (s_dirs s) d) (addA (s_abs s) (absA d)) c | None => mkS (s_has s) (s_dirs s) (s_abs s) c end).
    destruct (add_both_spec a s1) as (h2 & d2 & z2 & A1 & A2 & A3).
    assert (s_conn s1 = c) as Ec by (unfold s1; destruct t; reflexivity).
    assert (dirs_loop (a :: b :: r) s = bindO (add_both eqp azi addA zeroA diffA absA a s1) (fun x => x) (fun s2 =>
      bindO (match r with [] => add_both eqp azi addA zeroA diffA absA b s2 | _ => Ok s2 end) (fun x => x) (fun s3 => dirs_loop (b :: r) s3))) as E1.
    { rewrite dirs_cons, Ht. cbn [bindO]. unfold s1. destruct t as [d|]; [|reflexivity]. unfold c. rewrite (turn_attached a b d Ht), !orb_true_r, andb_true_r. reflexivity. }
    assert ((s_has s1, s_dirs s1) = match t with Some d => (true, addA (s_dirs s) d) | None => (s_has s, s_dirs s) end) as E2 by (unfold s1; destruct t; reflexivity).
    assert ((s_has s1, s_abs s1) = match t with Some d => (true, addA (s_abs s) (absA d)) | None => (s_has s, s_abs s) end) as E3 by (unfold s1; destruct t; reflexivity).
    rewrite E1, !rloop_cons, Ht, A1. cbn [bindO snd]. rewrite <- E2, <- E3, A2, A3, Ec. cbn [bindO].
    destruct r as [|c' r].
    - destruct (add_both_spec b (mkS h2 d2 z2 c)) as (h3 & d3 & z3 & B1 & B2 & B3). cbn [s_has s_dirs s_abs s_conn] in B1, B2, B3. rewrite B1, B2, B3. cbn [bindO]. exists h3, d3, z3. auto.
    - cbn [bindO]. exists h2, d2, z2. auto.
  Qed.
  Lemma dirs_spec : forall ls s, sound ls -> exists h d z,
    dirs_loop ls s = Ok (mkS h d z (s_conn s && connected_loop eqp ls)) /\ rloop (fun x => x) ls (s_has s, s_dirs s) = Ok (h, d) /\ rloop absA ls (s_has s, s_abs s) = Ok (h, z).
  Proof.
    induction ls as [|a ls IH]; intros s F.
    - exists (s_has s), (s_dirs s), (s_abs s). cbn. rewrite andb_true_r. destruct s; auto.
    - destruct ls as [|b r]; [exists (s_has s), (s_dirs s), (s_abs s); cbn; rewrite andb_true_r; destruct s; auto|].
      destruct (dirs_round a b r s (F [] a b r eq_refl)) as (h & d & z & -> & -> & ->).
      destruct (IH (mkS h d z (s_conn s && (is_empty a || is_empty b || attaches eqp a b))) (sound_tail _ _ F)) as (h' & d' & z' & E1 & E2 & E3).
      cbn [s_has s_dirs s_abs s_conn] in E1, E2, E3. rewrite E1, E2, E3. exists h', d', z'. rewrite <- andb_assoc. auto.
  Qed.
  (** the first such line ends the loop *)
  Lemma dirs_raise : forall u a b v s, sound (u ++ [a]) -> dangling a b -> exists h d z,
    dirs_loop (u ++ a :: b :: v) s = Throw (mkS h d z (s_conn s && connected_loop eqp (u ++ [a]))).
  Proof.
    induction u as [|x u IH]; intros a b v s F D.
    - cbn [app]. rewrite dirs_cons. destruct (turn_cases a b) as [[_ ->]|[N _]]; [|contradiction]. cbn [bindO connected_loop]. rewrite andb_true_r. destruct s. do 3 eexists. reflexivity.
    - destruct (u ++ a :: b :: v) as [|y w] eqn:E; [destruct u; discriminate|].
      assert (exists w', u ++ [a] = y :: w') as [w' E'] by (destruct u; cbn in *; injection E as <- _; eexists; reflexivity).
      cbn [app]. rewrite E, E' in *. cbn [app] in F. rewrite E' in F.
      destruct (dirs_round x y w s) as (h & d & z & -> & _); [apply (F [] x y w' eq_refl)|].
      rewrite <- E. destruct (IH a b v (mkS h d z (s_conn s && (is_empty x || is_empty y || attaches eqp x y)))) as (h' & d' & z' & ->).
      + rewrite E'. apply (sound_tail x). exact F.
      + exact D.
      + exists h', d', z'. cbn [s_conn]. change (connected_loop eqp (x :: y :: w')) with ((is_empty x || is_empty y || attaches eqp x y) && connected_loop eqp (y :: w'))%bool.
        rewrite E', andb_assoc. reflexivity.
  Qed.

  Lemma turn_has : forall a b t, turn a b = Ok t -> has_turn eqp a b = Ok (some t).
  Proof.
    intros a b t. unfold RouteDirs.turn. destruct (has_turn eqp a b) as [[]|x| |]; cbn [bindO]; try discriminate; [|intros [= <-]; reflexivity].
    destruct (azimuth_at eqp azi zeroA a (length a - 2)); cbn [bindO]; try discriminate. destruct (azimuth_at eqp azi zeroA b 0); cbn [bindO]; try discriminate. intros [= <-]. reflexivity.
  Qed.
  Lemma add_has : forall g l h x, exists y, add_directions eqp azi addA zeroA diffA g l (h, x) = Ok ((h || plain_has_directions eqp azi diffA l)%bool, y).
  Proof.
    intros g l h x. rewrite add_ok, (has_directions_spec eqp dist azi addL zeroL addA zeroA diffA l g).
    destruct (spec_dirs eqp azi addA zeroA diffA g l) as [v|]; cbn [listed acc_of some]; [rewrite orb_true_r|rewrite orb_false_r]; eexists; reflexivity.
  Qed.
  Lemma has_cons : forall a b r, route_has_directions_loop eqp azi diffA (a :: b :: r) =
    bindO (has_turn eqp a b) (fun x => x) (fun t => if t then Ok true else if plain_has_directions eqp azi diffA a then Ok true
        else if match r with [] => plain_has_directions eqp azi diffA b | _ => false end then Ok true else route_has_directions_loop eqp azi diffA (b :: r)).
  Proof. reflexivity. Qed.
  Lemma has_loop_sound : forall g ls, sound ls -> exists hh, route_has_directions_loop eqp azi diffA ls = Ok hh /\
    forall h0 x, exists y, rloop g ls (h0, x) = Ok ((h0 || hh)%bool, y).
  Proof.
    intros g. induction ls as [|a ls IH]; intros F; [exists false; split; [reflexivity|]; intros h0 x; exists x; cbn; rewrite orb_false_r; reflexivity|].
    destruct ls as [|b r]; [exists false; split; [reflexivity|]; intros h0 x; exists x; cbn; rewrite orb_false_r; reflexivity|].
    destruct (turn_cases a b) as [[Hd _]|[_ [t Ht]]]; [destruct (F [] a b r eq_refl Hd)|].
    destruct (IH (sound_tail _ _ F)) as (hh & E & Hr). pose proof (turn_has a b t Ht) as Hh. rewrite has_cons, Hh. cbn [bindO].
    set (ra := plain_has_directions eqp azi diffA a). set (rb := match r with [] => plain_has_directions eqp azi diffA b | _ => false end).
    exists (some t || ra || rb || hh)%bool. split; [destruct (some t), ra, rb; cbn [orb]; auto|].
    intros h0 x. rewrite rloop_cons, Ht. cbn [bindO snd].
    set (acc := match t with Some d => (true, addA x (g d)) | None => (h0, x) end).
    assert (exists x1, acc = ((h0 || some t)%bool, x1)) as [x1 ->] by (unfold acc; destruct t; cbn [some]; [rewrite orb_true_r|rewrite orb_false_r]; eexists; reflexivity).
    destruct (add_has g a (h0 || some t) x1) as [x2 ->]. cbn [bindO]. fold ra. unfold rb. destruct r as [|c r].
    - destruct (add_has g b (h0 || some t || ra) x2) as [x3 ->]. cbn [bindO]. destruct (Hr (h0 || some t || ra || plain_has_directions eqp azi diffA b)%bool x3) as [y ->].
      exists y. rewrite !orb_assoc. reflexivity.
    - cbn [bindO]. destruct (Hr (h0 || some t || ra)%bool x2) as [y ->]. exists y. rewrite orb_false_r, !orb_assoc. reflexivity.
  Qed.

  (** ** What is remembered: nothing or what the plain route says *)
  Definition dirs_of (c : croute) : Prop := let r := c_route c in
    c_dirs c = told (route_directions eqp azi addA zeroA diffA (fun x => x) r) /\ c_abs c = told (route_directions eqp azi addA zeroA diffA absA r) /\
    c_conn c = is_connected eqp r /\ route_has_directions eqp azi diffA r = Ok (valid_cv (c_dirs c)) /\ valid_cv (c_abs c) = valid_cv (c_dirs c).
  Definition coherent (c : croute) : Prop := let r := c_route c in
    (c_len c = Uninit \/ c_len c = told (route_length eqp zeroL addL dist r)) /\ (c_az c = Uninit \/ c_az c = told (route_azimuth eqp azi zeroA r)) /\
    ((c_dirs c = Uninit /\ c_abs c = Uninit) \/ dirs_of c).

  Lemma fresh_coherent : forall r, coherent (fresh r).
  Proof. intros r. unfold coherent, RouteCache.fresh. cbn [c_len c_az c_dirs c_abs]. auto. Qed.
  Lemma length_step : forall c, coherent c -> coherent (compute_length c) /\ c_route (compute_length c) = c_route c /\ c_len (compute_length c) = told (route_length eqp zeroL addL dist (c_route c)).
  Proof.
    intros c (H1 & H2 & H3). unfold RouteCache.compute_length. destruct (initialized (c_len c)) eqn:E.
    - assert (c_len c = told (route_length eqp zeroL addL dist (c_route c))) as Ec by (destruct H1 as [H1|H1]; [rewrite H1 in E; discriminate|exact H1]).
      split; [split; [right; exact Ec|split; [exact H2|exact H3]]|auto].
    - cbn [c_route c_len]. rewrite data_length_told. split; [|auto]. split; [right; reflexivity|]. split; [exact H2|exact H3].
  Qed.
  Lemma azimuth_step : forall c, coherent c -> coherent (compute_azimuth c) /\ c_route (compute_azimuth c) = c_route c /\ c_az (compute_azimuth c) = told (route_azimuth eqp azi zeroA (c_route c)).
  Proof.
    intros c (H1 & H2 & H3). unfold RouteCache.compute_azimuth. destruct (initialized (c_az c)) eqn:E.
    - assert (c_az c = told (route_azimuth eqp azi zeroA (c_route c))) as Ec by (destruct H2 as [H2|H2]; [rewrite H2 in E; discriminate|exact H2]).
      split; [split; [exact H1|split; [right; exact Ec|exact H3]]|auto].
    - cbn [c_route c_az]. rewrite data_azimuth_told. split; [|auto]. split; [exact H1|]. split; [right; reflexivity|exact H3].
  Qed.
  Lemma told_init : forall V (x : outcome V), initialized (told x) = true. Proof. intros V []; reflexivity. Qed.
  Lemma directions_step : forall c, sound (lines (c_route c)) -> coherent c -> snd (compute_directions c) = false /\
    c_route (fst (compute_directions c)) = c_route c /\ coherent (fst (compute_directions c)) /\ dirs_of (fst (compute_directions c)).
  Proof.
    intros c F (H1 & H2 & H3). unfold RouteCache.compute_directions. destruct (initialized (c_dirs c) && initialized (c_abs c)) eqn:E.
    - cbn [fst snd]. assert (dirs_of c) as D by (destruct H3 as [[H3 _]|H3]; [rewrite H3 in E; discriminate|exact H3]).
      split; [reflexivity|]. split; [reflexivity|]. split; [split; [exact H1|split; [exact H2|right; exact D]]|exact D].
    - cut (forall c', c_route c' = c_route c -> c_len c' = c_len c -> c_az c' = c_az c -> dirs_of c' -> false = false /\ c_route c' = c_route c /\ coherent c' /\ dirs_of c').
      2:{ intros c' E1 E2 E3 D. split; [reflexivity|]. split; [exact E1|]. split; [|exact D]. unfold coherent. rewrite E1, E2, E3. split; [exact H1|]. split; [exact H2|right; exact D]. }
      intros K. destruct (lines (c_route c)) as [|a [|b ls]] eqn:El.
      + apply K; try reflexivity. unfold dirs_of. cbn [fst snd c_route c_dirs c_abs c_conn]. unfold route_directions, route_has_directions, is_connected. rewrite El. repeat split.
      + rewrite (has_directions_spec eqp dist azi addL zeroL addA zeroA diffA a (fun x => x)).
        destruct (plain eqp dist azi addL zeroL addA zeroA diffA a) as (_ & _ & Pd & _).
        destruct (some (spec_dirs eqp azi addA zeroA diffA (fun x => x) a)) eqn:Es; apply K; try reflexivity; unfold dirs_of; cbn [fst snd c_route c_dirs c_abs c_conn];
          unfold route_directions, route_has_directions, is_connected; rewrite El, (has_directions_spec eqp dist azi addL zeroL addA zeroA diffA a (fun x => x)), Es;
          [|repeat split]. unfold of_outcome. rewrite !Pd. rewrite (has_same absA) in Es.
        destruct (spec_dirs eqp azi addA zeroA diffA absA a) eqn:E1; [|discriminate]. pose proof (has_same absA a) as E2. rewrite E1 in E2.
        destruct (spec_dirs eqp azi addA zeroA diffA (fun x => x) a); [|discriminate]. repeat split.
      + destruct (dirs_spec (a :: b :: ls) (mkS false zeroA zeroA true) F) as (h & d & z & E1 & E2 & E3). rewrite E1. cbn [s_has s_dirs s_abs s_conn fst snd andb] in *.
        destruct (has_loop_sound (fun x => x) (a :: b :: ls) F) as (hh & E4 & E5). destruct (E5 false zeroA) as [y E6]. rewrite E2 in E6. cbn [orb] in E6. injection E6 as <- <-.
        apply K; try (destruct h; reflexivity). unfold dirs_of. destruct h; cbn [fst snd c_route c_dirs c_abs c_conn]; unfold route_directions, route_has_directions, is_connected;
          rewrite El, E2, E3, E4; cbn [bindO]; repeat split.
  Qed.

  (** ** A lazy route answers every sequence of questions as the plain route of its lines does. *)
  Lemma ask_step : forall c q, sound (lines (c_route c)) -> coherent c ->
    coherent (fst (lazy_ask c q)) /\ c_route (fst (lazy_ask c q)) = c_route c /\ snd (lazy_ask c q) = Some (expected (c_route c) q).
  Proof.
    intros c q F H. pose proof (length_step c H) as (L1 & L2 & L3). pose proof (azimuth_step c H) as (A1 & A2 & A3).
    pose proof (directions_step c F H) as (D1 & D2 & D3 & D4 & D5 & D6 & D7 & D8).
    unfold RouteCache.lazy_ask. destruct (compute_directions c) as [c' raised]. cbn [fst snd] in D1, D2, D3, D4, D5, D6, D7, D8. subst raised.
    destruct q; cbn [fst snd read]; split; try assumption; split; try assumption; unfold expected; rewrite ?L3, ?A3; rewrite <- ?D2, ?D4, ?D5, ?D6; try reflexivity.
    - rewrite <- data_length_valid, <- data_length_told. reflexivity.
    - rewrite <- data_azimuth_valid, <- data_azimuth_told. reflexivity.
    - rewrite D7, <- D4, <- D5, D8. destruct (valid_cv (c_dirs c')); reflexivity.
  Qed.
  Lemma asks_coherent : forall qs c, sound (lines (c_route c)) -> coherent c -> snd (lazy_asks c qs) = map (fun q => Some (expected (c_route c) q)) qs /\
    c_route (fst (lazy_asks c qs)) = c_route c.
  Proof.
    induction qs as [|q qs IH]; intros c F H; [split; reflexivity|]. destruct (ask_step c q F H) as (H1 & H2 & H3). cbn [RouteCache.lazy_asks].
    destruct (lazy_ask c q) as [c1 a]. cbn [fst snd] in *. destruct (IH c1) as [E1 E2]; [rewrite H2; exact F|exact H1|].
    destruct (lazy_asks c1 qs) as [c2 l]. cbn [fst snd map] in *. rewrite E1, H3, E2, H2. auto.
  Qed.
  Theorem C81_lazy : forall r qs, sound (lines r) -> snd (lazy_asks (fresh r) qs) = map (fun q => Some (expected r q)) qs /\ c_route (fst (lazy_asks (fresh r) qs)) = r.
  Proof. intros r qs F. apply (asks_coherent qs (fresh r) F (fresh_coherent r)). Qed.

  (** the questions answered by [_compute_directions] *)
  Definition about_turns (q : query) : bool := match q with QHasLength | QLength | QHasAzimuth | QAzimuth => false | _ => true end.
  (** ** A line of one point after another line: the first question about turns raises out_of_range, all later ones are answered: there
      are none, and the route is connected if it is so up to the line before. *)
  Definition after_raise (u : list (list P)) (q : query) : @reply L A :=
    match q with QConnected => RBool (connected_loop eqp u) | QHasDirections => RBool false | _ => RAngle Invalid end.
  Theorem C81_raise : forall r u a b v, lines r = u ++ a :: b :: v -> sound (u ++ [a]) -> dangling a b -> forall q qs, about_turns q = true -> forallb about_turns qs = true ->
    snd (lazy_asks (fresh r) (q :: qs)) = None :: map (fun q => Some (after_raise (u ++ [a]) q)) qs.
  Proof.
    intros r u a b v El F D q qs Hq Hqs. cbn [RouteCache.lazy_asks].
    destruct (dirs_raise u a b v (mkS false zeroA zeroA true) F D) as (h & d & z & E). cbn [s_conn andb] in E.
    assert (exists c, compute_directions (fresh r) = (c, true) /\ c_dirs c = Invalid /\ c_abs c = Invalid /\ c_conn c = connected_loop eqp (u ++ [a])) as (c & Ec & Ed & Ea & En).
    { unfold RouteCache.compute_directions. cbn [RouteCache.fresh c_dirs c_abs c_route initialized andb]. rewrite El.
      destruct (u ++ a :: b :: v) as [|x [|y w]] eqn:Ew; [destruct u; discriminate|destruct u as [|? [|]]; discriminate|]. rewrite E. eexists. split; [reflexivity|]. auto. }
    assert (lazy_ask (fresh r) q = (c, None)) as -> by (unfold RouteCache.lazy_ask; destruct q; try discriminate Hq; rewrite Ec; reflexivity).
    destruct (lazy_asks c qs) as [c2 l] eqn:E2. cbn [snd]. f_equal. change l with (snd (c2, l)). rewrite <- E2. clear E2 c2 l Hq.
    induction qs as [|q' qs IH]; [reflexivity|]. cbn [forallb] in Hqs. apply andb_prop in Hqs. destruct Hqs as [Hq' Hqs]. cbn [RouteCache.lazy_asks].
    assert (lazy_ask c q' = (c, Some (after_raise (u ++ [a]) q'))) as ->.
    { unfold RouteCache.lazy_ask, RouteCache.compute_directions. destruct q'; try discriminate Hq'; rewrite Ed, Ea; cbn [initialized andb fst snd read after_raise]; rewrite ?Ed, ?Ea, ?En; reflexivity. }
    specialize (IH Hqs). destruct (lazy_asks c qs) as [c2 l]. cbn [snd map] in *. rewrite IH. reflexivity.
  Qed.

  (** ** An eager route has computed everything when constructed from lines; the constructor raises where a lazy route would do so later. *)
  Theorem C81_eager : forall r, sound (lines r) -> exists c, eager_of r = Ok c /\ c_route c = r /\ forall q, read c q = expected r q.
  Proof.
    intros r F. pose proof (fresh_coherent r) as H0. destruct (length_step _ H0) as (L1 & L2 & L3). destruct (azimuth_step _ L1) as (A1 & A2 & A3).
    set (c2 := compute_azimuth (compute_length (fresh r))) in *. assert (c_route c2 = r) as Er by (rewrite A2, L2; reflexivity).
    assert (sound (lines (c_route c2))) as F2 by (rewrite Er; exact F).
    assert (c_len c2 = told (route_length eqp zeroL addL dist r)) as L4 by (unfold c2, RouteCache.compute_azimuth; cbn; unfold RouteCache.compute_length; cbn; apply data_length_told).
    assert (c_az c2 = told (route_azimuth eqp azi zeroA r)) as A4 by (rewrite A3, L2; reflexivity).
    destruct (directions_step c2 F2 A1) as (D1 & D2 & D3 & D4 & D5 & D6 & D7 & D8).
    unfold RouteCache.eager_of. fold c2.
    assert (c_len (fst (compute_directions c2)) = c_len c2 /\ c_az (fst (compute_directions c2)) = c_az c2) as [E1 E2].
    { unfold RouteCache.compute_directions. destruct (initialized (c_dirs c2) && initialized (c_abs c2)); [auto|]. destruct (lines (c_route c2)) as [|x [|y w]]; [auto| |].
      - destruct (plain_has_directions eqp azi diffA x); auto.
      - destruct (dirs_loop (x :: y :: w) _) as [s|s| |]; cbn [fst]; auto. destruct (s_has s); auto. }
    destruct (compute_directions c2) as [c raised]. cbn [fst snd] in *. subst raised. rewrite Er in D2. exists c. split; [reflexivity|]. split; [exact D2|].
    rewrite D2 in D4, D5, D6, D7. rewrite L4 in E1. rewrite A4 in E2.
    intros q. destruct q; cbn [read expected]; rewrite ?D4, ?D5, ?D6, ?E1, ?E2; try reflexivity.
    - rewrite <- data_length_valid, <- data_length_told. reflexivity.
    - rewrite <- data_azimuth_valid, <- data_azimuth_told. reflexivity.
    - rewrite D7, <- D4, <- D5, D8. destruct (valid_cv (c_dirs c)); reflexivity.
  Qed.
  Theorem C81_eager_raise : forall r u a b v, lines r = u ++ a :: b :: v -> sound (u ++ [a]) -> dangling a b -> exists c, eager_of r = Throw c.
  Proof.
    intros r u a b v El F D. unfold RouteCache.eager_of. destruct (dirs_raise u a b v (mkS false zeroA zeroA true) F D) as (h & d & z & E).
    unfold RouteCache.compute_directions. cbn [RouteCache.compute_azimuth RouteCache.compute_length RouteCache.fresh c_dirs c_abs c_len c_az c_route initialized andb]. rewrite El.
    destruct (u ++ a :: b :: v) as [|x [|y w]] eqn:Ew; [destruct u; discriminate|destruct u as [|? [|]]; discriminate|]. rewrite E. eexists. reflexivity.
  Qed.

  (** ** The result of merging knows nothing of what its parts remembered, be it right or wrong. *)
  Theorem C81_merge : forall cs connect ex c, c_merge cs connect ex = Ok c -> sound (lines (c_route c)) ->
    merge eqp (map c_route cs) connect ex = Ok (c_route c) /\ forall qs, snd (lazy_asks c qs) = map (fun q => Some (expected (c_route c) q)) qs.
  Proof.
    intros cs connect ex c. unfold RouteCache.c_merge. destruct (merge eqp (map c_route cs) connect ex) as [r|r| |]; cbn [bindO]; try discriminate.
    intros [= <-] F. split; [reflexivity|]. intros qs. apply (C81_lazy r qs F).
  Qed.
  (** ** Joining two routes that were not asked for anything yet *)
  Theorem C81_join : forall a b retain a' b', c_join (fresh a) (fresh b) retain = (a', b') -> sound (lines (c_route a')) -> sound (lines (c_route b')) ->
    (c_route a', c_route b') = join eqp opposite a b retain /\ forall qs, snd (lazy_asks a' qs) = map (fun q => Some (expected (c_route a') q)) qs /\
    snd (lazy_asks b' qs) = map (fun q => Some (expected (c_route b') q)) qs.
  Proof.
    intros a b retain a' b'. unfold RouteCache.c_join. cbn [RouteCache.fresh c_route]. destruct (join eqp opposite a b retain) as [x y]. intros [= <- <-] F G.
    split; [reflexivity|]. intros qs. split; [apply (C81_lazy x qs F)|apply (C81_lazy y qs G)].
  Qed.

  (** ** The route of the chosen candidates: joining changes routes that remember their former length, but the result is that of plain routes. *)
  Section Matching.
    Variable between : nat * nat -> nat * nat -> outcome route.
    Variable in_edges : P -> bool.
    Notation c_loop := (c_route_loop eqp dist addL zeroL opposite between in_edges).
    Notation p_loop := (route_loop eqp zeroL addL dist opposite between in_edges).

    Lemma join_last_plain : forall cs r, let (cs', c') := c_join_last (L := L) (A := A) eqp opposite in_edges cs (fresh r) in
      (map c_route cs', c_route c') = join_last eqp opposite in_edges (map c_route cs) r /\ c_len c' = Uninit.
    Proof.
      intros cs r. unfold c_join_last, join_last. rewrite <- map_rev. destruct (rev cs) as [|prev rest]; [cbn; auto|]. cbn [map RouteCache.fresh c_route].
      destruct (negb (invalid r) && _ && _ && _); [|cbn; auto]. destruct (back (last (lines (c_route prev)) [])) as [p|]; [|cbn; auto]. destruct (in_edges p); [cbn; auto|].
      unfold RouteCache.c_join. cbn [RouteCache.fresh c_route]. destruct (join eqp opposite (c_route prev) r true) as [x y]. cbn [with_route c_route c_len].
      rewrite map_app, map_rev. auto.
    Qed.
    Lemma c_loop_cons : forall jm f t rest skipped cs, c_loop jm (f :: t :: rest) skipped cs =
      if fst f =? fst t then c_loop jm rest true cs else
        bindO (between f t) (fun _ => cs) (fun r => let (cs1, r1) := if jm && negb skipped then c_join_last (L := L) (A := A) eqp opposite in_edges cs (fresh r) else (cs, fresh r) in
          if negb (invalid (c_route r1)) then let c := compute_length r1 in if valid_cv (c_len c) then c_loop jm (t :: rest) false (cs1 ++ [c]) else c_loop jm (t :: rest) skipped cs1
          else c_loop jm (t :: rest) skipped cs1).
    Proof. reflexivity. Qed.
    Lemma p_loop_cons : forall jm f t rest skipped rs, p_loop jm (f :: t :: rest) skipped rs =
      if fst f =? fst t then p_loop jm rest true rs else
        bindO (between f t) (fun _ => rs) (fun r => let (rs1, r1) := if jm && negb skipped then join_last eqp opposite in_edges rs r else (rs, r) in
          if negb (invalid r1) && has_length eqp zeroL addL dist r1 then p_loop jm (t :: rest) false (rs1 ++ [r1]) else p_loop jm (t :: rest) skipped rs1).
    Proof. reflexivity. Qed.
    Lemma loop_plain : forall jm n policy skipped (cs : list croute), length policy <= n ->
      match c_loop jm policy skipped cs, p_loop jm policy skipped (map c_route cs) with
      | Ok x, Ok y => map c_route x = y
      | Throw _, Throw _ | UB, UB | Fuel, Fuel => True
      | _, _ => False
      end.
    Proof.
      intros jm. induction n as [|n IH]; intros policy skipped cs Hn; [destruct policy; [reflexivity|cbn in Hn; lia]|].
      destruct policy as [|f [|t rest]]; [reflexivity|reflexivity|].
      assert (length rest <= n) as N1 by (cbn in Hn; lia). assert (length (t :: rest) <= n) as N2 by (cbn in Hn |- *; lia).
      rewrite c_loop_cons, p_loop_cons. destruct (fst f =? fst t); [apply IH; exact N1|].
      destruct (between f t) as [r|r| |]; cbn [bindO]; try exact I.
      assert (forall (cs' : list croute) (c' : croute), c_len c' = Uninit ->
        match (if negb (invalid (c_route c')) then let c := compute_length c' in if valid_cv (c_len c) then c_loop jm (t :: rest) false (cs' ++ [c]) else c_loop jm (t :: rest) skipped cs' else c_loop jm (t :: rest) skipped cs'),
              (if negb (invalid (c_route c')) && has_length eqp zeroL addL dist (c_route c') then p_loop jm (t :: rest) false (map c_route cs' ++ [c_route c']) else p_loop jm (t :: rest) skipped (map c_route cs')) with
        | Ok x, Ok y => map c_route x = y | Throw _, Throw _ | UB, UB | Fuel, Fuel => True | _, _ => False end) as K.
      { intros cs' c' Eu. destruct (invalid (c_route c')); cbn [negb andb]; [apply IH; exact N2|].
        assert (compute_length c' = mkC (c_route c') (data_length eqp dist addL zeroL (lines (c_route c'))) (c_az c') (c_dirs c') (c_abs c') (c_conn c')) as ->
          by (unfold RouteCache.compute_length; rewrite Eu; reflexivity). cbn [c_len]. rewrite data_length_valid.
        destruct (has_length eqp zeroL addL dist (c_route c')); [|apply IH; exact N2].
        specialize (IH (t :: rest) false (cs' ++ [mkC (c_route c') (data_length eqp dist addL zeroL (lines (c_route c'))) (c_az c') (c_dirs c') (c_abs c') (c_conn c')]) N2).
        rewrite map_app in IH. exact IH. }
      destruct (jm && negb skipped); [|apply (K cs (fresh r) eq_refl)].
      pose proof (join_last_plain cs r) as J. destruct (c_join_last eqp opposite in_edges cs (fresh r)) as [cs' c']. destruct J as [J1 J2].
      destruct (join_last eqp opposite in_edges (map c_route cs) r) as [rs' r']. injection J1 as <- <-. apply (K cs' c' J2).
    Qed.
    Theorem C81_matching : forall jm policy, c_candidates_route (A := A) eqp dist addL zeroL opposite between in_edges jm policy =
      match candidates_route eqp zeroL addL dist opposite between in_edges jm policy with
      | Ok r => Ok (fresh r) | Throw r => Throw (fresh r) | UB => UB | Fuel => Fuel end.
    Proof.
      intros jm policy. unfold c_candidates_route, candidates_route. pose proof (loop_plain jm (length policy) policy false [] (le_n _)) as H. cbn [map] in H.
      destruct (c_loop jm policy false []) as [x|x| |], (p_loop jm policy false []) as [y|y| |]; try contradiction; cbn [bindO]; try reflexivity.
      subst y. unfold RouteCache.c_merge. destruct (merge eqp (map c_route x) false false); reflexivity.
    Qed.
  End Matching.
End C81.

(** points on a line, the azimuths 90 and -90, turns of 0, -180 and 180 degrees, as in C59 *)
Notation zfresh ls := (fresh (L := Z) (A := Z) (mkRoute false ls : @route Z)).
Notation zask := (lazy_asks Z.eqb zdist zazi Z.add 0%Z Z.add 0%Z zdiff Z.abs).
Definition never (s t : Z * Z) : bool := false.
Lemma sound_long : forall (P : Type) (eqp : P -> P -> bool) ls, Forall (fun l : list P => length l <> 1) (tl ls) -> sound eqp ls.
Proof.
  intros P eqp ls F u a b v -> (x & p & q & s & _ & -> & _). destruct u as [|y u]; cbn [tl app] in F.
  - inversion F as [|? ? Hs]; subst. apply Hs. reflexivity.
  - apply Forall_app in F. destruct F as [_ F]. inversion F as [|? ? _ F1]; subst. inversion F1 as [|? ? Hs]; subst. apply Hs. reflexivity.
Qed.
Example C81_lazy_ex : let ls := [[0; 5; 3]; [3; 9]; [20; 10; 30]]%Z in sound Z.eqb ls /\
  snd (zask (zfresh ls) [QLength; QConnected; QAbsolute; QLength; QHasDirections; QAzimuth]) =
  [Some (RLength (Val 43%Z)); Some (RBool false); Some (RAngle (Val 540%Z)); Some (RLength (Val 43%Z)); Some (RBool true); Some (RAngle (Val 90%Z))].
Proof. split; [apply sound_long; repeat constructor; discriminate|vm_compute; reflexivity]. Qed.
Example C81_raise_ex : let u := [[0; 1]; [7; 8]]%Z in let a := [8; 9]%Z in let b := [9]%Z in sound Z.eqb (u ++ [a]) /\ dangling Z.eqb a b /\
  snd (zask (zfresh (u ++ a :: b :: [[9; 10]]%Z)) [QAbsolute; QAbsolute; QHasDirections; QConnected]) = [None; Some (RAngle Invalid); Some (RBool false); Some (RBool false)].
Proof.
  split; [apply sound_long; repeat constructor; discriminate|]. split; [exists [], 8%Z, 9%Z, 9%Z; repeat split|vm_compute; reflexivity].
Qed.
(** whether a route is connected is not told where a plain route tells it; asked again, the wrong answer is given *)
Theorem C81_connected_refuted : exists r : @route Z, is_connected Z.eqb r = false /\
  snd (zask (fresh r) [QConnected; QConnected]) = [None; Some (RBool true)].
Proof. exists (mkRoute false [[0; 1]; [1]; [7; 8]]%Z). vm_compute. auto. Qed.
(** an eager route without lines says that it is not connected, and its length is NaN; a lazy one answers as a plain route does *)
Theorem C81_flagged_refuted : forall b, let c := eager_flagged (P := Z) (L := Z) (A := Z) b in
  is_connected Z.eqb (c_route c) = true /\ read c QConnected = RBool false /\ read c QLength = RLength Uninit /\
  snd (zask c [QConnected; QLength]) = [Some (RBool true); Some (RLength Invalid)].
Proof. intros []; vm_compute; auto. Qed.
(** a route that was asked for its length reports it after joining although the point of the joint is gone, lazy and eager *)
Theorem C81_join_refuted : exists a b : @route Z, let (c, _) := zask (fresh a) [QLength] in
  sound Z.eqb (lines a) /\ let (c', b') := c_join Z.eqb never c (fresh b) false in
  route_length Z.eqb 0%Z Z.add zdist (c_route c') = Ok 7%Z /\ snd (zask c' [QLength]) = [Some (RLength (Val 5%Z))] /\
  exists e e', eager_of Z.eqb zdist zazi Z.add 0%Z Z.add 0%Z zdiff Z.abs a = Ok e /\ fst (c_join Z.eqb never e (fresh b) false) = e' /\ c_route e' = c_route c' /\ read e' QLength = RLength (Val 5%Z).
Proof.
  exists (mkRoute false [[0; 5]]%Z), (mkRoute false [[5; 7; 9]]%Z). split; [apply sound_long; constructor|]. split; [vm_compute; reflexivity|].
  split; [vm_compute; reflexivity|]. do 2 eexists. split; [vm_compute; reflexivity|]. split; [reflexivity|]. vm_compute. auto.
Qed.
Example C81_eager_ex : exists c, eager_of Z.eqb zdist zazi Z.add 0%Z Z.add 0%Z zdiff Z.abs (mkRoute false [[0; 5; 3]; [3; 9]]%Z) = Ok c /\ read c QAbsolute = RAngle (Val 360%Z) /\ read c QConnected = RBool true.
Proof. eexists. vm_compute. auto. Qed.
(** a merge of routes that remember wrong lengths *)
Example C81_merge_ex : let stale r := mkC (A := Z) (mkRoute false r : @route Z) (Val 99%Z) Uninit Uninit Uninit false in
  exists c, c_merge Z.eqb [stale [[0; 5]]%Z; stale [[5; 9]]%Z] false true = Ok c /\ snd (zask c [QLength; QConnected]) = [Some (RLength (Val 9%Z)); Some (RBool true)].
Proof. eexists. vm_compute. auto. Qed.
Example C81_matching_ex : let between (f t : nat * nat) := Ok (mkRoute false (if fst f =? 0 then [[0%Z; 5%Z]] else [[5%Z; 9%Z]]) : @route Z) in
  exists c, c_candidates_route (A := Z) Z.eqb zdist Z.add 0%Z never between (fun _ => false) true [(0, 0); (1, 0); (2, 0)] = Ok c /\ lines (c_route c) = [[0; 9]]%Z.
Proof. eexists. vm_compute. auto. Qed.

(** * Segments *)
Section C82.
  Context {P L A : Type}.
  Variable eqp : P -> P -> bool.
  Variable dist : P -> P -> L.
  Variable azi : P -> P -> A.
  Variable zeroL : L.
  Variable zeroA : A.
  Notation cseg := (@cseg P L A).
  Notation seg_op := (@seg_op P L A).
  Notation lazy_step := (lazy_seg_step eqp dist azi).
  Notation eager_step := (eager_seg_step eqp dist azi).
  Notation clen := (seg_compute_length eqp dist).
  Notation caz := (seg_compute_azimuth eqp azi).

  (** every remembered value is that of the plain segment, rich_segment.hpp 113-139 *)
  Definition right (s : cseg) : Prop :=
    (g_len s = Uninit \/ g_len s = told (seg_length eqp dist zeroL (g_pts s))) /\ (g_az s = Uninit \/ g_az s = told (seg_azimuth eqp azi zeroA (g_pts s))).
  Definition full (s : cseg) : Prop := g_len s = told (seg_length eqp dist zeroL (g_pts s)) /\ g_az s = told (seg_azimuth eqp azi zeroA (g_pts s)).
  (** what may be assigned: lazy segments that remember right values, eager ones with all values *)
  Definition op_right (o : seg_op) : Prop := match o with AssignLazy x => right x | AssignEager x => full x | _ => True end.
  Definition no_plain (o : seg_op) : Prop := match o with AssignPlain _ => False | _ => True end.

  Lemma clen_right : forall s, right s -> right (clen s) /\ g_pts (clen s) = g_pts s /\ g_az (clen s) = g_az s /\ g_len (clen s) = told (seg_length eqp dist zeroL (g_pts s)).
  Proof.
    intros s [H1 H2]. unfold seg_compute_length. destruct (initialized (g_len s)) eqn:E.
    - assert (g_len s = told (seg_length eqp dist zeroL (g_pts s))) as El by (destruct H1 as [H1|H1]; [rewrite H1 in E; discriminate|exact H1]). repeat split; auto.
    - cbn [g_pts g_len g_az]. assert ((if eqp (fst (g_pts s)) (snd (g_pts s)) then Invalid else Val (dist (fst (g_pts s)) (snd (g_pts s)))) = told (seg_length eqp dist zeroL (g_pts s))) as Ev
        by (unfold seg_length, seg_has; destruct (eqp (fst (g_pts s)) (snd (g_pts s))); reflexivity).
      rewrite Ev. unfold right. cbn [g_pts g_len g_az]. repeat split; auto.
  Qed.
  Lemma caz_right : forall s, right s -> right (caz s) /\ g_pts (caz s) = g_pts s /\ g_len (caz s) = g_len s /\ g_az (caz s) = told (seg_azimuth eqp azi zeroA (g_pts s)).
  Proof.
    intros s [H1 H2]. unfold seg_compute_azimuth. destruct (initialized (g_az s)) eqn:E.
    - assert (g_az s = told (seg_azimuth eqp azi zeroA (g_pts s))) as El by (destruct H2 as [H2|H2]; [rewrite H2 in E; discriminate|exact H2]). repeat split; auto.
    - cbn [g_pts g_len g_az]. assert ((if eqp (fst (g_pts s)) (snd (g_pts s)) then Invalid else Val (azi (fst (g_pts s)) (snd (g_pts s)))) = told (seg_azimuth eqp azi zeroA (g_pts s))) as Ev
        by (unfold seg_azimuth, seg_has; destruct (eqp (fst (g_pts s)) (snd (g_pts s))); reflexivity).
      rewrite Ev. unfold right. cbn [g_pts g_len g_az]. repeat split; auto.
  Qed.

  (** where the points of a segment come from: its last assignment *)
  Definition last_points (s : P * P) (os : list seg_op) : P * P :=
    fold_left (fun p o => match o with AssignPlain q => q | AssignLazy x | AssignEager x => g_pts x | _ => p end) os s.

  (** ** Whatever was asked of a lazy segment and assigned to it, except a plain segment: it reports the length and azimuth of its points. *)
  Lemma lazy_right : forall os s, right s -> Forall op_right os -> Forall no_plain os -> right (fold_left lazy_step os s) /\ g_pts (fold_left lazy_step os s) = last_points (g_pts s) os.
  Proof.
    induction os as [|o os IH]; intros s H F N; [split; [exact H|reflexivity]|]. inversion F as [|? ? Fo Fs]; subst. inversion N as [|? ? No Ns]; subst. cbn [fold_left].
    destruct (clen_right s H) as (L1 & L2 & _). destruct (caz_right s H) as (A1 & A2 & _).
    assert (right (lazy_step s o) /\ g_pts (lazy_step s o) = last_points (g_pts s) [o]) as [R1 R2].
    { destruct o as [| |p|x|x]; cbn [lazy_seg_step last_points fold_left]; auto; [destruct No|]. split; [|reflexivity]. destruct Fo as [E1 E2]. split; right; assumption. }
    destruct (IH _ R1 Fs Ns) as [E1 E2]. split; [exact E1|]. rewrite E2, R2. reflexivity.
  Qed.
  Theorem C82_lazy : forall s os, Forall op_right os -> Forall no_plain os -> let x := fold_left lazy_step os (lazy_seg s) in let p := last_points s os in
    g_pts x = p /\ g_len (clen x) = told (seg_length eqp dist zeroL p) /\ g_az (caz x) = told (seg_azimuth eqp azi zeroA p).
  Proof.
    intros s os F N x p. destruct (lazy_right os (lazy_seg s)) as [R E]; [split; left; reflexivity|exact F|exact N|]. fold x in R, E. cbn [lazy_seg g_pts] in E. fold p in E.
    split; [exact E|]. rewrite <- E. split; [apply (clen_right x R)|apply (caz_right x R)].
  Qed.
  (** ** The same for an eager segment, which needs no asking *)
  Lemma eager_full : forall os s, full s -> Forall op_right os -> Forall no_plain os -> full (fold_left eager_step os s) /\ g_pts (fold_left eager_step os s) = last_points (g_pts s) os.
  Proof.
    induction os as [|o os IH]; intros s H F N; [split; [exact H|reflexivity]|]. inversion F as [|? ? Fo Fs]; subst. inversion N as [|? ? No Ns]; subst. cbn [fold_left].
    assert (full (eager_step s o) /\ g_pts (eager_step s o) = last_points (g_pts s) [o]) as [R1 R2].
    { destruct o as [| |p|x|x]; cbn [eager_seg_step last_points fold_left]; auto; [destruct No|]. split; [|reflexivity].
      split; cbn [g_pts g_len g_az]; [apply (clen_right x Fo)|apply (caz_right x Fo)]. }
    destruct (IH _ R1 Fs Ns) as [E1 E2]. split; [exact E1|]. rewrite E2, R2. reflexivity.
  Qed.
  Lemma eager_seg_full : forall s, full (eager_seg eqp dist azi s).
  Proof.
    intros s. unfold eager_seg. assert (right (lazy_seg s : cseg)) as R by (split; left; reflexivity). destruct (clen_right _ R) as (R1 & E1 & E2 & E3). destruct (caz_right _ R1) as (R2 & E4 & E5 & E6).
    unfold full. rewrite E4, E5, E6, E1, E3. auto.
  Qed.
  Theorem C82_eager : forall s os, Forall op_right os -> Forall no_plain os -> let x := fold_left eager_step os (eager_seg eqp dist azi s) in let p := last_points s os in
    g_pts x = p /\ g_len x = told (seg_length eqp dist zeroL p) /\ g_az x = told (seg_azimuth eqp azi zeroA p).
  Proof.
    intros s os F N x p. destruct (eager_full os (eager_seg eqp dist azi s) (eager_seg_full s) F N) as [R E]. fold x in R, E. replace (g_pts (eager_seg eqp dist azi s)) with s in E by reflexivity.
    fold p in E. destruct R as [R1 R2]. rewrite E in R1, R2. auto.
  Qed.
  (** ** A plain segment assigned to a lazy one that was not asked yet does no harm. *)
  Theorem C82_plain : forall s t, let x := lazy_step (lazy_seg s) (AssignPlain t) in
    g_pts x = t /\ g_len (clen x) = told (seg_length eqp dist zeroL t) /\ g_az (caz x) = told (seg_azimuth eqp azi zeroA t).
  Proof.
    intros s t x. assert (right x) as R by (split; left; reflexivity). split; [reflexivity|]. split; [apply (clen_right x R)|apply (caz_right x R)].
  Qed.
  (** ** The segments that a lazy line hands out: it remembers for some or none of its segments values that are right *)
  Theorem C82_line : forall line lens azs pos,
    (forall i c, nth_error lens i = Some c -> exists s, segment line i = Some s /\ (c = Uninit \/ c = told (seg_length eqp dist zeroL s))) ->
    (forall i c, nth_error azs i = Some c -> exists s, segment line i = Some s /\ (c = Uninit \/ c = told (seg_azimuth eqp azi zeroA s))) ->
    match line_segment eqp dist azi line lens azs pos with
    | None => length line <= pos + 1
    | Some x => segment line pos = Some (g_pts x) /\ g_len (clen x) = told (seg_length eqp dist zeroL (g_pts x)) /\ g_az (caz x) = told (seg_azimuth eqp azi zeroA (g_pts x))
    end.
  Proof.
    intros line lens azs pos HL HA. unfold line_segment. destruct (segment line pos) as [s|] eqn:Es.
    - match goal with |- _ = Some (g_pts ?y) /\ _ => set (x := y) end. assert (right x) as R.
      { unfold x, right. cbn [g_pts g_len g_az]. split.
        - destruct (nth_error lens pos) as [c|] eqn:Ec; [|left; reflexivity]. right. destruct (HL pos c Ec) as (s' & Es' & Hc). rewrite Es in Es'. injection Es' as <-.
          destruct Hc as [-> | ->]; [unfold seg_value, seg_length, seg_has|destruct (seg_length eqp dist zeroL s); reflexivity]. destruct (eqp (fst s) (snd s)); reflexivity.
        - destruct (nth_error azs pos) as [c|] eqn:Ec; [|left; reflexivity]. right. destruct (HA pos c Ec) as (s' & Es' & Hc). rewrite Es in Es'. injection Es' as <-.
          destruct Hc as [-> | ->]; [unfold seg_value, seg_azimuth, seg_has|destruct (seg_azimuth eqp azi zeroA s); reflexivity]. destruct (eqp (fst s) (snd s)); reflexivity. }
      split; [reflexivity|]. split; [apply (clen_right x R)|apply (caz_right x R)].
    - unfold segment in Es. destruct (nth_error line pos) eqn:E1; [destruct (nth_error line (pos + 1)) eqn:E2; [discriminate|]|]; [apply nth_error_None in E2|apply nth_error_None in E1]; lia.
  Qed.
End C82.

Notation zlazy := (lazy_seg_step Z.eqb zdist zazi).
Notation zeager := (eager_seg_step Z.eqb zdist zazi).
(** Assigning a plain segment: a lazy segment that was asked before and every eager segment go on reporting the length of the points they had. *)
Theorem C82_plain_refuted : exists s t : Z * Z, seg_length Z.eqb zdist 0%Z s = Ok 5%Z /\ seg_length Z.eqb zdist 0%Z t = Ok 20%Z /\
  (let x := fold_left zlazy [AskLength; AssignPlain t; AskLength] (lazy_seg s) in g_pts x = t /\ g_len x = Val 5%Z) /\
  (let x := fold_left zeager [AssignPlain t] (eager_seg Z.eqb zdist zazi s) in g_pts x = t /\ g_len x = Val 5%Z).
Proof. exists (0, 5)%Z, (0, 20)%Z. vm_compute. auto. Qed.
Example C82_lazy_ex : let os := [AskLength; AssignLazy (mkSeg (3, 1)%Z Uninit (Val (zazi 3 1)%Z)); AskAzimuth; AssignEager (mkSeg (4, 4)%Z Invalid Invalid)] : list (@seg_op Z Z Z) in
  Forall (op_right Z.eqb zdist zazi 0%Z 0%Z) os /\ Forall no_plain os /\ g_len (fold_left zlazy (firstn 3 os ++ [AskLength]) (lazy_seg (0, 5)%Z)) = Val 2%Z.
Proof.
  intros os. split; [|split; [repeat constructor|vm_compute; reflexivity]].
  constructor; [exact I|]. constructor; [split; [left; reflexivity|right; reflexivity]|]. constructor; [exact I|]. constructor; [split; reflexivity|]. constructor.
Qed.
Example C82_line_ex : line_segment Z.eqb zdist zazi [0; 5; 3]%Z [Uninit; Val 2%Z] [] 1 = Some (mkSeg (5, 3)%Z (Val 2%Z) Uninit).
Proof. reflexivity. Qed.

Print Assumptions C81_lazy.
Print Assumptions C81_raise.
Print Assumptions C81_eager.
Print Assumptions C81_eager_raise.
Print Assumptions C81_merge.
Print Assumptions C81_join.
Print Assumptions C81_matching.
Print Assumptions C81_connected_refuted.
Print Assumptions C81_flagged_refuted.
Print Assumptions C81_join_refuted.
Print Assumptions C82_lazy.
Print Assumptions C82_eager.
Print Assumptions C82_plain.
Print Assumptions C82_line.
Print Assumptions C82_plain_refuted.
