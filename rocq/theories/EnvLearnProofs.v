(** Proofs for C65: value iteration on the environment does what it does on the tables the environment has in the end. *)
From Verif Require Import Base ListAux Env EnvProps Value ValueProps EnvLearn.
From Coq Require Import Lqa.
Open Scope nat_scope.

Section Sim.
  Variable cands : list nat.
  Variable first_reward : istate -> iaction -> Q.
  Variable judge : istate -> iaction -> @verdict Q.
  Variable sort : list (nat * Q) -> list (nat * Q).
  Variable intelligent : bool.
  Variable discount threshold : Q.
  Hypothesis sort_perm : forall l, Permutation (sort l) l.
  Notation env := (@env Q).
  Notation step := (step 0%Q cands 3 first_reward judge).
  Notation actions := (actions 0%Q cands 3 first_reward judge sort).
  Notation pure := (pure 0%Q cands 3 first_reward judge).
  Notation inv3 := (inv3 0%Q cands 3 first_reward judge).
  Notation wf := (wf 0%Q cands 3 first_reward judge).
  Notation offered := (offered cands).

  (** *** What the environment answers in an internal state *)
  Definition reward_at (s : istate) (a : nat) : Q := match pure s a with Ok (_, _, rw, _) => rw | _ => 0%Q end.
  Definition offers (s : istate) : list nat :=
    match back s with
    | None => [0]
    | Some b =>
        let n := match at_pos cands b with Some n => n | None => 0 end in
        if 0 <? n then if intelligent then map fst (sort (map (fun a => (a, reward_at s a)) (seq special_actions n))) else seq special_actions n
        else [0]
    end.

  Lemma offers_in s a : In a (offers s) <-> offered s a.
  Proof.
    unfold offers, EnvProps.offered. destruct (back s) as [b|]; [|cbn; intuition]. destruct (at_pos cands b) as [[|n]|]; cbn [Nat.ltb Nat.leb]; [cbn; intuition| |cbn; intuition].
    destruct intelligent.
    - assert (P : Permutation (map fst (sort (map (fun a => (a, reward_at s a)) (seq special_actions (S n))))) (seq special_actions (S n))).
      { rewrite (Permutation_map fst (sort_perm _)), map_map. cbn [fst]. rewrite map_id. reflexivity. }
      split; intros H; [apply (Permutation_in _ P) in H; apply in_seq in H; exact H|]. apply (Permutation_in _ (Permutation_sym P)). apply in_seq. exact H.
    - rewrite in_seq. reflexivity.
  Qed.
  Lemma offers_some s : offers s <> [].
  Proof.
    intros E. assert (K : exists a, offered s a).
    { unfold EnvProps.offered. destruct (back s) as [b|]; [|eauto]. destruct (at_pos cands b) as [[|n]|]; [eauto| |eauto]. exists 2. lia. }
    destruct K as [a Ha]. apply offers_in in Ha. rewrite E in Ha. destruct Ha.
  Qed.

  (** all offered steps lead to states that have a number already *)
  Definition settled_at (e : env) (s : istate) : Prop := forall a ns a' rw d, offered s a -> pure s a = Ok (ns, a', rw, d) -> In ns (st_list e).

  (** the answers as tables *)
  Definition acts_of (E : env) (i : nat) : list nat := match nth_error (st_list E) i with Some s => offers s | None => [] end.
  Definition stp_of (E : env) (i a : nat) : nat * nat * Q * bool :=
    match nth_error (st_list E) i with
    | Some s =>
        match pure s a with
        | Ok (ns, a', rw, d) => (match find_state (st_map E) ns with Some j => j | None => 0 end, internal2action a', rw, d)
        | _ => (0, 0, 0%Q, true)
        end
    | None => (0, 0, 0%Q, true)
    end.

  Lemma extends_antisym (e E : env) : extends e E -> st_list E = st_list e -> forall x, extends E x -> extends e x.
  Proof. intros _ H x [l Hl]. exists l. rewrite Hl, H. reflexivity. Qed.
  Lemma nodup_index {A} (l : list A) i j x : NoDup l -> nth_error l i = Some x -> nth_error l j = Some x -> i = j.
  Proof. intros N A1 A2. apply (proj1 (NoDup_nth_error l) N); [apply nth_error_Some; congruence|congruence]. Qed.

  Lemma step_sim e a s : inv3 e -> nth_error (st_list e) (st_cur e) = Some s -> offered s a ->
    exists e' r, step e a = Ok (e', r) /\ inv3 e' /\ extends e e' /\ st_cur e' = r_state r
      /\ (forall E, wf E -> extends e' E -> stp_of E (st_cur e) a = (r_state r, r_action r, r_reward r, r_done r))
      /\ (settled_at e s -> st_list e' = st_list e)
      /\ exists ns a', pure s a = Ok (ns, a', r_reward r, r_done r) /\ nth_error (st_list e') (r_state r) = Some ns
           /\ (forall x, In x (st_list e') -> In x (st_list e) \/ x = ns).
  Proof.
    intros K N O. destruct (pure_safe 0%Q cands 3 first_reward judge s a eq_refl (proj2 K _ _ N) O) as (ns & a' & rw & d & P & O').
    pose proof (step_spec 0%Q cands 3 first_reward judge e a s (proj1 K) N) as S. rewrite P in S.
    destruct S as (e' & i & S1 & S2 & S3 & S4 & S5 & S6 & S7).
    exists e', (mkResult i (internal2action a') rw d). cbn [r_state r_action r_reward r_done].
    split; [exact S1|]. split; [apply (inv3_step _ _ _ _ _ e a e' _ s eq_refl K N O S1)|]. split; [exact S3|]. split; [exact S5|]. split; [|split].
    - intros E WE X. unfold stp_of. assert (NE : nth_error (st_list E) (st_cur e) = Some s) by (apply (extends_nth _ _ _ _ X), (extends_nth _ _ _ _ S3), N).
      rewrite NE, P. assert (F : find_state (st_map E) ns = Some i) by (apply (find_wf _ _ _ _ _ E ns i WE), (extends_nth _ _ _ _ X), S4). rewrite F. reflexivity.
    - intros H. apply S6. apply (H a ns a' rw d O P).
    - exists ns, a'. auto.
  Qed.

  Lemma set_cur_inv e i : inv3 e -> inv3 (set_cur e i).
  Proof. intros [W K]. split; [apply wf_cur, W|exact K]. Qed.

  Lemma extends_set (e e' : env) i : extends e e' -> extends e (set_cur e' i).
  Proof. intros [l H]. exists l. exact H. Qed.

  Lemma try_sim s : forall l e, inv3 e -> nth_error (st_list e) (st_cur e) = Some s -> (forall a, In a l -> offered s a) ->
    exists e', try_actions 0%Q cands 3 first_reward judge e l = Ok (e', map (fun a => (a, reward_at s a)) l) /\ inv3 e' /\ extends e e' /\ (l <> [] \/ True -> True)
      /\ (settled_at e s -> st_list e' = st_list e)
      /\ (forall x, In x (st_list e') -> In x (st_list e) \/ exists a a' rw d, offered s a /\ pure s a = Ok (x, a', rw, d)).
  Proof.
    induction l as [|a l IH]; intros e K N O; cbn [try_actions map].
    - exists e. split; [reflexivity|]. split; [exact K|]. split; [apply extends_refl|]. split; [auto|]. split; [auto|]. auto.
    - destruct (step_sim e a s K N (O a (or_introl eq_refl))) as (e1 & r & S1 & K1 & X1 & _ & _ & St1 & ns & a' & P & Nr & I1). rewrite S1. cbn [bindO].
      destruct (IH (set_cur e1 (st_cur e))) as (e2 & E2 & K2 & X2 & _ & St2 & I2).
      + apply set_cur_inv, K1.
      + apply (extends_nth _ _ _ _ X1 N).
      + intros b Hb. apply O. right. exact Hb.
      + rewrite E2. cbn [bindO]. exists e2. split; [unfold reward_at at 2; rewrite P; reflexivity|]. split; [exact K2|]. split; [destruct X1 as [l1 X1], X2 as [l2 X2]; exists (l1 ++ l2); rewrite X2; cbn; rewrite X1, app_assoc; reflexivity|].
        split; [auto|]. split.
        * intros H. rewrite St2; [cbn; apply St1, H|]. intros b nb ab rb db Ob Pb. cbn. rewrite (St1 H). apply (H b nb ab rb db Ob Pb).
        * intros x Hx. apply I2 in Hx. cbn in Hx. destruct Hx as [Hx|Hx]; [|right; exact Hx]. apply I1 in Hx. destruct Hx as [Hx| ->]; [left; exact Hx|].
          right. exists a, a', (r_reward r), (r_done r). split; [apply O; left; reflexivity|exact P].
  Qed.

  Lemma actions_sim e s : inv3 e -> nth_error (st_list e) (st_cur e) = Some s ->
    exists e', actions intelligent e = Ok (e', offers s) /\ inv3 e' /\ extends e e' /\ st_cur e' = st_cur e
      /\ (settled_at e s -> st_list e' = st_list e)
      /\ (forall x, In x (st_list e') -> In x (st_list e) \/ exists a a' rw d, offered s a /\ pure s a = Ok (x, a', rw, d)).
  Proof.
    intros K N. assert (D : exists e', actions intelligent e = Ok (e', offers s) /\ inv3 e' /\ extends e e'
      /\ (settled_at e s -> st_list e' = st_list e)
      /\ (forall x, In x (st_list e') -> In x (st_list e) \/ exists a a' rw d, offered s a /\ pure s a = Ok (x, a', rw, d))).
    { unfold Env.actions, offers. rewrite N. cbn [derefO]. destruct (back s) as [p|] eqn:B; [|exists e; split; [reflexivity|]; split; [exact K|]; split; [apply extends_refl|]; auto].
      destruct (at_pos cands p) as [[|n]|] eqn:Ep; cbn [Nat.ltb Nat.leb]; [exists e; split; [reflexivity|]; split; [exact K|]; split; [apply extends_refl|]; auto| |exists e; split; [reflexivity|]; split; [exact K|]; split; [apply extends_refl|]; auto].
      destruct intelligent; [|exists e; split; [reflexivity|]; split; [exact K|]; split; [apply extends_refl|]; auto].
      destruct (try_sim s (seq special_actions (S n)) e K N) as (e' & T & K' & X' & _ & St & I).
      - intros a Ha. apply in_seq in Ha. unfold EnvProps.offered. rewrite B, Ep. exact Ha.
      - rewrite T. cbn [bindO]. exists e'. auto. }
    destruct D as (e' & E & K' & X & St & I). exists e'. split; [exact E|]. split; [exact K'|]. split; [exact X|]. split; [|auto].
    apply (actions_wf 0%Q cands 3 first_reward judge sort intelligent e e' (offers s) (proj1 K) E).
  Qed.

  Lemma acts_at (E : env) i s : nth_error (st_list E) i = Some s -> acts_of E i = offers s.
  Proof. intros N. unfold acts_of. rewrite N. reflexivity. Qed.

  Lemma ext_trans (a b c : env) : extends a b -> extends b c -> extends a c.
  Proof. apply extends_trans. Qed.

  (** *** The states there can be *)
  Notation N := (Z.of_nat (length cands)).
  Definition places : list Z := map Z.of_nat (seq 0 (length cands + 2)).
  Definition edges : list Z := map (fun a => Z.of_nat a - 1)%Z (seq 0 (list_max cands + 1)).
  Definition universe : list istate := map (fun q => [q]) places ++ flat_map (fun q => map (fun a => [q; a; (q + 1)%Z]) edges) places.

  Lemma place_in q : (0 <= q <= N + 1)%Z -> In q places.
  Proof. intros H. unfold places. apply in_map_iff. exists (Z.to_nat q). split; [lia|]. apply in_seq. lia. Qed.
  Lemma place_out q : In q places -> (0 <= q <= N + 1)%Z.
  Proof. unfold places. rewrite in_map_iff. intros (x & <- & Hx). apply in_seq in Hx. lia. Qed.
  Lemma edge_in q a : a = no_action \/ edge_at cands q a -> In a edges.
  Proof.
    intros H. unfold edges. apply in_map_iff. exists (Z.to_nat (a + 1)). destruct H as [->|(n & E & H)]; [split; [reflexivity|]; apply in_seq; unfold no_action; lia|].
    split; [lia|]. apply in_seq. assert (K : n <= list_max cands).
    { unfold at_pos in E. destruct (q <? 0)%Z; [discriminate|]. apply nth_error_In in E. pose proof (list_max_le cands (list_max cands)) as [L _]. specialize (L (le_n _)). rewrite Forall_forall in L. apply L, E. }
    lia.
  Qed.
  Lemma universe_one q : (0 <= q <= N + 1)%Z -> In [q] universe.
  Proof. intros H. unfold universe. apply in_or_app. left. apply in_map_iff. exists q. split; [reflexivity|apply place_in, H]. Qed.
  Lemma universe_three q a : (0 <= q <= N)%Z -> a = no_action \/ edge_at cands q a -> In [q; a; (q + 1)%Z] universe.
  Proof.
    intros H Ha. unfold universe. apply in_or_app. right. apply in_flat_map. exists q. split; [apply place_in; lia|]. apply in_map_iff. exists a. split; [reflexivity|apply (edge_in q), Ha].
  Qed.
  Lemma universe_back s : In s universe -> exists p, back s = Some p /\ (0 <= p)%Z.
  Proof.
    unfold universe. rewrite in_app_iff, in_map_iff, in_flat_map. intros [(q & <- & Hq)|(q & Hq & Hs)].
    - exists q. split; [reflexivity|apply place_out in Hq; lia].
    - apply in_map_iff in Hs. destruct Hs as (a & <- & _). exists (q + 1)%Z. split; [reflexivity|apply place_out in Hq; lia].
  Qed.
  Lemma pure_universe s a ns a' rw d p : ok3 cands s -> In s universe -> back s = Some p -> (p <= N)%Z -> offered s a -> pure s a = Ok (ns, a', rw, d) -> In ns universe.
  Proof.
    intros K U B Hp O P. destruct (universe_back s U) as (p' & B' & P0). rewrite B in B'. injection B' as <-.
    destruct (offered_edge cands s a p B O) as [Oe|Oe].
    - destruct K as [(q & ->)|(q & b & r & -> & Kb)]; cbn in B; injection B as ->; unfold EnvProps.pure, new_state, reward in P; cbn in P; rewrite Oe in P; cbn in P; injection P as <- <- <- <-; apply universe_three; auto; lia.
    - assert (N0 : (action2internal a <? 0)%Z = false) by (destruct Oe as (n & _ & H); apply Z.ltb_ge; lia).
      destruct K as [(q & ->)|(q & b & r & -> & Kb)]; cbn in B; injection B as ->; unfold EnvProps.pure, new_state, reward in P; cbn [length Nat.leb Nat.ltb back rev app derefO bindO skipn] in P; rewrite N0, (edge_at_ok _ _ _ Oe) in P; cbn [bindO] in P.
      + cbn in P. injection P as <- <- <- <-. apply universe_three; auto; lia.
      + unfold from_back in P. cbn [length Nat.sub nth_error derefO] in P. destruct (b <? 0)%Z eqn:Hb.
        * cbn in P. injection P as <- <- <- <-. apply universe_three; auto; lia.
        * destruct Kb as [->|Kb]; [discriminate Hb|]. rewrite (edge_at_ok _ _ _ Kb) in P. cbn [bindO] in P. cbn [Nat.ltb Nat.leb] in P. rewrite andb_false_r in P.
          cbn in P. destruct (v_skip (judge [q; b; p] (action2internal a))); cbn in P; injection P as <- <- <- <-; [apply universe_one; lia|apply universe_three; auto; lia].
  Qed.

  (** *** Looking for states *)
  Definition inside (e : env) : Prop := forall s, In s (st_list e) -> In s universe.
  Definition near (e : env) (l : list nat) : Prop := forall i, In i l -> exists s p, nth_error (st_list e) i = Some s /\ back s = Some p /\ (p <= N)%Z.
  Lemma near_extends e e' l : extends e e' -> near e l -> near e' l.
  Proof. intros X H i Hi. destruct (H i Hi) as (s & p & Ns & B). exists s, p. split; [apply (extends_nth _ _ _ _ X Ns)|exact B]. Qed.
  Lemma extends_cur_l (e e' : env) i : extends (set_cur e i) e' -> extends e e'.
  Proof. intros H. exact H. Qed.
  Lemma settled_extends e e' s : extends e e' -> settled_at e s -> settled_at e' s.
  Proof. intros [l X] H a ns a' rw d O P. rewrite X. apply in_or_app. left. apply (H a ns a' rw d O P). Qed.
  Lemma inside_more e e' s i p : inv3 e -> nth_error (st_list e) i = Some s -> back s = Some p -> (p <= N)%Z -> inside e ->
    (forall x, In x (st_list e') -> In x (st_list e) \/ exists a a' rw d, offered s a /\ pure s a = Ok (x, a', rw, d)) -> inside e'.
  Proof.
    intros K Ns B Hp H I x Hx. destruct (I x Hx) as [H1|(a & a' & rw & d & O & P)]; [apply H, H1|].
    apply (pure_universe s a x a' rw d p (proj2 K _ _ Ns) (H s (nth_error_In _ _ Ns)) B Hp O P).
  Qed.

  Lemma discover_sim s si : forall l e states todo highest, inv3 e -> st_cur e = s -> nth_error (st_list e) s = Some si -> (forall a, In a l -> offered si a) ->
    near e states -> incl todo states -> NoDup states ->
    exists e' states' todo' highest', foldO (e_discover cands 3 first_reward judge s) l (e, states, todo, highest) = Ok (e', states', todo', highest') /\ inv3 e' /\ extends e e'
      /\ (forall E, wf E -> extends e' E -> fold_left (discover (stp_of E) s) l (states, todo, highest) = (states', todo', highest'))
      /\ (forall x, In x (st_list e') -> In x (st_list e) \/ exists a a' rw d, offered si a /\ pure si a = Ok (x, a', rw, d))
      /\ near e' states' /\ incl todo' states' /\ NoDup states' /\ incl states states' /\ (forall x, In x states' -> In x states \/ In x todo') /\ incl todo todo'
      /\ length states' + length todo = length states + length todo'
      /\ (forall a ns a' rw d, In a l -> pure si a = Ok (ns, a', rw, d) -> In ns (st_list e')).
  Proof.
    induction l as [|a l IH]; intros e states todo highest K C Ns O Ne In0 ND; cbn [foldO fold_left].
    - exists e, states, todo, highest. split; [reflexivity|]. split; [exact K|]. split; [apply extends_refl|]. split; [auto|]. split; [auto|]. split; [exact Ne|]. split; [exact In0|]. split; [exact ND|].
      split; [apply incl_refl|]. split; [auto|]. split; [apply incl_refl|]. split; [reflexivity|]. intros a ns a' rw d [].
    - assert (N' : nth_error (st_list e) (st_cur e) = Some si) by (rewrite C; exact Ns).
      destruct (step_sim e a si K N' (O a (or_introl eq_refl))) as (e1 & r & S1 & K1 & X1 & C1 & T1 & _ & ns & a' & P & Nr & I1).
      unfold e_discover at 1. rewrite S1. cbn [bindO].
      set (new := negb (r_done r) && negb (existsb (Nat.eqb (r_state r)) states)).
      set (st1 := if new then (states ++ [r_state r], todo ++ [r_state r]) else (states, todo)).
      assert (G : near (set_cur e1 s) (fst st1) /\ incl (snd st1) (fst st1) /\ NoDup (fst st1) /\ incl states (fst st1) /\ (forall x, In x (fst st1) -> In x states \/ In x (snd st1)) /\ incl todo (snd st1)
        /\ length (fst st1) + length todo = length states + length (snd st1)).
      { unfold st1. destruct new eqn:En; cbn [fst snd].
        - unfold new in En. apply andb_prop in En. destruct En as [D1 D2]. apply negb_true_iff in D1, D2.
          split; [|split; [|split; [|split; [|split; [|split]]]]].
          + intros i Hi. apply in_app_or in Hi. destruct Hi as [Hi|[<-|[]]]; [apply (near_extends e e1 _ X1 Ne i Hi)|]. rewrite D1 in P. destruct (pure_done _ _ _ _ _ _ _ _ _ _ _ P) as (b & Bb & Db).
            exists ns, b. split; [exact Nr|]. split; [exact Bb|]. symmetry in Db. apply Z.leb_gt in Db. lia.
          + intros x Hx. apply in_app_or in Hx. apply in_or_app. destruct Hx as [Hx|Hx]; [left; apply In0, Hx|right; exact Hx].
          + apply NoDup_app'; [exact ND|constructor; [intros []|constructor]|]. intros x Hx [<-|[]]. assert (existsb (Nat.eqb (r_state r)) states = true); [|congruence].
            apply existsb_exists. exists (r_state r). split; [exact Hx|apply Nat.eqb_refl].
          + apply incl_appl, incl_refl.
          + intros x Hx. apply in_app_or in Hx. destruct Hx as [Hx|Hx]; [left; exact Hx|right; apply in_or_app; right; exact Hx].
          + apply incl_appl, incl_refl.
          + rewrite !app_length. cbn [length]. lia.
        - split; [apply (near_extends e e1 _ X1 Ne)|]. split; [exact In0|]. split; [exact ND|]. split; [apply incl_refl|]. split; [auto|]. split; [apply incl_refl|reflexivity]. }
      destruct st1 as [states1 todo1] eqn:Est. cbn [fst snd] in G. destruct G as (G1 & G2 & G3 & G4 & G5 & G6 & G7).
      destruct (IH (set_cur e1 s) states1 todo1 (if highest <? r_state r then r_state r else highest)) as (e2 & st' & td' & hi' & F & K2 & X2 & T2 & I2 & H1 & H2 & H3 & H4 & H5 & H6 & H7 & H8); auto.
      + apply set_cur_inv, K1.
      + apply (extends_nth _ _ _ _ X1 Ns).
      + intros b Hb. apply O. right. exact Hb.
      + exists e2, st', td', hi'. cbn [bindO]. split; [exact F|]. split; [exact K2|].
        split; [exact (ext_trans e e1 e2 X1 X2)|]. split; [|split].
        * intros E WE XE. rewrite <- (T2 E WE XE). f_equal. unfold discover. pose proof (T1 E WE (ext_trans e1 e2 E X2 XE)) as T. rewrite C in T. rewrite T. fold new. unfold st1 in Est. rewrite Est. reflexivity.
        * intros x Hx. apply I2 in Hx. cbn in Hx. destruct Hx as [Hx|Hx]; [|right; exact Hx]. apply I1 in Hx. destruct Hx as [Hx| ->]; [left; exact Hx|].
          right. exists a, a', (r_reward r), (r_done r). split; [apply O; left; reflexivity|exact P].
        * split; [exact H1|]. split; [exact H2|]. split; [exact H3|]. split; [exact (incl_tran G4 H4)|]. split; [|split; [exact (incl_tran G6 H6)|split; [lia|]]].
          -- intros x Hx. destruct (H5 x Hx) as [H|H]; [|right; exact H]. destruct (G5 x H) as [H'|H']; [left; exact H'|right; apply H6, H'].
          -- intros b nb ab rb db [<-|Hb] Pb; [|apply (H8 b nb ab rb db Hb Pb)]. rewrite P in Pb. injection Pb as <- _ _ _. destruct X2 as [l2 X2]. rewrite X2. apply in_or_app. left. apply (nth_error_In _ _ Nr).
  Qed.

  Lemma inside_bound e l : inv3 e -> inside e -> near e l -> NoDup l -> length l <= length universe.
  Proof.
    intros K I Ne ND. apply Nat.le_trans with (length (st_list e)).
    - apply (bounded_length l (length (st_list e)) ND). intros i Hi. destruct (Ne i Hi) as (s & p & Ns & _). apply nth_error_Some. congruence.
    - apply NoDup_incl_length; [apply (wf_nodup _ _ _ _ _ _ (proj1 K))|exact I].
  Qed.

  Lemma generate_sim : forall fuel e states todo highest, inv3 e -> inside e -> near e states -> incl todo states -> NoDup states ->
    (forall i s, In i states -> ~ In i todo -> nth_error (st_list e) i = Some s -> settled_at e s) -> length universe + length todo <= fuel + length states ->
    exists e' states' highest', e_generate cands 3 first_reward judge sort intelligent fuel e states todo highest = Ok (e', states', highest') /\ inv3 e' /\ extends e e'
      /\ (forall E, wf E -> extends e' E -> generate (acts_of E) (stp_of E) fuel states todo highest = Ok (states', highest'))
      /\ near e' states' /\ (forall i s, In i states' -> nth_error (st_list e') i = Some s -> settled_at e' s).
  Proof.
    induction fuel as [|f IH]; intros e states todo highest K I Ne In0 ND St L; (destruct todo as [|s todo]; cbn [e_generate generate]).
    - exists e, states, highest. split; [reflexivity|]. split; [exact K|]. split; [apply extends_refl|]. split; [auto|]. split; [exact Ne|]. intros i s Hi. apply (St i s Hi). intros [].
    - exfalso. pose proof (inside_bound e states K I Ne ND). cbn [length] in L. lia.
    - exists e, states, highest. split; [reflexivity|]. split; [exact K|]. split; [apply extends_refl|]. split; [auto|]. split; [exact Ne|]. intros i s Hi. apply (St i s Hi). intros [].
    - destruct (Ne s (In0 s (or_introl eq_refl))) as (si & p & Ns & B & Hp).
      destruct (actions_sim (set_cur e s) si (set_cur_inv e s K) Ns) as (e1 & A & K1 & X1 & C1 & _ & I1). cbn [set_cur st_cur] in C1. rewrite A. cbn [bindO].
      assert (Ns1 : nth_error (st_list e1) s = Some si) by (apply (extends_nth _ _ _ _ X1 Ns)).
      assert (In1 : inside e1) by (apply (inside_more e e1 si s p K Ns B Hp I I1)).
      destruct (discover_sim s si (offers si) e1 states todo highest K1 C1 Ns1) as (e2 & st2 & td2 & hi2 & F & K2 & X2 & T2 & I2 & H1 & H2 & H3 & H4 & H5 & H6 & H7 & H8).
      + intros a Ha. apply offers_in, Ha.
      + apply (near_extends e e1 _ X1 Ne).
      + intros x Hx. apply In0. right. exact Hx.
      + exact ND.
      + rewrite F. cbn [bindO]. assert (X02 : extends e e2) by exact (ext_trans (set_cur e s) e1 e2 X1 X2).
        destruct (IH e2 st2 td2 hi2 K2) as (e3 & st3 & hi3 & G & K3 & X3 & T3 & G1 & G2); auto.
        * apply (inside_more e1 e2 si s p K1 Ns1 B Hp In1 I2).
        * intros i x Hi Hn Nx. destruct (H5 i Hi) as [Hs|Hs]; [|contradiction]. destruct (Nat.eq_dec i s) as [->|Hd].
          -- rewrite (extends_nth _ _ _ _ X02 Ns) in Nx. injection Nx as <-. intros a ns a' rw d O P. apply (H8 a ns a' rw d); [apply offers_in, O|exact P].
          -- assert (Nt : ~ In i (s :: todo)) by (intros [->|Ht]; [contradiction|apply Hn, H6, Ht]). destruct (Ne i Hs) as (x' & _ & Nx' & _).
             rewrite (extends_nth _ _ _ _ X02 Nx') in Nx. injection Nx as <-. apply (settled_extends e e2 x' X02), (St i x' Hs Nt Nx').
        * cbn [length] in L. lia.
        * exists e3, st3, hi3. split; [exact G|]. split; [exact K3|]. split; [exact (ext_trans e e2 e3 X02 X3)|]. split; [|auto].
          intros E WE XE. assert (X2E : extends e2 E) by exact (ext_trans e2 e3 E X3 XE). rewrite (acts_at E s si) by (apply (extends_nth _ _ _ _ X2E), (extends_nth _ _ _ _ X02), Ns).
          rewrite (T2 E WE X2E). apply (T3 E WE XE).
  Qed.

  Lemma generate_mono : forall f f' e states todo highest r, f <= f' -> e_generate cands 3 first_reward judge sort intelligent f e states todo highest = Ok r ->
    e_generate cands 3 first_reward judge sort intelligent f' e states todo highest = Ok r.
  Proof.
    induction f as [|f IH]; intros f' e states todo highest r H E; destruct todo as [|s todo]; cbn [e_generate] in E; try discriminate.
    - destruct f'; exact E.
    - destruct f'; exact E.
    - destruct f' as [|f']; [lia|]. cbn [e_generate]. destruct (actions intelligent (set_cur e s)) as [[e1 l]|x| |]; try discriminate. cbn [bindO] in *.
      destruct (foldO _ l _) as [[[[e2 st2] td2] hi2]|x| |]; try discriminate. cbn [bindO] in *. apply IH; [lia|exact E].
  Qed.

  (** *** Sweeps and the policy, once the states are known *)
  Section Known.
    Variable E : env.
    Hypothesis WE : inv3 E.
    Variable states : list nat.
    Hypothesis states_near : near E states.
    Hypothesis states_settled : forall i s, In i states -> nth_error (st_list E) i = Some s -> settled_at E s.
    Definition like (e : env) : Prop := inv3 e /\ st_list e = st_list E.
    Definition cand_of (i : nat) : nat := match nth_error (st_list E) i with Some s => match back s with Some c => Z.to_nat c | None => 0 end | None => 0 end.

    Lemma like_extends e : st_list e = st_list E -> extends e E.
    Proof. intros H. exists []. rewrite H, app_nil_r. reflexivity. Qed.
    Lemma like_settled e s : st_list e = st_list E -> settled_at E s -> settled_at e s.
    Proof. intros H St a ns a' rw d O P. rewrite H. apply (St a ns a' rw d O P). Qed.
    Lemma like_set e i : like e -> like (set_cur e i).
    Proof. intros [K H]. split; [apply set_cur_inv, K|exact H]. Qed.

    Lemma like_step e a s : like e -> In (st_cur e) states -> nth_error (st_list E) (st_cur e) = Some s -> offered s a ->
      exists e' r, step e a = Ok (e', r) /\ like e' /\ st_cur e' = r_state r /\ stp_of E (st_cur e) a = (r_state r, r_action r, r_reward r, r_done r).
    Proof.
      intros [K H] Hs Ns O. assert (Ns' : nth_error (st_list e) (st_cur e) = Some s) by (rewrite H; exact Ns).
      destruct (step_sim e a s K Ns' O) as (e' & r & S1 & K1 & X1 & C1 & T1 & St & _). exists e', r.
      assert (H' : st_list e' = st_list E) by (rewrite St; [exact H|]; apply (like_settled e s H), (states_settled _ _ Hs Ns)).
      split; [exact S1|]. split; [split; [exact K1|exact H']|]. split; [exact C1|]. apply T1; [exact (proj1 WE)|apply like_extends, H'].
    Qed.
    Lemma like_actions e s : like e -> In (st_cur e) states -> nth_error (st_list E) (st_cur e) = Some s ->
      exists e', actions intelligent e = Ok (e', offers s) /\ like e' /\ st_cur e' = st_cur e.
    Proof.
      intros [K H] Hs Ns. assert (Ns' : nth_error (st_list e) (st_cur e) = Some s) by (rewrite H; exact Ns).
      destruct (actions_sim e s K Ns') as (e' & A & K1 & X1 & C1 & St & _). exists e'. split; [exact A|]. split; [|exact C1]. split; [exact K1|].
      rewrite St; [exact H|]. apply (like_settled e s H), (states_settled _ _ Hs Ns).
    Qed.

    Lemma best_sim V s si : In s states -> nth_error (st_list E) s = Some si -> forall l m m' e, like e -> st_cur e = s -> (forall a, In a l -> offered si a) ->
      best (stp_of E) discount V s l m = Ok m' -> exists e', e_best cands 3 first_reward judge discount V s l m e = Ok (e', m') /\ like e' /\ st_cur e' = s.
    Proof.
      intros Hs Ns. induction l as [|a l IH]; intros m m' e Le C O B; cbn [best e_best] in *.
      - injection B as <-. exists e. auto.
      - rewrite <- C in Hs, Ns. destruct (like_step e a si Le Hs Ns (O a (or_introl eq_refl))) as (e1 & r & S1 & L1 & C1 & T1). rewrite S1. cbn [bindO]. rewrite C in *.
        unfold action_value in B. rewrite T1 in B. unfold e_value. destruct (r_done r).
        + cbn [bindO] in *. apply (IH _ _ (set_cur e1 s)) in B; [exact B|apply like_set, L1|reflexivity|intros b Hb; apply O; right; exact Hb].
        + destruct (nth_error V (r_state r)) as [v|]; [|discriminate B]. cbn [derefO bindO] in *.
          apply (IH _ _ (set_cur e1 s)) in B; [exact B|apply like_set, L1|reflexivity|intros b Hb; apply O; right; exact Hb].
    Qed.

    Lemma near_state s : In s states -> exists si c, nth_error (st_list E) s = Some si /\ back si = Some c /\ acts_of E s = offers si.
    Proof. intros Hs. destruct (states_near s Hs) as (si & c & Ns & B & _). exists si, c. split; [exact Ns|]. split; [exact B|apply acts_at, Ns]. Qed.

    Lemma sweep_sim : forall l V value trained r e, incl l states -> like e -> sweep (acts_of E) (stp_of E) discount l V value trained = Ok r ->
      exists e', e_sweep cands 3 first_reward judge sort intelligent discount l V value trained e = Ok (e', r) /\ like e'.
    Proof.
      induction l as [|s l IH]; intros V value trained r e Hl Le S; cbn [sweep e_sweep] in *.
      - injection S as <-. exists e. auto.
      - assert (Hs : In s states) by (apply Hl; left; reflexivity). destruct (near_state s Hs) as (si & c & Ns & B & A). rewrite A in S.
        assert (Hl' : incl l states) by (intros x Hx; apply Hl; right; exact Hx).
        destruct (like_actions (set_cur e s) si (like_set e s Le) Hs Ns) as (e1 & A1 & L1 & C1). rewrite A1. cbn [bindO]. cbn [set_cur st_cur] in C1.
        destruct (best (stp_of E) discount V s (offers si) None) as [m|x| |] eqn:Bm; try discriminate S. cbn [bindO] in S.
        destruct (best_sim V s si Hs Ns (offers si) None m e1 L1 C1) as (e2 & B2 & L2 & C2); [intros a Ha; apply offers_in, Ha|exact Bm|]. rewrite B2. cbn [bindO].
        destruct m as [[a x]|]; [|apply (IH _ _ _ _ e2 Hl' L2 S)]. destruct (update V s x) as [V1|]; [|discriminate S]. cbn [derefO] in *. apply (IH _ _ _ _ e2 Hl' L2 S).
    Qed.

    Lemma iterate_sim : forall fuel V value delta trained r e, like e -> iterate (acts_of E) (stp_of E) discount threshold fuel states V value delta trained = Ok r ->
      exists e', e_iterate cands 3 first_reward judge sort intelligent discount threshold fuel states V value delta trained e = Ok (e', r) /\ like e'.
    Proof.
      induction fuel as [|f IH]; intros V value delta trained r e Le I; cbn [iterate e_iterate] in *; destruct (go_on threshold delta); try discriminate; try (injection I as <-; exists e; auto).
      destruct (sweep (acts_of E) (stp_of E) discount (rev states) V 0 trained) as [[[V1 v1] t1]|x| |] eqn:S; try discriminate I. cbn [bindO] in I.
      destruct (sweep_sim (rev states) V 0%Q trained (V1, v1, t1) e) as (e1 & S1 & L1); [intros x Hx; apply in_rev, Hx|exact Le|exact S|]. rewrite S1. cbn [bindO]. cbn zeta in *. apply (IH _ _ _ _ _ e1 L1 I).
    Qed.

    Hypothesis states_closed : forall s a, In s states -> In a (acts_of E s) -> final (stp_of E) s a = false -> In (next (stp_of E) s a) states.

    Lemma follow_sim V : forall fuel s policy rewards r e, In s states -> like e -> st_cur e = s ->
      follow (acts_of E) (stp_of E) discount cand_of action2internal fuel V s policy rewards = Ok r ->
      exists e', e_follow cands 3 first_reward judge sort intelligent discount fuel V s policy rewards e = Ok (e', r) /\ like e'.
    Proof.
      induction fuel as [|f IH]; intros s policy rewards r e Hs Le C F; cbn [follow e_follow] in *; destruct (near_state s Hs) as (si & c & Ns & B & A); rewrite A in F;
        (assert (Hc : In (st_cur e) states) by (rewrite C; exact Hs)); (assert (Nc : nth_error (st_list E) (st_cur e) = Some si) by (rewrite C; exact Ns));
        destruct (like_actions e si Le Hc Nc) as (e1 & A1 & L1 & C1); rewrite A1; cbn [bindO].
      - destruct (offers si); [|discriminate F]. injection F as <-. exists e1. auto.
      - destruct (offers si) as [|a0 as0] eqn:Eo; [exfalso; apply (offers_some si Eo)|]. rewrite <- Eo in F |- *.
        destruct (best (stp_of E) discount V s (offers si) None) as [m|x| |] eqn:Bm; try discriminate F. cbn [bindO] in F.
        rewrite C in C1. destruct (best_sim V s si Hs Ns (offers si) None m e1 L1 C1) as (e2 & B2 & L2 & C2); [intros a Ha; apply offers_in, Ha|exact Bm|]. rewrite B2. cbn [bindO].
        destruct m as [[a x]|]; [|discriminate F].
        assert (Ha : In a (offers si)).
        { clear - Bm. assert (G : forall l m z, best (stp_of E) discount V s l m = Ok (Some z) -> In (fst z) l \/ m = Some z).
          { induction l as [|b l IH]; intros m z Hb; cbn [best] in Hb; [injection Hb as ->; auto|]. destruct (action_value (stp_of E) discount V s b) as [y|y| |]; try discriminate Hb. cbn [bindO] in Hb.
            destruct (IH _ _ Hb) as [H|H]; [left; right; exact H|]. destruct (better y m); [|right; exact H]. injection H as <-. left. left. reflexivity. }
          destruct (G _ _ _ Bm) as [H|H]; [exact H|discriminate H]. }
        assert (Hc2 : In (st_cur e2) states) by (rewrite C2; exact Hs). assert (Nc2 : nth_error (st_list E) (st_cur e2) = Some si) by (rewrite C2; exact Ns).
        destruct (like_step e2 a si L2 Hc2 Nc2) as (e3 & r3 & S3 & L3 & C3 & T3); [apply offers_in, Ha|]. rewrite S3. cbn [bindO]. rewrite C2 in T3. rewrite T3 in F.
        rewrite C2, (proj2 L3), Ns. cbn [derefO]. rewrite B. cbn [derefO].
        assert (Ex : extend cand_of action2internal policy s (r_action r3) = extend (fun _ => Z.to_nat c) action2internal policy s (r_action r3)).
        { unfold extend, cand_of. rewrite Ns, B. reflexivity. }
        rewrite Ex in F. destruct (r_done r3) eqn:D; [injection F as <-; exists e3; auto|]. apply (IH _ _ _ _ e3) in F; auto.
        assert (K : In (next (stp_of E) s a) states) by (apply states_closed; [exact Hs|rewrite A, <- Eo; exact Ha|unfold final; rewrite T3; reflexivity]). unfold next in K. rewrite T3 in K. exact K.
    Qed.
  End Known.

  (** *** All together *)
  Lemma reset_known e : wf e -> nth_error (st_list e) 0 = Some [0%Z] -> reset cands e = (set_cur e 0, 0).
  Proof.
    intros W H. unfold reset, internal2state. assert (F : find_state (st_map e) [0%Z] = Some 0) by (apply (find_wf _ _ _ _ _ e [0%Z] 0 W), H). rewrite F. reflexivity.
  Qed.

  Definition first_env (cur : nat) : env := fst (reset cands (init_env cur)).
  Lemma first_ok cur : inv3 (first_env cur) /\ st_list (first_env cur) = [[0%Z]] /\ reset cands (init_env cur) = (first_env cur, 0).
  Proof.
    assert (W : wf (first_env cur)).
    { unfold first_env. destruct (reset cands (init_env cur)) as [e i] eqn:R. pose proof (reset_wf 0%Q cands 3 first_reward judge (init_env cur) (wf_init _ _ _ _ _ cur)) as W; rewrite R in W; apply W. }
    split; [|split; reflexivity]. split; [exact W|]. intros [|i] s H; cbn in H; [injection H as <-; left; exists 0%Z; reflexivity|destruct i; discriminate H].
  Qed.

  Lemma learn_sim cur : exists E states highest, inv3 E /\ nth_error (st_list E) 0 = Some [0%Z] /\ near E states
    /\ (forall i s, In i states -> nth_error (st_list E) i = Some s -> settled_at E s)
    /\ (forall fuel, length universe <= fuel -> generate_states (acts_of E) (stp_of E) 0 fuel = Ok (states, highest))
    /\ (forall fuel extra r, length universe <= fuel -> learn (acts_of E) (stp_of E) 0 discount threshold (cand_of E) action2internal fuel extra = Ok r ->
          exists e, e_learn cands 3 first_reward judge sort intelligent discount threshold fuel extra cur = Ok (e, r) /\ st_list e = st_list E).
  Proof.
    destruct (first_ok cur) as (K0 & L0 & R0).
    destruct (generate_sim (length universe) (first_env cur) [0] [0] 0 K0) as (E & states & highest & G & KE & XE & T & Ne & St).
    - intros s Hs. rewrite L0 in Hs. destruct Hs as [<-|[]]. apply universe_one. lia.
    - intros i [<-|[]]. rewrite L0. exists [0%Z], 0%Z. split; [reflexivity|]. split; [reflexivity|lia].
    - apply incl_refl.
    - constructor; [intros []|constructor].
    - intros i s H1 H2. contradiction.
    - cbn [length]. lia.
    - assert (N0 : nth_error (st_list E) 0 = Some [0%Z]) by (apply (extends_nth _ _ _ _ XE); rewrite L0; reflexivity).
      assert (TE : forall fuel, length universe <= fuel -> generate_states (acts_of E) (stp_of E) 0 fuel = Ok (states, highest)).
      { intros fuel Hf. apply (generate_more _ _ (length universe)); [exact Hf|]. apply (T E (proj1 KE)), extends_refl. }
      exists E, states, highest. split; [exact KE|]. split; [exact N0|]. split; [exact Ne|]. split; [exact St|]. split; [exact TE|].
      intros fuel extra r Hf L. unfold learn in L. rewrite (TE fuel Hf) in L. cbn [bindO] in L. unfold e_learn. rewrite R0.
      rewrite (generate_mono _ _ _ _ _ _ _ Hf G). cbn [bindO].
      destruct (iterate (acts_of E) (stp_of E) discount threshold fuel states (repeat 0%Q (S highest + extra)) 0 None false) as [[V trained]|x| |] eqn:It; try discriminate L. cbn [bindO] in L.
      destruct (iterate_sim E KE states Ne St fuel _ _ _ _ _ E (conj KE eq_refl) It) as (e2 & I2 & L2). rewrite I2. cbn [bindO].
      rewrite (reset_known e2 (proj1 (proj1 L2))) by (rewrite (proj2 L2); exact N0).
      destruct trained; [|injection L as <-; exists (set_cur e2 0); split; [reflexivity|exact (proj2 L2)]].
      destruct (C49_states _ _ _ _ _ _ (TE fuel Hf)) as (_ & Re & _).
      destruct (follow_sim E KE states Ne St (gen_closed _ _ _ fuel states highest (TE fuel Hf)) V fuel 0 [] [] r (set_cur e2 0)) as (e3 & F3 & L3); auto.
      + apply Re. constructor.
      + apply like_set, L2.
      + exists e3. split; [exact F3|exact (proj2 L3)].
  Qed.
End Sim.
