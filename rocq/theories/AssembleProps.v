(** C53: the route between two candidates; C54: the route of all chosen candidates; C50: the edge ids reported. *)
From Coq Require Import ZArith NArith Lia.
From Verif Require Import Base ListAux RichLine RichLineProps Route RouteProofs RouteProps Assemble AssembleProofs.
Local Open Scope nat_scope.

Section C53.
  Context {P L : Type}.
  Variable eqp : P -> P -> bool.
  Hypothesis eqp_eq : forall a b, eqp a b = true <-> a = b.
  Variable zeroL : L.
  Variable addL : L -> L -> L.
  Variable leL : L -> L -> bool.
  Variable dist : P -> P -> L.
  Variable opposite : P * P -> P * P -> bool.
  Variable route_between : nat -> nat -> @route P.
  Variable edge_line : nat -> list P.
  Variable substring : list P -> L -> L -> P -> P -> list P.

  Notation candidate_route := (candidate_route eqp zeroL addL leL dist opposite route_between edge_line substring).
  Notation along := (along eqp zeroL addL leL dist edge_line).

  (** **** The route leads from the one projected point to the other: along the edge if both are on it in this order, otherwise over the
      rest of the first edge, the shortest route and the beginning of the second edge; if turning inside of edges is allowed, ways there
      and back ([shorter]) are left out of it. There is none exactly if there is no route between the edges. *)
  Theorem C53_between cf ct a b turns :
    let p := ce_point cf in let q := ce_point ct in
    let mid := route_between (ce_edge cf) (ce_edge ct) in
    let part := fun x y => substring (edge_line (ce_edge cf)) x y p q in
    leads p (ce_to cf) a -> leads b (ce_from ct) q -> (invalid mid = false -> path a (lines mid) b) ->
    (forall x y, along cf ct = Some (x, y) -> path p [part x y] q) ->
    exists n t, (forall fuel, n <= fuel -> candidate_route fuel turns cf ct = Ok t)
      /\ (invalid t = false -> path p (lines t) q)
      /\ (invalid t = true <-> p <> q /\ along cf ct = None /\ invalid mid = true)
      /\ (p = q -> lines t = [])
      /\ (p <> q -> forall x y, along cf ct = Some (x, y) -> lines t = [part x y])
      /\ (p <> q -> along cf ct = None -> invalid mid = false ->
          let whole := poly eqp p ([ce_to cf] ++ lines mid ++ [ce_from ct]) in
          shorter eqp opposite whole (poly eqp p (lines t)) /\ (turns = false -> poly eqp p (lines t) = whole)).
  Proof.
    intros p q mid part Hs He Hm Hsub. unfold Assemble.candidate_route. fold p q mid.
    destruct (eqp p q) eqn:E.
    { apply eqp_eq in E. exists 0, (flagged false). split; [auto|]. cbn [invalid flagged lines]. split; [rewrite E; constructor|]. repeat split; try congruence; tauto. }
    apply (eqp_false eqp eqp_eq) in E. destruct (along cf ct) as [[x y]|] eqn:Al.
    { exists 0, (of_lines [part x y]). split; [auto|]. cbn [invalid of_lines lines]. split; [auto|].
      split; [split; [discriminate|intros (_ & ? & _); discriminate]|]. split; [congruence|]. split; [intros _ ? ? [= <- <-]; reflexivity|discriminate]. }
    destruct (invalid mid) eqn:Im; cbn [negb].
    { exists 0, (flagged true). split; [auto|]. cbn [invalid flagged lines]. split; [discriminate|]. split; [tauto|]. split; [congruence|]. split; [discriminate|]. discriminate. }
    destruct (three_leads eqp eqp_eq opposite turns (ce_to cf) mid (ce_from ct) p a b q Im Hs (Hm eq_refl) He) as (n & t & T1 & T2 & T3 & T4 & T5).
    exists n, t. split; [exact T1|]. split; [auto|]. split; [split; [congruence|intros (_ & _ & ?); congruence]|]. split; [congruence|]. split; [discriminate|]. auto.
  Qed.

  (** **** If the rest of the first edge does not lead to where the route between the edges begins, the exception of merging them is turned
      into an invalid route. *)
  Theorem C53_detached fuel cf ct l ls :
    let mid := route_between (ce_edge cf) (ce_edge ct) in
    ce_point cf <> ce_point ct -> along cf ct = None -> invalid mid = false -> lines mid = l :: ls ->
    moves (ce_to cf) -> moves l -> back (ce_to cf) <> front l ->
    exists t, candidate_route fuel false cf ct = Ok t /\ invalid t = true.
  Proof.
    intros mid Np Al Im El Mt Ml Ng. unfold Assemble.candidate_route. rewrite (proj2 (eqp_false eqp eqp_eq _ _) Np), Al. fold mid. rewrite Im. cbn [negb].
    unfold three. exists (flagged true). split; [|reflexivity]. unfold caught, merge.
    assert (MT : mergeable eqp (of_lines [ce_to cf]) = true) by (rewrite mergeable_spec; cbn [invalid of_lines lines negb andb existsb]; rewrite (proj2 (moving_spec eqp eqp_eq _) Mt); reflexivity).
    assert (MM : mergeable eqp mid = true).
    { rewrite mergeable_spec, Im, El. cbn [negb andb existsb]. rewrite (proj2 (moving_spec eqp eqp_eq _) Ml). reflexivity. }
    cbn [forallb invalid of_lines andb foldO]. unfold merge_one at 1. rewrite MT. cbn [gap rev bindO lines of_lines app].
    unfold merge_one at 1. rewrite MM. unfold gap. cbn [rev app]. rewrite El.
    destruct (back (ce_to cf)) as [p|] eqn:B.
    2:{ exfalso. unfold back in B. destruct Mt as (u & x & y & v & E & _). rewrite E, rev_app_distr in B. cbn [rev] in B. rewrite <- !app_assoc in B.
        destruct (rev v); discriminate. }
    destruct (front l) as [q|] eqn:F.
    2:{ destruct Ml as (u & x & y & v & -> & _). destruct u; discriminate. }
    rewrite (proj2 (eqp_false eqp eqp_eq p q)) by congruence. reflexivity.
  Qed.
End C53.

(** **** With exact lengths, on the same edge, and with the first candidate neither at the beginning nor at the end of it and the second
    one not at the beginning: the part of the edge between them is taken exactly if the first one comes before the second one. *)
Theorem C53_same_edge {P} (eqp : P -> P -> bool) (dist : P -> P -> Z) (edge_line : nat -> list P) cf ct x s y :
  let len := plain_length eqp dist Z.add 0%Z in
  ce_edge cf = ce_edge ct -> len (ce_from cf) = Ok x -> len (ce_to cf) = Ok s -> len (edge_line (ce_edge cf)) = Ok (x + s)%Z -> len (ce_from ct) = Ok y ->
  along eqp 0%Z Z.add Z.leb dist edge_line cf ct = if (x <=? y)%Z then Some (x, y) else None.
Proof.
  intros len E H1 H2 H3 H4. unfold along. rewrite E, Nat.eqb_refl, <- E. unfold len in *. rewrite H2, H4, H3, H1.
  destruct (Z.leb_spec (x + s) (s + y)), (Z.leb_spec x y); try reflexivity; lia.
Qed.

Section C54.
  Context {P L : Type}.
  Variable eqp : P -> P -> bool.
  Hypothesis eqp_eq : forall a b, eqp a b = true <-> a = b.
  Variable zeroL : L.
  Variable addL : L -> L -> L.
  Variable dist : P -> P -> L.
  Variable opposite : P * P -> P * P -> bool.
  Variable between : nat * nat -> nat * nat -> outcome (@route P).
  Variable in_edges : P -> bool.

  Notation route_loop := (route_loop eqp zeroL addL dist opposite between in_edges).
  Notation candidates_route := (candidates_route eqp zeroL addL dist opposite between in_edges).
  Notation join_last := (join_last eqp opposite in_edges).
  Notation thinner := (thinner eqp opposite in_edges).

  (** the point an entry of the policy stands for *)
  Variable place : nat * nat -> P.

  (** neighbouring entries belong to different measurements and there is a route between them *)
  Inductive routed : list (nat * nat) -> list (@route P) -> Prop :=
  | routed_one f : routed [f] []
  | routed_more f t rest r rs : fst f <> fst t -> between f t = Ok r -> invalid r = false -> path (place f) (lines r) (place t) ->
      routed (t :: rest) rs -> routed (f :: t :: rest) (r :: rs).

  Definition rel (join_merges : bool) (a b : list P) : Prop := if join_merges then thinner a b else a = b.
  Lemma rel_refl j a : rel j a a. Proof. destruct j; [constructor|reflexivity]. Qed.
  Lemma rel_trans j a b c : rel j a b -> rel j b c -> rel j a c.
  Proof. destruct j; cbn; [apply thinner_trans|congruence]. Qed.
  Lemma rel_context j a b c : rel j a b -> rel j (dd eqp (a ++ c)) (dd eqp (b ++ c)).
  Proof. destruct j; cbn; [apply thinner_context; exact eqp_eq|intros ->; reflexivity]. Qed.

  Definition pts (rs : list (@route P)) : list (list P) := concat (map lines rs).
  Lemma pts_app a b : pts (a ++ b) = pts a ++ pts b. Proof. unfold pts. rewrite map_app, concat_app. reflexivity. Qed.
  Lemma pts_one r : pts [r] = lines r. Proof. cbn. apply app_nil_r. Qed.

  Lemma join_last_spec j routes r p c q : (forall x, In x routes -> invalid x = false) -> invalid r = false -> path p (pts routes) c -> path c (lines r) q ->
    forall sk, exists routes1 r1 m, (if j && sk then join_last routes r else (routes, r)) = (routes1, r1) /\ (forall x, In x routes1 -> invalid x = false) /\ invalid r1 = false
      /\ path p (pts routes1) m /\ path m (lines r1) q /\ length routes1 = length routes /\ (routes = [] -> r1 = r)
      /\ rel j (poly eqp p (pts routes ++ lines r)) (poly eqp p (pts routes1 ++ lines r1)).
  Proof.
    intros V Ir Hp Hr sk.
    assert (Same : exists routes1 r1 m, (routes, r) = (routes1, r1) /\ (forall x, In x routes1 -> invalid x = false) /\ invalid r1 = false
      /\ path p (pts routes1) m /\ path m (lines r1) q /\ length routes1 = length routes /\ (routes = [] -> r1 = r)
      /\ rel j (poly eqp p (pts routes ++ lines r)) (poly eqp p (pts routes1 ++ lines r1))) by (exists routes, r, c; repeat (split; [auto|]); apply rel_refl).
    destruct j; cbn [andb]; [|exact Same]. destruct sk; [|exact Same]. unfold Assemble.join_last.
    destruct routes as [|prev rest IH] eqn:Er using rev_ind; [exact Same|]. clear IH. rewrite rev_unit.
    assert (Ip : invalid prev = false) by (apply V, in_app_iff; right; left; reflexivity). rewrite Ir, Ip. cbn [negb andb].
    destruct (match lines r with [] => true | _ => false end) eqn:Lr; [exact Same|]. destruct (match lines prev with [] => true | _ => false end) eqn:Lp; [exact Same|]. cbn [negb andb].
    destruct (back (last (lines prev) [])) as [s|] eqn:Bs; [|exact Same]. destruct (in_edges s) eqn:Is; [exact Same|].
    rewrite pts_app, pts_one in Hp. apply path_app in Hp. destruct Hp as (m0 & Hp1 & Hp2).
    assert (s = c).
    { destruct (lines prev) as [|x xs IH] eqn:Lx using rev_ind; [discriminate|]. rewrite last_last in Bs. apply path_app in Hp2. destruct Hp2 as (m1 & _ & Hx). apply path_end in Hx.
      destruct Hx as [Hx1 Hx2]. destruct (@exists_last _ x) as (u & z & Eu); [rewrite Hx1; discriminate|]. rewrite Eu in *. unfold back in Bs. rewrite rev_unit in Bs. injection Bs as <-. rewrite last_last in Hx2. auto. }
    subst s. destruct (join_thinner eqp eqp_eq opposite in_edges prev r m0 c q Ip Ir Hp2 Hr Is) as (a1 & b1 & m & J1 & J2 & J3 & J4 & J5 & J6).
    rewrite J1. exists (rev (rev rest) ++ [a1]), b1, m. rewrite rev_involutive. split; [reflexivity|]. split; [|split; [exact J3|split; [|split; [exact J5|split; [|split]]]]].
    - intros x Hx. apply in_app_iff in Hx. destruct Hx as [Hx|[<-|[]]]; [apply V, in_app_iff; left; exact Hx|exact J2].
    - rewrite pts_app, pts_one. apply path_app. exists m0. auto.
    - rewrite !app_length. reflexivity.
    - intros E. destruct rest; discriminate.
    - cbn [rel]. rewrite !pts_app, !pts_one, <- !app_assoc. rewrite (poly_app eqp p _ m0 _ Hp1), (poly_app eqp p (pts rest) m0 (lines a1 ++ lines b1) Hp1).
      clear - eqp_eq J6 Hp1. set (u := removelast (poly eqp p (pts rest))).
      assert (G : forall a b, thinner a b -> (exists x, a = dd eqp (m0 :: x)) -> thinner (dd eqp ((u ++ [m0]) ++ a)) (dd eqp ((u ++ [m0]) ++ b))).
      { intros a b H. induction H as [l|U w s z V l I N1 N2 O H IH]; intros Hx; [constructor|]. rewrite (dd_app_dd eqp eqp_eq) in *. rewrite !(app_assoc (u ++ [m0])) in *. constructor; auto. apply IH.
        destruct Hx as [x Hx]. destruct (dd_hd eqp eqp_eq m0 x) as [y Hy]. destruct U as [|u0 U]; cbn [app] in *.
        - exists (z :: V). assert (w = m0). { destruct (dd_hd eqp eqp_eq w (s :: z :: V)) as [y' Hy']. congruence. } subst w. reflexivity.
        - assert (u0 = m0). { destruct (dd_hd eqp eqp_eq u0 (U ++ w :: s :: z :: V)) as [y' Hy']. congruence. } subst u0. eexists. reflexivity. }
      assert (F : forall y, dd eqp ((u ++ [m0]) ++ dd eqp (m0 :: y)) = u ++ dd eqp (m0 :: y)).
      { intros y. rewrite (dd_app_dd eqp eqp_eq), <- app_assoc. cbn [app]. rewrite (dd_twice eqp eqp_eq u m0 y).
        assert (D : dd eqp (u ++ [m0]) = u ++ [m0]).
        { destruct (path_points' p _ m0 Hp1) as [v Ev]. unfold u, poly. rewrite Ev. rewrite <- (dd_last eqp v m0). apply (dd_idem eqp eqp_eq). }
        rewrite (dd_split eqp u m0 y), D, removelast_last. reflexivity. }
      specialize (G _ _ J6 (ex_intro _ _ eq_refl)). unfold poly in *. rewrite !F in G. exact G.
  Qed.

  Lemma still_dec (rs : list (@route P)) : {existsb (fun r => existsb (moving eqp) (lines r)) rs = true} + {existsb (fun r => existsb (moving eqp) (lines r)) rs = false}.
  Proof. destruct (existsb (fun r => existsb (moving eqp) (lines r)) rs); auto. Qed.
  Notation any rs := (existsb (fun r : @route P => existsb (moving eqp) (lines r)) rs).

  Lemma loop_connected j pol : forall f rs routes sk p W, routed (f :: pol) rs -> (forall x, In x routes -> invalid x = false) -> path p (pts routes) (place f) ->
    rel j W (poly eqp p (pts routes)) ->
    exists routes', route_loop j (f :: pol) sk routes = Ok routes' /\ (forall x, In x routes' -> invalid x = false) /\ path p (pts routes') (place (last (f :: pol) f))
      /\ rel j (dd eqp (W ++ concat (pts rs))) (poly eqp p (pts routes')) /\ (routes' = [] <-> routes = [] /\ any rs = false).
  Proof.
    induction pol as [|t rest IH]; intros f rs routes sk p W H V Hp HW; inversion H as [f0 Ef|f0 t0 rest0 r rs0 Nft Eb Ir Hr Hrest]; subst.
    - exists routes. split; [reflexivity|]. split; [exact V|]. split; [exact Hp|]. cbn [pts map concat existsb]. rewrite app_nil_r. split; [|tauto].
      eapply rel_trans; [|exact HW]. destruct j; cbn [rel] in *; [|rewrite HW; apply (dd_idem eqp eqp_eq)].
      apply (rel_context true W _ []) in HW as HW'. rewrite !app_nil_r in HW'. unfold poly in HW' at 1. rewrite (dd_idem eqp eqp_eq) in HW'.
      (* W itself is without repetitions *)
      assert (D : dd eqp W = W); [|rewrite D; constructor].
      clear - eqp_eq HW. inversion HW as [l|U w s z V0 l]; subst; [unfold poly; apply (dd_idem eqp eqp_eq)|apply (dd_idem eqp eqp_eq)].
    - cbn [Assemble.route_loop]. rewrite (proj2 (Nat.eqb_neq _ _) Nft), Eb. cbn [bindO].
      destruct (join_last_spec j routes r p (place f) (place t) V Ir Hp Hr (negb sk)) as (routes1 & r1 & m & E1 & V1 & I1 & P1 & P2 & Len & First & R1).
      rewrite E1, I1. cbn [negb andb]. rewrite has_length_moving.
      assert (HW1 : rel j (dd eqp (W ++ concat (lines r))) (poly eqp p (pts routes1 ++ lines r1))).
      { eapply rel_trans; [apply (rel_context j W (poly eqp p (pts routes)) (concat (lines r))), HW|]. unfold poly at 1. rewrite (dd_dd_app eqp eqp_eq). unfold poly at 1 in R1. rewrite concat_app in R1. exact R1. }
      assert (Ec : forall u, dd eqp (W ++ concat (pts (r :: u))) = dd eqp (dd eqp (W ++ concat (lines r)) ++ concat (pts u))).
      { intros u. rewrite (dd_dd_app eqp eqp_eq). unfold pts. cbn [map concat]. rewrite concat_app, app_assoc. reflexivity. }
      change (last (f :: t :: rest) f) with (last (t :: rest) f). rewrite (last_indep t rest f t). rewrite Ec.
      destruct (existsb (moving eqp) (lines r1)) eqn:M.
      + destruct (IH t rs0 (routes1 ++ [r1]) false p (dd eqp (W ++ concat (lines r))) Hrest) as (routes' & Q1 & Q2 & Q3 & Q4 & Q5).
        * intros x Hx. apply in_app_iff in Hx. destruct Hx as [Hx|[<-|[]]]; auto.
        * rewrite pts_app, pts_one. apply path_app. eauto.
        * rewrite pts_app, pts_one. exact HW1.
        * exists routes'. split; [exact Q1|]. split; [exact Q2|]. split; [exact Q3|]. split; [exact Q4|]. rewrite Q5. split.
          -- intros [E _]. destruct routes1; discriminate.
          -- intros [-> E]. rewrite (First eq_refl) in M. cbn [existsb] in E. rewrite M in E. discriminate.
      + destruct (path_still eqp eqp_eq m (lines r1) (place t) P2 M) as [Em Ep]. subst m.
        destruct (IH t rs0 routes1 sk p (dd eqp (W ++ concat (lines r))) Hrest V1 P1) as (routes' & Q1 & Q2 & Q3 & Q4 & Q5).
        * rewrite (poly_app eqp p _ (place t) _ P1), Ep in HW1.
          assert (E : removelast (poly eqp p (pts routes1)) ++ [place t] = poly eqp p (pts routes1)).
          { destruct (path_points' p _ _ P1) as [v Ev]. unfold poly. rewrite Ev. symmetry. apply dd_last. }
          rewrite E in HW1. exact HW1.
        * exists routes'. split; [exact Q1|]. split; [exact Q2|]. split; [exact Q3|]. split; [exact Q4|]. rewrite Q5. cbn [existsb]. split.
          -- intros [E1' E2]. assert (routes = []) by (destruct routes; [reflexivity|destruct routes1; discriminate]). rewrite (First H0) in M. rewrite M, E2. auto.
          -- intros [-> E]. apply orb_false_iff in E. split; [destruct routes1; [reflexivity|discriminate]|tauto].
  Qed.

  (** **** If neighbouring entries belong to different measurements and are connected by routes, the whole route leads from the point of
      the first to the point of the last entry and is made of these routes one after the other; with [join_merges], points at which two of
      them meet inside of an edge without turning back are left out ([thinner]). If none of the routes moves, the result is invalid. *)
  Theorem C54_connected join_merges f pol rs : routed (f :: pol) rs ->
    let all := concat (map lines rs) in
    exists t, candidates_route join_merges (f :: pol) = Ok t
      /\ (invalid t = false <-> exists r l, In r rs /\ In l (lines r) /\ moves l)
      /\ (invalid t = false -> path (place f) (lines t) (place (last (f :: pol) f))
          /\ (if join_merges then thinner (poly eqp (place f) all) (poly eqp (place f) (lines t)) else poly eqp (place f) (lines t) = poly eqp (place f) all))
      /\ (invalid t = true -> t = flagged true).
  Proof.
    intros H all. destruct (loop_connected join_merges pol f rs [] false (place f) [place f] H) as (routes & Q1 & Q2 & Q3 & Q4 & Q5);
      [intros x []|constructor|apply rel_refl|].
    assert (Mv : any rs = true <-> exists r l, In r rs /\ In l (lines r) /\ moves l).
    { rewrite existsb_exists. split.
      - intros (r & I & E). apply existsb_exists in E. destruct E as (l & Il & E). exists r, l. repeat split; auto. apply (moving_spec eqp eqp_eq). exact E.
      - intros (r & l & I & Il & E). exists r. split; [exact I|]. apply existsb_exists. exists l. split; [exact Il|]. apply (moving_spec eqp eqp_eq). exact E. }
    unfold Assemble.candidates_route. rewrite Q1. cbn [bindO]. destruct routes as [|r0 routes0] eqn:Er.
    - exists (flagged true). split; [reflexivity|]. cbn [invalid flagged]. split; [split; [discriminate|]|split; [discriminate|auto]]. rewrite <- Mv. destruct (proj1 Q5 eq_refl) as [_ ->]. auto.
    - rewrite <- Er in *. destruct (merge_path eqp eqp_eq routes (place f) (place (last (f :: pol) f))) as (t & T1 & T2 & T3 & T4).
      + rewrite Er. discriminate.
      + apply forallb_forall. intros x Hx. rewrite (Q2 x Hx). reflexivity.
      + exact Q3.
      + exists t. split; [exact T1|]. rewrite T2. split; [split; [intros _|auto]|split; [intros _; split; [exact T3|]|discriminate]].
        * apply Mv. destruct (any rs) eqn:E; [reflexivity|]. assert (routes = []) by (apply Q5; auto). congruence.
        * rewrite T4. change (concat (map lines routes)) with (pts routes). unfold poly at 1 in Q4. destruct join_merges; cbn [rel] in Q4; [exact Q4|symmetry; exact Q4].
  Qed.

  (** **** Two neighbouring entries of the same measurement, the mark of a skip, end the route there; what follows starts anew. *)
  Fixpoint marked (pol : list (nat * nat)) : Prop :=
    match pol with a :: ((b :: _) as r) => fst a = fst b \/ marked r | _ => False end.

  Definition prefixed (pre : list (@route P)) (x : outcome (list (@route P))) : outcome (list (@route P)) :=
    match x with Ok l => Ok (pre ++ l) | Throw l => Throw (pre ++ l) | UB => UB | Fuel => Fuel end.
  Lemma join_last_prefix pre cur r : cur <> [] -> join_last (pre ++ cur) r = (pre ++ fst (join_last cur r), snd (join_last cur r)).
  Proof.
    intros N. destruct (@exists_last _ cur N) as (u & x & ->). unfold Assemble.join_last. rewrite app_assoc, !rev_unit.
    destruct (_ && _ && _ && _); [|cbn [fst snd]; rewrite app_assoc; reflexivity]. destruct (back _); [|cbn [fst snd]; rewrite app_assoc; reflexivity]. destruct (in_edges p); [cbn [fst snd]; rewrite app_assoc; reflexivity|]. destruct (join eqp opposite x r true) as [a b]. rewrite !rev_involutive. cbn [fst snd]. rewrite app_assoc. reflexivity.
  Qed.
  Lemma join_last_nil r : join_last [] r = ([], r). Proof. reflexivity. Qed.
  Lemma join_last_length cur r : length (fst (join_last cur r)) = length cur.
  Proof.
    destruct cur as [|x u IH] using rev_ind; [reflexivity|]. clear IH. unfold Assemble.join_last. rewrite rev_unit. destruct (_ && _ && _ && _); [|reflexivity].
    destruct (back _); [|reflexivity]. destruct (in_edges p); [reflexivity|]. destruct (join eqp opposite x r true) as [a b]. cbn [fst]. rewrite rev_involutive, !app_length. reflexivity.
  Qed.
  Lemma loop_step j f t rest sk routes : route_loop j (f :: t :: rest) sk routes =
    if fst f =? fst t then route_loop j rest true routes else
    bindO (between f t) (fun _ => routes) (fun r => let (routes1, r1) := if j && negb sk then join_last routes r else (routes, r) in
      if negb (invalid r1) && has_length eqp zeroL addL dist r1 then route_loop j (t :: rest) false (routes1 ++ [r1]) else route_loop j (t :: rest) sk routes1).
  Proof. reflexivity. Qed.
  Lemma loop_prefix j : forall n pol pre cur sk b, length pol <= n -> (cur = [] -> sk = true) -> (cur <> [] -> b = sk) ->
    route_loop j pol sk (pre ++ cur) = prefixed pre (route_loop j pol b cur).
  Proof.
    induction n as [|n IH]; intros pol pre cur sk b Hn H1 H2; (destruct pol as [|f [|t rest]]; [reflexivity|reflexivity|]); [cbn in Hn; lia|].
    rewrite !loop_step. destruct (fst f =? fst t).
    { destruct cur as [|c cur]; apply IH; cbn in *; try lia; auto; congruence. }
    destruct (between f t) as [r|r| |]; cbn [bindO]; [|reflexivity|reflexivity|reflexivity].
    assert (J : exists c1 r1, (if j && negb sk then join_last (pre ++ cur) r else (pre ++ cur, r)) = (pre ++ c1, r1) /\ (if j && negb b then join_last cur r else (cur, r)) = (c1, r1) /\ (c1 = [] <-> cur = [])).
    { destruct cur as [|c0 cur0] eqn:Ec.
      - rewrite H1 by reflexivity. exists [], r. rewrite andb_false_r, join_last_nil. split; [reflexivity|]. split; [destruct (j && negb b); reflexivity|tauto].
      - rewrite <- Ec in *. assert (N : cur <> []) by congruence. rewrite (H2 N). destruct (j && negb sk).
        + rewrite join_last_prefix by exact N. exists (fst (join_last cur r)), (snd (join_last cur r)). destruct (join_last cur r) as [c1 r1] eqn:E. split; [reflexivity|]. split; [reflexivity|].
          pose proof (join_last_length cur r) as Ln. rewrite E in Ln. cbn [fst] in *. split; intros ->; [destruct cur; [reflexivity|discriminate]|congruence].
        + exists cur, r. split; [reflexivity|]. split; [reflexivity|tauto]. }
    destruct J as (c1 & r1 & -> & -> & Hc). destruct (negb (invalid r1) && has_length eqp zeroL addL dist r1).
    - rewrite <- app_assoc. apply IH; [cbn in *; lia|intros E; destruct c1; discriminate|auto].
    - destruct c1 as [|c c1].
      + destruct (proj1 Hc eq_refl). rewrite H1 by reflexivity. apply IH; [cbn in *; lia|auto|congruence].
      + assert (N : cur <> []) by (intros E; apply Hc in E; discriminate). rewrite (H2 N). apply IH; [cbn in *; lia|discriminate|auto].
  Qed.
  Lemma loop_break j pre f t rest : forall sk routes, ~ marked (pre ++ [f]) -> fst f = fst t ->
    route_loop j (pre ++ f :: t :: rest) sk routes = bindO (route_loop j (pre ++ [f]) sk routes) (fun l => l) (fun l => prefixed l (route_loop j rest false [])).
  Proof.
    induction pre as [|x pre IH]; intros sk routes Nm E.
    - cbn [app]. rewrite loop_step. cbn [Assemble.route_loop bindO]. rewrite (proj2 (Nat.eqb_eq _ _) E). rewrite <- (app_nil_r routes) at 1. apply (loop_prefix j (length rest)); auto; congruence.
    - destruct pre as [|y pre].
      + cbn [app]. rewrite !loop_step. cbn [app marked] in Nm. destruct (Nat.eqb_spec (fst x) (fst f)); [tauto|].
        destruct (between x f) as [r|r| |]; cbn [bindO]; [|reflexivity|reflexivity|reflexivity].
        destruct (if j && negb sk then join_last routes r else (routes, r)) as [routes1 r1].
        destruct (negb (invalid r1) && has_length eqp zeroL addL dist r1); exact (IH _ _ ltac:(cbn; tauto) E).
      + cbn [app] in IH |- *. cbn [app marked] in Nm. change (route_loop j (x :: y :: pre ++ f :: t :: rest) sk routes) with
          (if fst x =? fst y then route_loop j (pre ++ f :: t :: rest) true routes else
           bindO (between x y) (fun _ => routes) (fun r => let (routes1, r1) := if j && negb sk then join_last routes r else (routes, r) in
             if negb (invalid r1) && has_length eqp zeroL addL dist r1 then route_loop j (y :: pre ++ f :: t :: rest) false (routes1 ++ [r1]) else route_loop j (y :: pre ++ f :: t :: rest) sk routes1)).
        rewrite !loop_step.
        destruct (Nat.eqb_spec (fst x) (fst y)) as [Exy|Nxy].
        { exfalso. apply Nm. left. exact Exy. }
        assert (Nm' : ~ marked (y :: pre ++ [f])) by (intros M; apply Nm; right; exact M).
        destruct (between x y) as [r|r| |]; cbn [bindO]; [|reflexivity|reflexivity|reflexivity].
        destruct (if j && negb sk then join_last routes r else (routes, r)) as [routes1 r1].
        destruct (negb (invalid r1) && has_length eqp zeroL addL dist r1); exact (IH _ _ Nm' E).
  Qed.
  Lemma join_last_valid cur r : (forall x, In x cur -> invalid x = false) -> forall x, In x (fst (join_last cur r)) -> invalid x = false.
  Proof.
    intros V x. destruct cur as [|c u IH] using rev_ind; [intros []|]. clear IH. unfold Assemble.join_last. rewrite rev_unit. destruct (_ && _ && _ && _); [|apply V].
    destruct (back _); [|apply V]. destruct (in_edges p); [apply V|]. assert (Ic : invalid c = false) by (apply V, in_app_iff; right; left; reflexivity).
    unfold join. rewrite Ic. cbn [orb]. destruct (invalid r); [cbn [fst]; rewrite rev_involutive; apply V|]. destruct (rev (lines c)) as [|ab ar]; [cbn [fst]; rewrite rev_involutive; apply V|]. destruct (lines r) as [|bf br]; [cbn [fst]; rewrite rev_involutive; apply V|].
    destruct (_ || _); [cbn [fst]; rewrite rev_involutive; apply V|]. destruct (_ && _); [cbn [fst]; rewrite rev_involutive; apply V|].
    cbn [fst]. rewrite rev_involutive. intros Hx. apply in_app_iff in Hx. destruct Hx as [Hx|[<-|[]]]; [apply V, in_app_iff; left; exact Hx|reflexivity].
  Qed.
  Lemma loop_valid j : forall n pol sk routes routes', length pol <= n -> (forall x, In x routes -> invalid x = false) -> route_loop j pol sk routes = Ok routes' -> forall x, In x routes' -> invalid x = false.
  Proof.
    induction n as [|n IH]; intros pol sk routes routes' Hn V; (destruct pol as [|f [|t rest]]; [intros [= <-]; exact V|intros [= <-]; exact V|]); [cbn in Hn; lia|].
    rewrite !loop_step. destruct (fst f =? fst t); [apply IH; [cbn in *; lia|exact V]|].
    destruct (between f t) as [r|r| |]; cbn [bindO]; try discriminate.
    destruct (if j && negb sk then join_last routes r else (routes, r)) as [routes1 r1] eqn:E.
    assert (V1 : forall x, In x routes1 -> invalid x = false).
    { destruct (j && negb sk); [pose proof (join_last_valid routes r V) as K; rewrite E in K; exact K|injection E as <- <-; exact V]. }
    destruct (negb (invalid r1) && has_length eqp zeroL addL dist r1) eqn:C; apply IH; try (cbn in *; lia); [|exact V1].
    intros x Hx. apply in_app_iff in Hx. destruct Hx as [Hx|[<-|[]]]; [auto|]. apply andb_true_iff in C. destruct C as [C _]. apply negb_true_iff in C. exact C.
  Qed.

  Theorem C54_skip join_merges pre f t rest r1 r2 : ~ marked (pre ++ [f]) -> fst f = fst t ->
    candidates_route join_merges (pre ++ [f]) = Ok r1 -> candidates_route join_merges rest = Ok r2 ->
    exists r, candidates_route join_merges (pre ++ [f; t] ++ rest) = Ok r /\ lines r = lines r1 ++ lines r2 /\ invalid r = invalid r1 && invalid r2.
  Proof.
    intros Nm E. unfold Assemble.candidates_route. cbn [app]. rewrite (loop_break join_merges pre f t rest false [] Nm E).
    destruct (route_loop join_merges (pre ++ [f]) false []) as [l1|l1| |] eqn:E1; cbn [bindO]; try discriminate.
    destruct (route_loop join_merges rest false []) as [l2|l2| |] eqn:E2; cbn [bindO prefixed]; try discriminate.
    rewrite !(merge_plain eqp). intros [= H1] [= H2].
    assert (V1 := loop_valid join_merges _ _ _ _ _ (le_n _) (fun x (H : In x []) => match H with end) E1).
    assert (V2 := loop_valid join_merges _ _ _ _ _ (le_n _) (fun x (H : In x []) => match H with end) E2).
    assert (G : forall l : list (@route P), (forall x, In x l -> invalid x = false) -> forall r,
              (if forallb invalid l then flagged true else of_lines (concat (map lines (filter (mergeable eqp) l)))) = r ->
              invalid r = (match l with [] => true | _ => false end) /\ lines r = concat (map lines (filter (mergeable eqp) l))).
    { intros l V r <-. destruct l as [|x l]; [split; reflexivity|]. cbn [forallb]. rewrite (V x) by (left; reflexivity). cbn [andb]. split; reflexivity. }
    destruct (G l1 V1 r1 H1) as [G1 G2]. destruct (G l2 V2 r2 H2) as [G3 G4].
    eexists. split; [reflexivity|]. destruct (G (l1 ++ l2) ltac:(intros x Hx; apply in_app_iff in Hx; destruct Hx; auto) _ eq_refl) as [G5 G6].
    rewrite G5, G6, G1, G2, G3, G4, filter_app, map_app, concat_app. split; [reflexivity|]. destruct l1; reflexivity.
  Qed.
End C54.

(** *** both together: from the chosen candidates to the route *)
Section C54b.
  Context {P L : Type}.
  Variable eqp : P -> P -> bool.
  Hypothesis eqp_eq : forall a b, eqp a b = true <-> a = b.
  Variable zeroL : L.
  Variable addL : L -> L -> L.
  Variable leL : L -> L -> bool.
  Variable dist : P -> P -> L.
  Variable opposite : P * P -> P * P -> bool.
  Variable route_between : nat -> nat -> @route P.
  Variable edge_line : nat -> list P.
  Variable substring : list P -> L -> L -> P -> P -> list P.
  Variable in_edges : P -> bool.
  Variable cands : list (list (@cedge P)).

  Notation along := (along eqp zeroL addL leL dist edge_line).
  Definition chosen (x : nat * nat) (c : cedge) : Prop := exists es, nth_error cands (fst x) = Some es /\ nth_error es (snd x) = Some c.

  (** one can drive from the candidate [cf] to the candidate [ct] *)
  Definition drives (cf ct : @cedge P) : Prop :=
    let mid := route_between (ce_edge cf) (ce_edge ct) in
    (exists a b, leads (ce_point cf) (ce_to cf) a /\ leads b (ce_from ct) (ce_point ct) /\ (invalid mid = false -> path a (lines mid) b)) /\
    (forall x y, along cf ct = Some (x, y) -> path (ce_point cf) [substring (edge_line (ce_edge cf)) x y (ce_point cf) (ce_point ct)] (ce_point ct)) /\
    (ce_point cf = ce_point ct \/ along cf ct <> None \/ invalid mid = false).

  (** the entries of the policy with their candidates; neighbours are of different measurements *)
  Inductive drivable : list (nat * nat) -> list (@cedge P) -> Prop :=
  | drivable_one f cf : chosen f cf -> drivable [f] [cf]
  | drivable_more f t rest cf ct cs : fst f <> fst t -> chosen f cf -> drives cf ct -> drivable (t :: rest) (ct :: cs) -> drivable (f :: t :: rest) (cf :: ct :: cs).

  Definition place_of (d : P) (x : nat * nat) : P :=
    match nth_error cands (fst x) with Some es => match nth_error es (snd x) with Some c => ce_point c | None => d end | None => d end.
  Lemma chosen_place d x c : chosen x c -> place_of d x = ce_point c.
  Proof. intros (es & E1 & E2). unfold place_of. rewrite E1, E2. reflexivity. Qed.

  Theorem C54_candidates turns join_merges f pol cf cs : drivable (f :: pol) (cf :: cs) ->
    exists n, forall fuel, n <= fuel -> exists t,
      candidates_route eqp zeroL addL dist opposite (policy_between eqp zeroL addL leL dist opposite route_between edge_line substring cands fuel turns) in_edges join_merges (f :: pol) = Ok t
      /\ (invalid t = false -> path (ce_point cf) (lines t) (ce_point (last (cf :: cs) cf)))
      /\ (invalid t = true -> t = flagged true /\ forall c, In c cs -> ce_point c = ce_point cf).
  Proof.
    intros H. pose (d := ce_point cf). clearbody d.
    assert (G : forall pol cs f cf, drivable (f :: pol) (cf :: cs) -> ce_point (last (cf :: cs) cf) = place_of d (last (f :: pol) f) /\ chosen f cf /\ (forall c, In c cs -> exists x, In x pol /\ place_of d x = ce_point c)
       /\ exists n rs, forall fuel, n <= fuel -> routed (policy_between eqp zeroL addL leL dist opposite route_between edge_line substring cands fuel turns) (place_of d) (f :: pol) rs).
    { clear - eqp_eq. intros pol. induction pol as [|t rest IH]; intros cs f cf H; inversion H as [? ? C|? ? ? ? ct cs' Nf C Dr Hr]; subst.
      - split; [symmetry; apply chosen_place, C|]. split; [exact C|]. split; [intros c []|]. exists 0, []. intros. constructor.
      - destruct (IH cs' t ct Hr) as (E & Ct & Cc & n & rs & R). split; [|split; [exact C|split]].
        + change (last (cf :: ct :: cs') cf) with (last (ct :: cs') cf). change (last (f :: t :: rest) f) with (last (t :: rest) f). rewrite (last_indep ct cs' cf ct), (last_indep t rest f t). exact E.
        + intros c [<-|Hc]; [exists t; split; [left; reflexivity|apply chosen_place, Ct]|]. destruct (Cc c Hc) as (x & Ix & Ex). exists x. split; [right; exact Ix|exact Ex].
        + destruct Dr as ((a & b & D1 & D2 & D3) & D4 & D5).
          destruct (C53_between eqp eqp_eq zeroL addL leL dist opposite route_between edge_line substring cf ct a b turns D1 D2 D3 D4) as (n1 & r & T1 & T2 & T3 & _).
          assert (Iv : invalid r = false).
          { destruct (invalid r); [|reflexivity]. destruct (proj1 T3 eq_refl) as (A1 & A2 & A3). destruct D5 as [D5|[D5|D5]]; [congruence|congruence|]. rewrite D5 in A3. discriminate. }
          exists (Nat.max n n1), (r :: rs). intros fuel Hf. constructor; [exact Nf| |exact Iv|rewrite (chosen_place d f cf C), (chosen_place d t ct Ct); auto|apply R; lia].
          destruct C as (es & C1 & C2). destruct Ct as (es' & Ct1 & Ct2). unfold policy_between. rewrite C1. cbn [derefO]. rewrite C2. cbn [derefO]. rewrite Ct1. cbn [derefO]. rewrite Ct2. cbn [derefO]. apply T1. lia. }
    destruct (G pol cs f cf H) as (E & C & Cc & n & rs & R). exists n. intros fuel Hf.
    destruct (C54_connected eqp eqp_eq zeroL addL dist opposite _ in_edges (place_of d) join_merges f pol rs (R fuel Hf)) as (t & T1 & T2 & T3 & T4).
    exists t. split; [exact T1|]. rewrite (chosen_place d f cf C), <- E in T3. split; [intros I; exact (proj1 (T3 I))|]. intros I. split; [apply T4, I|].
    assert (S : forall r l, In r rs -> In l (lines r) -> ~ moves l).
    { intros r l H1 H2 H3. assert (invalid t = false) by (apply T2; eauto). congruence. }
    intros c Hc. destruct (Cc c Hc) as (x & Ix & <-). specialize (R n (le_n _)). clear - R S Ix eqp_eq C.
    rewrite <- (chosen_place d f cf C). clear C. revert f rs R S. induction pol as [|t rest K]; intros f rs R S; [destruct Ix|].
    inversion R as [|? ? ? r rs' Nf Eb Ir Hp Hr]; subst. assert (E : place_of d f = place_of d t).
    { refine (proj1 (path_still eqp eqp_eq _ (lines r) _ Hp _)). destruct (existsb (moving eqp) (lines r)) eqn:M; [|reflexivity]. apply existsb_exists in M. destruct M as (l & Il & M).
      exfalso. apply (S r l (or_introl eq_refl) Il). apply (moving_spec eqp eqp_eq). exact M. }
    destruct Ix as [<-|Ix]; [auto|]. rewrite E. apply (K Ix t rs' Hr). intros r' l H1. apply S. right. exact H1.
  Qed.
End C54b.

(** **** [candidates_policy]: the chosen edge of every entry *)
Theorem C54_policy {E} (cands : list (list E)) policy (es : list E) :
  Forall2 (fun p e => exists l, nth_error cands (fst p) = Some l /\ nth_error l (snd p) = Some e) policy es ->
  candidates_policy cands policy = Ok (map (fun e => [e]) es).
Proof.
  intros H. unfold candidates_policy.
  assert (G : forall acc, foldO (fun acc p => derefO (nth_error cands (fst p)) (fun es => match es with [] => Ok acc | _ => derefO (nth_error es (snd p)) (fun e => Ok (acc ++ [[e]])) end)) policy acc = Ok (acc ++ map (fun e => [e]) es)); [|apply G].
  induction H as [|p e policy es (l & H1 & H2) _ IH]; intros acc; cbn [foldO map]; [rewrite app_nil_r; reflexivity|].
  rewrite H1. cbn [derefO]. destruct l as [|x l]; [destruct (snd p); discriminate|]. rewrite H2. cbn [derefO bindO]. rewrite IH, <- app_assoc. reflexivity.
Qed.

(** ** C50 *)
(** without repeating neighbours *)
Inductive collapsed {X} : list X -> list X -> Prop :=
| c_nil : collapsed [] []
| c_one x : collapsed [x] [x]
| c_same x l r : collapsed (x :: l) r -> collapsed (x :: x :: l) r
| c_new x y l r : x <> y -> collapsed (y :: l) r -> collapsed (x :: y :: l) (x :: r).

Lemma collapsed_hd {X} (x : X) l r : collapsed (x :: l) r -> exists r', r = x :: r'.
Proof. remember (x :: l) as m eqn:E. intros H. revert x l E. induction H; intros x0 l0 E; inversion E; subst; eauto. Qed.
Lemma collapsed_inv {X} (x y : X) l r : collapsed (x :: y :: l) r -> (x = y /\ collapsed (y :: l) r) \/ (x <> y /\ exists r', r = x :: r' /\ collapsed (y :: l) r').
Proof. intros H. inversion H; subst; eauto. Qed.
Lemma collapsed_fun {X} (l r : list X) : collapsed l r -> forall r', collapsed l r' -> r = r'.
Proof.
  induction 1 as [|x|x l r H IH|x y l r N H IH]; intros r' H'; inversion H'; subst; auto; try congruence. f_equal. auto.
Qed.
Lemma collapsed_map {X Y} (f : X -> Y) l r : collapsed l r -> forall s, collapsed (map f r) s -> collapsed (map f l) s.
Proof.
  induction 1 as [|x|x l r H IH|x y l r N H IH]; intros s Hs; [exact Hs|exact Hs| |].
  - cbn [map]. constructor. apply IH, Hs.
  - cbn [map] in *. destruct (collapsed_hd _ _ _ H) as [r' ->]. cbn [map] in *. apply collapsed_inv in Hs. destruct Hs as [[E H1]|[N1 (s' & -> & H1)]].
    + rewrite E. constructor. apply IH. exact H1.
    + constructor; [exact N1|]. apply IH. exact H1.
Qed.
Lemma collapse_fold {X Y} (eqx : Y -> Y -> bool) (f : X -> Y) : (forall a b, eqx a b = true <-> a = b) ->
  let step := fun (ids : list Y) (e : X) => match rev ids with b :: _ => if eqx b (f e) then ids else ids ++ [f e] | [] => ids ++ [f e] end in
  forall l, collapsed (map f l) (fold_left step l []).
Proof.
  intros Heq step.
  assert (G : forall l acc b, exists r, collapsed (b :: map f l) r /\ fold_left step l (acc ++ [b]) = acc ++ r).
  { induction l as [|x l IH]; intros acc b; [exists [b]; split; [constructor|reflexivity]|]. cbn [fold_left map].
    assert (E : step (acc ++ [b]) x = if eqx b (f x) then acc ++ [b] else (acc ++ [b]) ++ [f x]) by (unfold step; rewrite rev_unit; reflexivity). rewrite E. destruct (eqx b (f x)) eqn:Q.
    - apply Heq in Q. destruct (IH acc b) as (r & H1 & H2). exists r. split; [rewrite <- Q; constructor; exact H1|exact H2].
    - destruct (IH (acc ++ [b]) (f x)) as (r & H1 & H2). exists (b :: r). split; [constructor; [intros ->; rewrite (proj2 (Heq (f x) (f x)) eq_refl) in Q; discriminate|exact H1]|]. rewrite H2, <- app_assoc. reflexivity. }
  intros [|x l]; [constructor|]. cbn [fold_left map]. destruct (G l [] (f x)) as (r & H1 & H2). cbn [app] in H2. assert (E : step [] x = [f x]) by reflexivity. rewrite E, H2. exact H1.
Qed.

Section C50.
  Context {P A : Type}.
  Variable eqp : P -> P -> bool.
  Hypothesis eqp_eq : forall a b, eqp a b = true <-> a = b.
  Variable azi : P * P -> A.
  Variable diff : A -> A -> A.
  Variable ltA : A -> A -> bool.
  Variable straight : A.
  Variable hits : P * P -> list ((P * P) * nat).
  Variable edge_line : nat -> list P.
  Variable edge_id : nat -> N.

  Notation fitting_edge := (fitting_edge eqp azi diff ltA straight hits).
  Notation edges_list := (edges_list eqp azi diff ltA straight hits).

  Notation step s := (fit_step eqp azi diff ltA s).
  Lemma eqs_spec (s t : P * P) : eqs eqp s t = true <-> s = t.
  Proof. destruct s, t. unfold eqs. cbn [fst snd]. rewrite andb_true_iff, !eqp_eq. split; [intros [-> ->]; reflexivity|intros [= -> ->]; auto]. Qed.

  (** **** the edge of a segment: some edge whose segment touches it *)
  Theorem C50_fitting s : (fitting_edge s = None <-> hits s = []) /\ (forall e, fitting_edge s = Some e -> exists t, In (t, e) (hits s)).
  Proof.
    unfold Assemble.fitting_edge.
    assert (G : forall hs b, (snd b = None -> match hs with [] => snd (fold_left (step s) hs b) = None | _ => exists t e, In (t, e) hs /\ snd (fold_left (step s) hs b) = Some e end)
                          /\ (forall e0, snd b = Some e0 -> exists e, snd (fold_left (step s) hs b) = Some e /\ (e = e0 \/ exists t, In (t, e) hs))).
    { induction hs as [|[t e] hs IH]; intros b; split.
      - auto. - intros e0 E. exists e0. auto.
      - intros E. cbn [fold_left]. assert (S : snd (step s b (t, e)) = Some e) by (unfold fit_step; rewrite E; reflexivity).
        destruct (proj2 (IH (step s b (t, e))) e S) as (e' & E1 & [E2|(t' & I)]).
        + exists t, e'. rewrite E2 in *. split; [left; reflexivity|exact E1]. + exists t', e'. split; [right; exact I|exact E1].
      - intros e0 E. cbn [fold_left]. assert (S : snd (step s b (t, e)) = Some e0 \/ snd (step s b (t, e)) = Some e) by (unfold fit_step; destruct (_ || _); cbn [snd]; auto).
        destruct S as [S|S]; destruct (proj2 (IH _) _ S) as (e' & E1 & E2); exists e'; (split; [exact E1|]); (destruct E2 as [->|(t' & I)]; [|right; exists t'; right; exact I]); [left; reflexivity|right; exists t; left; reflexivity]. }
    pose proof (proj1 (G (hits s) (straight, None)) eq_refl) as K. destruct (hits s) as [|h hs].
    - rewrite K. split; [tauto|discriminate].
    - destruct K as (t & e & I & E). rewrite E. split; [split; discriminate|]. intros e0 [= <-]. exists t. exact I.
  Qed.

  (** **** if there is an edge with exactly this segment, such an edge is taken *)
  Theorem C50_exact s e : (forall t, ltA (diff (azi s) t) (diff (azi s) (azi s)) = false) -> In (s, e) (hits s) ->
    exists e', fitting_edge s = Some e' /\ In (s, e') (hits s).
  Proof.
    intros Min. unfold Assemble.fitting_edge. generalize (straight, @None nat).
    assert (G : forall hs b e0, fst b = diff (azi s) (azi s) -> snd b = Some e0 -> exists e', snd (fold_left (step s) hs b) = Some e' /\ (e' = e0 \/ In (s, e') hs)).
    { induction hs as [|[t e1] hs IH]; intros b e0 H1 H2; [exists e0; auto|]. cbn [fold_left].
      assert (S : (step s b (t, e1) = b) \/ (t = s /\ step s b (t, e1) = (diff (azi s) (azi s), Some e1))).
      { unfold fit_step. cbn [fst snd]. rewrite H2, H1, Min. cbn [orb]. rewrite orb_false_r. destruct (eqs eqp s t) eqn:Q; [|auto]. apply eqs_spec in Q. subst t. auto. }
      destruct S as [->|[-> ->]].
      - destruct (IH b e0 H1 H2) as (e' & Q1 & Q2). exists e'. split; [exact Q1|]. destruct Q2; [auto|right; right; auto].
      - destruct (IH (diff (azi s) (azi s), Some e1) e1 eq_refl eq_refl) as (e' & Q1 & Q2). exists e'. split; [exact Q1|]. right. destruct Q2 as [->|Q2]; [left; reflexivity|right; exact Q2]. }
    induction (hits s) as [|h hs IH]; intros b; [intros []|]. intros [->|I].
    - cbn [fold_left]. assert (S : step s b (s, e) = (diff (azi s) (azi s), Some e)).
      { unfold fit_step. cbn [fst snd]. assert (Q : eqs eqp s s = true) by (apply eqs_spec; reflexivity). rewrite Q, orb_true_r. reflexivity. }
      rewrite S. destruct (G hs (diff (azi s) (azi s), Some e) e eq_refl eq_refl) as (e' & Q1 & Q2). exists e'. split; [exact Q1|]. destruct Q2 as [->|Q2]; [left; reflexivity|right; exact Q2].
    - cbn [fold_left]. destruct (IH (step s b h) I) as (e' & Q1 & Q2). exists e'. split; [exact Q1|right; exact Q2].
  Qed.

  (** **** otherwise the one whose direction differs least *)
  Theorem C50_nearest s e : (forall a b c, ltA a b = false -> ltA b c = false -> ltA a c = false) -> (forall a b, ltA a b = true -> ltA b a = false) ->
    (forall e', ~ In (s, e') (hits s)) -> fitting_edge s = Some e ->
    exists t, In (t, e) (hits s) /\ forall t' e', In (t', e') (hits s) -> ltA (diff (azi s) (azi t')) (diff (azi s) (azi t)) = false.
  Proof.
    intros Tr As No. unfold Assemble.fitting_edge.
    assert (G : forall hs b, (forall e', ~ In (s, e') hs) -> forall e1, snd (fold_left (step s) hs b) = Some e1 ->
      (fold_left (step s) hs b = b /\ snd b <> None /\ forall t' e', In (t', e') hs -> ltA (diff (azi s) (azi t')) (fst b) = false)
      \/ (exists t, In (t, e1) hs /\ fst (fold_left (step s) hs b) = diff (azi s) (azi t) /\ (snd b <> None -> ltA (fst b) (diff (azi s) (azi t)) = false) /\ forall t' e', In (t', e') hs -> ltA (diff (azi s) (azi t')) (diff (azi s) (azi t)) = false)).
    { induction hs as [|[t e1] hs IH]; intros b Nx e2 H2.
      { left. split; [reflexivity|]. cbn [fold_left] in H2. rewrite H2. split; [discriminate|intros ? ? []]. }
      cbn [fold_left] in H2 |- *. assert (Nx' : forall e', ~ In (s, e') hs) by (intros e' I; apply (Nx e'); right; exact I).
      assert (Ns : eqs eqp s t = false). { destruct (eqs eqp s t) eqn:Q; [|reflexivity]. apply eqs_spec in Q. subst t. exfalso. apply (Nx e1). left. reflexivity. }
      assert (Irr : forall a, ltA a a = false). { intros a. destruct (ltA a a) eqn:Q; [|reflexivity]. rewrite <- Q. apply As, Q. }
      assert (S : (step s b (t, e1) = b /\ snd b <> None /\ ltA (diff (azi s) (azi t)) (fst b) = false)
               \/ (step s b (t, e1) = (diff (azi s) (azi t), Some e1) /\ (snd b <> None -> ltA (fst b) (diff (azi s) (azi t)) = false))).
      { unfold fit_step. cbn [fst snd]. rewrite Ns. destruct (snd b); cbn [orb]; [|right; split; [reflexivity|congruence]]. destruct (ltA (diff (azi s) (azi t)) (fst b)) eqn:Q; [right; split; [reflexivity|intros _; apply As, Q]|left; repeat split; auto; discriminate]. }
      destruct S as [(S & S1 & S2)|(S & S1)]; rewrite S in *; destruct (IH _ Nx' e2 H2) as [(R1 & R2 & R3)|(t2 & R1 & R2 & R3 & R4)].
      - left. split; [exact R1|]. split; [exact S1|]. intros t' e' [[= <- <-]|I]; [exact S2|eauto].
      - right. exists t2. split; [right; exact R1|]. split; [exact R2|]. split; [exact R3|]. intros t' e' [[= <- <-]|I]; [|eauto]. apply (Tr _ (fst b)); [exact S2|apply R3, S1].
      - right. rewrite R1 in H2 |- *. injection H2 as <-. exists t. split; [left; reflexivity|]. split; [reflexivity|]. split; [exact S1|]. intros t' e' [[= <- <-]|I]; [apply Irr|]. cbn [fst] in R3. eauto.
      - right. cbn [fst snd] in *. exists t2. split; [right; exact R1|]. split; [exact R2|]. split; [intros Nb; apply (Tr _ (diff (azi s) (azi t))); [apply S1, Nb|apply R3; discriminate]|].
        intros t' e' [[= <- <-]|I]; [apply R3; discriminate|eauto]. }
    intros H. destruct (G (hits s) (straight, None) No e H) as [(_ & C & _)|(t & I & _ & _ & M)]; [exfalso; apply C; reflexivity|]. exists t. split; [exact I|exact M].
  Qed.

  (** the segments of the lines of a route that have different ends *)
  Definition driven (ls : list (list P)) : list (P * P) := filter (fun s => negb (eqp (fst s) (snd s))) (concat (map (fun l => combine l (tl l)) ls)).
  Definition found (s : P * P) : list nat := match fitting_edge s with Some e => [e] | None => [] end.

  Lemma segments_combine (l : list P) : segments l = combine l (tl l).
  Proof. induction l as [|a [|b l] IH]; [reflexivity|reflexivity|]. cbn [tl]. change (segments (a :: b :: l)) with ((a, b) :: segments (b :: l)). rewrite IH. reflexivity. Qed.
  Lemma segments_app_one (u : list P) p v : segments (u ++ p :: v) = segments (u ++ [p]) ++ segments (p :: v).
  Proof.
    induction u as [|a [|b u] IH]; [reflexivity|reflexivity|]. cbn [app] in *. change (segments (a :: b :: u ++ p :: v)) with ((a, b) :: segments (b :: u ++ p :: v)). rewrite IH. reflexivity.
  Qed.
  Lemma segments_joined g : Forall (fun l => nonempty l = true) g -> chained eqp g -> segments (joined g) = concat (map segments g).
  Proof.
    destruct g as [|a g]; [reflexivity|]. cbn [joined map concat]. revert a. induction g as [|b g IH]; intros a F C; [cbn; rewrite !app_nil_r; reflexivity|].
    inversion F as [|? ? Fa Fr]; subst. destruct C as [(u & p & q & v & -> & -> & E) C]. apply eqp_eq in E. subst q. cbn [map concat tl].
    specialize (IH (p :: v) Fr C). cbn [app map concat] in IH. rewrite <- app_assoc. cbn [app]. rewrite segments_app_one. f_equal. exact IH.
  Qed.
  Lemma nonempty_segments ls : concat (map (@segments P) (filter nonempty ls)) = concat (map segments ls).
  Proof. induction ls as [|[|a l] ls IH]; [reflexivity|exact IH|]. cbn [filter nonempty map concat]. rewrite IH. reflexivity. Qed.

  Lemma edges_collapsed r : exists es, edges_list r = Ok es /\ collapsed (concat (map found (driven (lines r)))) es.
  Proof.
    destruct (C48_multi_line eqp eqp_eq (fun _ _ => false) r) as (groups & G1 & G2 & _ & _ & G5). unfold Assemble.edges_list. rewrite G5. cbn [bindO]. eexists. split; [reflexivity|].
    assert (Fl : forall ls es, fold_left (fun es l => fold_left (segment_edge eqp azi diff ltA straight hits) (segments l) es) ls es = fold_left (segment_edge eqp azi diff ltA straight hits) (concat (map segments ls)) es).
    { induction ls as [|l ls IH]; intros es; [reflexivity|]. cbn [fold_left map concat]. rewrite fold_left_app. apply IH. }
    rewrite Fl. assert (Es : concat (map segments (map joined groups)) = concat (map (fun l => combine l (tl l)) (lines r))).
    { rewrite <- (map_ext (@segments P) _ segments_combine), <- (nonempty_segments (lines r)), <- G1.
      assert (Fn : Forall (fun g => Forall (fun l => nonempty l = true) g) groups).
      { apply Forall_forall. intros g Ig. apply Forall_forall. intros l Il. assert (I : In l (filter nonempty (lines r))) by (rewrite <- G1; apply in_concat; eauto). apply filter_In in I. tauto. }
      clear - G2 Fn eqp_eq. induction groups as [|g groups IH]; [reflexivity|]. inversion G2; subst. inversion Fn; subst. cbn [map concat]. rewrite map_app, concat_app, segments_joined by auto. f_equal. auto. }
    rewrite Es. unfold driven. generalize (concat (map (fun l : list P => combine l (tl l)) (lines r))). clear. intros segs.
    assert (H : forall es, fold_left (segment_edge eqp azi diff ltA straight hits) segs es = fold_left add_edge (concat (map found (filter (fun s => negb (eqp (fst s) (snd s))) segs))) es).
    { induction segs as [|s segs IH]; intros es; [reflexivity|]. cbn [fold_left filter]. unfold segment_edge at 2. destruct (negb (eqp (fst s) (snd s))); [|apply IH].
      cbn [map concat]. rewrite fold_left_app, IH. f_equal. unfold found. destruct (fitting_edge s); reflexivity. }
    rewrite H. pose proof (collapse_fold Nat.eqb (fun x : nat => x) Nat.eqb_eq (concat (map found (filter (fun s => negb (eqp (fst s) (snd s))) segs)))) as K. rewrite map_id in K. exact K.
  Qed.

  (** **** The ids are those of the edges found for the driven segments, in order, without repeating neighbours. *)
  Theorem C50_ids r : exists es, edges_list r = Ok es /\ collapsed (map edge_id (concat (map found (driven (lines r))))) (edge_ids edge_id es).
  Proof.
    destruct (edges_collapsed r) as (es & E & C). exists es. split; [exact E|]. apply (collapsed_map edge_id _ _ C). unfold edge_ids. apply (collapse_fold N.eqb edge_id N.eqb_eq).
  Qed.

  Lemma collapsed_blocks (k : nat -> nat) (id : nat -> N) es s : (forall e, In e es -> 0 < k e) -> collapsed (map id es) s -> collapsed (concat (map (fun e => repeat (id e) (k e)) es)) s.
  Proof.
    intros K. assert (R : forall (x : N) n l t, collapsed (x :: l) t -> collapsed (repeat x (S n) ++ l) t).
    { intros x n l t H. induction n as [|n IH]; [exact H|]. change (repeat x (S (S n)) ++ l) with (x :: repeat x (S n) ++ l). change (repeat x (S n) ++ l) with (x :: repeat x n ++ l) in *. constructor. exact IH. }
    revert s. induction es as [|e es IH]; intros s H; [exact H|]. cbn [map concat] in *. assert (Ke := K e (or_introl eq_refl)). destruct (k e) as [|n]; [lia|].
    assert (IH' := IH ltac:(intros; apply K; right; auto)). apply R. destruct es as [|e' es]; [exact H|]. cbn [map concat] in *. assert (Ke' := K e' (or_intror (or_introl eq_refl))). destruct (k e') as [|m]; [lia|].
    change (repeat (id e') (S m) ++ concat (map (fun e0 => repeat (id e0) (k e0)) es)) with (id e' :: repeat (id e') m ++ concat (map (fun e0 => repeat (id e0) (k e0)) es)) in *.
    apply collapsed_inv in H. destruct H as [[E H1]|[N1 (s' & -> & H1)]]; [rewrite E; constructor; apply IH'; exact H1|constructor; [exact N1|apply IH'; exact H1]].
  Qed.

  (** **** A route over whole edges reports exactly their ids, if two edges with a common (directed) segment have the same id. *)
  Theorem C50_whole_edges es r : lines r = map edge_line es ->
    (forall e, In e es -> moves (edge_line e)) ->
    (forall s t e, In (t, e) (hits s) -> In t (combine (edge_line e) (tl (edge_line e)))) ->
    (forall s e, In e es -> In s (combine (edge_line e) (tl (edge_line e))) -> In (s, e) (hits s)) ->
    (forall s e e', In e es -> In s (combine (edge_line e) (tl (edge_line e))) -> In s (combine (edge_line e') (tl (edge_line e'))) -> fst s <> snd s -> edge_id e = edge_id e') ->
    (forall s t, ltA (diff (azi s) t) (diff (azi s) (azi s)) = false) ->
    exists l, edges_list r = Ok l /\ collapsed (map edge_id es) (edge_ids edge_id l).
  Proof.
    intros El Mv Sound Complete Uniq Min. destruct (C50_ids r) as (l & E & C). exists l. split; [exact E|].
    set (k := fun e => length (driven [edge_line e])).
    assert (B : map edge_id (concat (map found (driven (lines r)))) = concat (map (fun e => repeat (edge_id e) (k e)) es)).
    { rewrite El. clear E C El. induction es as [|e es IH]; [reflexivity|]. cbn [map concat].
      assert (Dr : driven (edge_line e :: map edge_line es) = driven [edge_line e] ++ driven (map edge_line es)) by (unfold driven; cbn [map concat]; rewrite filter_app, app_nil_r; reflexivity).
      rewrite Dr, map_app, concat_app, map_app. f_equal; [|apply IH; intros; [apply Mv|apply Complete|eapply Uniq]; cbn; eauto].
      unfold k. assert (Hs : forall s, In s (driven [edge_line e]) -> exists e', found s = [e'] /\ edge_id e' = edge_id e).
      { intros s Hs. unfold driven in Hs. apply filter_In in Hs. destruct Hs as [Hs1 Hs2]. cbn [map concat] in Hs1. rewrite app_nil_r in Hs1. apply negb_true_iff in Hs2. apply (eqp_false eqp eqp_eq) in Hs2.
        destruct (C50_exact s e (fun t => Min s t) (Complete s e (or_introl eq_refl) Hs1)) as (e' & F1 & F2). exists e'. unfold found. rewrite F1. split; [reflexivity|]. symmetry.
        apply (Uniq s e e' (or_introl eq_refl) Hs1 (Sound _ _ _ F2) Hs2). }
      clear Dr. induction (driven [edge_line e]) as [|s ss IHs]; [reflexivity|]. cbn [map concat length repeat]. destruct (Hs s (or_introl eq_refl)) as (e' & -> & E). cbn [app map]. rewrite E. f_equal. apply IHs. intros; apply Hs; right; auto. }
    assert (X : exists z, collapsed (map edge_id es) z).
    { eexists. apply (collapse_fold N.eqb edge_id N.eqb_eq es). }
    destruct X as [z Hz]. assert (Hz' := collapsed_blocks k edge_id es z). rewrite <- B in Hz'. rewrite (collapsed_fun _ _ C z); [exact Hz|]. apply Hz'; [|exact Hz].
    intros e Ie. unfold k. destruct (Mv e Ie) as (u & a & b & v & Ev & Nab).
    assert (I : In (a, b) (driven [edge_line e])).
    { unfold driven. apply filter_In. cbn [map concat fst snd]. rewrite app_nil_r. split; [|apply negb_true_iff, (eqp_false eqp eqp_eq), Nab].
      rewrite <- segments_combine, Ev, segments_app_one. apply in_app_iff. right. left. reflexivity. }
    destruct (driven [edge_line e]); [destruct I|cbn; lia].
  Qed.

  (** **** The parts of a track are reported one after the other. *)
  Theorem C50_parts parts : exists es, Forall2 (fun r e => edges_list r = Ok e) parts es
    /\ match_ids eqp azi diff ltA straight hits edge_id parts = Ok (concat (map (edge_ids edge_id) es)).
  Proof.
    unfold match_ids.
    assert (G : forall acc, exists es, Forall2 (fun r e => edges_list r = Ok e) parts es /\ foldO (fun ids r => bindO (edges_list r) (fun _ => ids) (fun es => Ok (ids ++ edge_ids edge_id es))) parts acc = Ok (acc ++ concat (map (edge_ids edge_id) es))).
    { induction parts as [|r parts IH]; intros acc; [exists []; split; [constructor|cbn; rewrite app_nil_r; reflexivity]|]. destruct (edges_collapsed r) as (e & E & _).
      destruct (IH (acc ++ edge_ids edge_id e)) as (es & F & H). exists (e :: es). split; [constructor; auto|]. cbn [foldO]. rewrite E. cbn [bindO]. rewrite H. cbn [map concat]. rewrite <- app_assoc. reflexivity. }
    apply (G []).
  Qed.
End C50.

(** ** Examples: a road 0 - 10 - 20 - 30 (edges 0, 1, 2 with ids 7, 7, 8) and a way back (edge 3 from 20 to 10, id 9) *)
Definition road (e : nat) : list Z := match e with 0 => [0; 4; 10]%Z | 1 => [10; 20]%Z | 2 => [20; 25; 30]%Z | _ => [20; 10]%Z end.
Definition road_id (e : nat) : N := match e with 0 => 7%N | 1 => 7%N | 2 => 8%N | _ => 9%N end.
Definition road_mid (e f : nat) : @route Z :=
  match e, f with 0, 1 => flagged false | 0, 2 => of_lines [[10; 20]]%Z | 1, 2 => flagged false | 0, 3 => of_lines [[10; 20]]%Z | _, _ => flagged true end.
Definition cut_of (l : list Z) (x y : Z) (p q : Z) : list Z := p :: filter (fun z => (p <? z) && (z <? q))%Z l ++ [q].
(** candidates on edge 0 at 2, at 4; on edge 1 at its end 20; on edge 2 at 25, at 27 *)
Definition c02 : @cedge Z := mkCE 0 2%Z [0; 2]%Z [2; 4; 10]%Z.
Definition c04 : @cedge Z := mkCE 0 4%Z [0; 4]%Z [4; 10]%Z.
Definition c20 : @cedge Z := mkCE 1 20%Z [10; 20]%Z [].
Definition c25 : @cedge Z := mkCE 2 25%Z [20; 25]%Z [25; 30]%Z.
Definition c27 : @cedge Z := mkCE 2 27%Z [20; 25; 27]%Z [27; 30]%Z.
Definition zcands : list (list (@cedge Z)) := [[c20; c02]; [c04]; [c20; c25]; [c27]; [c25]].
Definition zroute := candidate_route Z.eqb 0%Z Z.add Z.leb zdist zopp road_mid road cut_of 20.
Definition zdrives := drives Z.eqb 0%Z Z.add Z.leb zdist road_mid road cut_of.
Definition zbetween := policy_between Z.eqb 0%Z Z.add Z.leb zdist zopp road_mid road cut_of zcands 20 false.
Definition zwhole (join_merges : bool) := candidates_route Z.eqb 0%Z Z.add zdist zopp zbetween (fun z => existsb (Z.eqb z) [0; 4; 10; 20; 25; 30]%Z) join_merges.
Definition shown {X} (d : X) (x : outcome X) : X := match x with Ok t => t | _ => d end.

Example C53_demo :
  map (fun x => let t := shown (flagged true) x in (invalid t, lines t)) [zroute true c02 c04; zroute true c04 c02; zroute true c04 c25; zroute true c04 c04; zroute true c20 c25]
  = [(false, [[2; 4]]); (true, []); (false, [[4; 10]; [10; 20]; [20; 25]]); (false, []); (false, [[20; 25]])]%Z.
Proof. vm_compute. reflexivity. Qed.
Ltac line := repeat (eapply path_cons; [reflexivity|]); apply path_nil.
Lemma demo_drives : zdrives c02 c04 /\ zdrives c04 c20 /\ zdrives c20 c27.
Proof.
  assert (G : forall cf ct a b, leads (ce_point cf) (ce_to cf) a -> leads b (ce_from ct) (ce_point ct) ->
     (invalid (road_mid (ce_edge cf) (ce_edge ct)) = false -> path a (lines (road_mid (ce_edge cf) (ce_edge ct))) b) ->
     (along Z.eqb 0%Z Z.add Z.leb zdist road cf ct = None /\ invalid (road_mid (ce_edge cf) (ce_edge ct)) = false \/
      exists x y, along Z.eqb 0%Z Z.add Z.leb zdist road cf ct = Some (x, y) /\ path (ce_point cf) [cut_of (road (ce_edge cf)) x y (ce_point cf) (ce_point ct)] (ce_point ct)) -> zdrives cf ct).
  { intros cf ct a b H1 H2 H3 H4. split; [exists a, b; auto|]. destruct H4 as [[A I]|(x & y & A & Pt)]; rewrite A; (split; [|intuition congruence]); [discriminate|]. intros ? ? [= <- <-]. exact Pt. }
  split; [|split].
  - apply (G c02 c04 10%Z 0%Z); [right; line|right; line|discriminate|]. right. exists 2%Z, 4%Z. split; [reflexivity|]. line.
  - apply (G c04 c20 10%Z 10%Z); [right; line|right; line|intros _; line|]. left. split; reflexivity.
  - apply (G c20 c27 20%Z 20%Z); [left; split; reflexivity|right; line|intros _; line|]. left. split; reflexivity.
Qed.
Example C54_demo_drivable : drivable Z.eqb 0%Z Z.add Z.leb zdist road_mid road cut_of zcands [(0, 1); (1, 0); (2, 0); (3, 0)] [c02; c04; c20; c27].
Proof.
  assert (C : forall x c, match nth_error zcands (fst x) with Some es => nth_error es (snd x) | None => None end = Some c -> chosen zcands x c).
  { intros x c. destruct (nth_error zcands (fst x)) eqn:E; [|discriminate]. intros H. eexists. split; [exact E|exact H]. }
  destruct demo_drives as (D1 & D2 & D3).
  repeat first [apply drivable_one; apply C; reflexivity | apply drivable_more; [discriminate|apply C; reflexivity|assumption|]].
Qed.
Example C54_demo : map (fun j => lines (shown (flagged true) (zwhole j [(0, 1); (1, 0); (2, 0); (3, 0)]))) [false; true] = [[[2; 4]; [4; 10]; [10; 20]; [20; 25; 27]]; [[2; 4]; [4; 10]; [10; 20]; [20; 25; 27]]]%Z.
Proof. vm_compute. reflexivity. Qed.
(** a skip between 4 and 25 *)
Example C54_demo_skip : lines (shown (flagged true) (zwhole true [(0, 1); (1, 0); (1, 0); (4, 0); (3, 0)])) = [[2; 4]; [25; 27]]%Z /\ ~ marked [(0, 1); (1, 0)].
Proof. split; [vm_compute; reflexivity|cbn; lia]. Qed.
(** joining leaves out the points of the candidates inside of edges *)
Example C54_demo_join :
  lines (shown (flagged true) (candidates_route Z.eqb 0%Z Z.add zdist zopp zbetween (fun z => existsb (Z.eqb z) [0; 10; 20; 30]%Z) true [(0, 1); (1, 0); (2, 1); (3, 0)]))
  = [[2; 10]; [10; 20]; [20; 27]]%Z.
Proof. vm_compute. reflexivity. Qed.

(** **** A candidate at the very beginning of an edge has no line before it. Then the second one is not reached along the edge, although it
    comes behind it, but over the whole edge and around the block. *)
Theorem C53_edge_start_refuted : exists (line : list Z) (cf ct : @cedge Z) (mid : @route Z),
  ce_edge cf = 0 /\ ce_edge ct = 0 /\ ce_from cf = [] /\ ce_to cf = line /\ leads 0%Z (ce_from ct) (ce_point ct) /\ path (ce_point ct) [ce_to ct] 10%Z /\ path 10%Z (lines mid) 0%Z
  /\ ce_point cf = 0%Z /\ (0 < ce_point ct)%Z
  /\ candidate_route Z.eqb 0%Z Z.add Z.leb zdist (fun _ _ => false) (fun _ _ => mid) (fun _ => line) cut_of 20 true cf ct = Ok (of_lines [[0; 4; 10]; [10; 30; 0]; [0; 4]]%Z).
Proof.
  exists [0; 4; 10]%Z, (mkCE 0 0%Z [] [0; 4; 10]%Z), (mkCE 0 4%Z [0; 4]%Z [4; 10]%Z), (of_lines [[10; 30; 0]]%Z).
  repeat (split; [first [reflexivity|right; line|line]|]). vm_compute. reflexivity.
Qed.

(** **** The mark of a skip is a pair of entries of the same measurement, three of them are again none: the route then leads across. *)
Theorem C54_double_skip_refuted : exists f t, fst f <> fst t
  /\ lines (shown (flagged true) (zwhole false [f; t])) = [[4; 10]; [10; 20]; [20; 25]]%Z
  /\ lines (shown (flagged true) (zwhole false [f; f; t])) = []
  /\ lines (shown (flagged true) (zwhole false [f; f; f; t])) = [[4; 10]; [10; 20]; [20; 25]]%Z.
Proof. exists (1, 0), (4, 0). repeat split; try discriminate; vm_compute; reflexivity. Qed.

(** **** Joining does not check that the routes attach: after an entry that cannot be reached, a line is drawn over the gap, which is not
    there without joining. *)
Theorem C54_join_gap_refuted : exists between : nat * nat -> nat * nat -> outcome (@route Z),
  between (1, 0) (2, 0) = Ok (flagged true)
  /\ let whole j := candidates_route Z.eqb 0%Z Z.add zdist zopp between (fun _ => false) j [(0, 0); (1, 0); (2, 0); (3, 0)] in
     whole false = Ok (of_lines [[0; 5]; [100; 105; 110]]%Z) /\ whole true = Ok (of_lines [[0; 105]; [105; 110]]%Z).
Proof.
  exists (fun f t => Ok (match fst f with 0 => of_lines [[0; 5]]%Z | 1 => flagged true | _ => of_lines [[100; 105; 110]]%Z end)).
  repeat split; vm_compute; reflexivity.
Qed.

(** *** edge ids *)
Definition zazi (s : Z * Z) : Z := if (fst s <? snd s)%Z then 0%Z else 180%Z.
Definition adiff (a b : Z) : Z := Z.abs (a - b).
(** the segments of the edges which touch the segment *)
Definition zhits (order : list nat) (s : Z * Z) : list ((Z * Z) * nat) :=
  concat (map (fun e => map (fun t => (t, e)) (filter (fun t => (Z.max (Z.min (fst s) (snd s)) (Z.min (fst t) (snd t)) <=? Z.min (Z.max (fst s) (snd s)) (Z.max (fst t) (snd t)))%Z) (combine (road e) (tl (road e))))) order).
Definition zids (order : list nat) (r : @route Z) := edge_ids road_id (shown [] (edges_list Z.eqb zazi adiff Z.ltb 180%Z (zhits order) r)).

Example C50_demo : zids [2; 1; 0; 3] (of_lines (map road [0; 1; 2])) = [7; 8]%N /\ zids [3; 0; 1; 2] (of_lines (map road [0; 1; 3; 1; 2])) = [7; 9; 7; 8]%N.
Proof. split; vm_compute; reflexivity. Qed.
Example C50_demo_hypotheses : let es := [0; 1; 3] in
  (forall e, In e es -> moves (road e)) /\
  (forall s t e, In (t, e) (zhits [0; 1; 2; 3] s) -> In t (combine (road e) (tl (road e)))) /\
  (forall s e, In e es -> In s (combine (road e) (tl (road e))) -> In (s, e) (zhits [0; 1; 2; 3] s)) /\
  (forall s t, Z.ltb (adiff (zazi s) t) (adiff (zazi s) (zazi s)) = false).
Proof.
  intros es. split; [|split; [|split]].
  - intros e [<-|[<-|[<-|[]]]]; [exists [], 0%Z, 4%Z, [10%Z]|exists [], 10%Z, 20%Z, []|exists [], 20%Z, 10%Z, []]; split; try reflexivity; lia.
  - intros s t e H. unfold zhits in H. apply in_concat in H. destruct H as (l & H1 & H2). apply in_map_iff in H1. destruct H1 as (e' & <- & _). apply in_map_iff in H2. destruct H2 as (t' & [= <- <-] & H2). apply filter_In in H2. tauto.
  - intros s e Ie Is. unfold zhits. apply in_concat. eexists. split; [apply in_map_iff; exists e; split; [reflexivity|destruct Ie as [<-|[<-|[<-|[]]]]; cbn; auto 6]|].
    apply in_map_iff. exists s. split; [reflexivity|]. apply filter_In. split; [exact Is|]. apply Z.leb_le. lia.
  - intros s t. unfold adiff. rewrite Z.sub_diag. apply Z.ltb_ge. cbn. lia.
Qed.

(** **** On a part of an edge only, the neighbouring edge, which is merely touched, may be reported instead: on a straight road both have
    the same direction, and the first one the index returns is taken. *)
Theorem C50_part_refuted : exists order, (forall e, In e [0; 1; 2; 3] -> In e order) /\ zids order (of_lines [[22; 25]]%Z) = [8]%N /\ zids order (of_lines [[16; 20]]%Z) = [8]%N
  /\ zids [0; 1; 2; 3] (of_lines [[16; 20]]%Z) = [7]%N.
Proof. exists [2; 1; 0; 3]. split; [cbn; intuition|]. repeat split; vm_compute; reflexivity. Qed.
(** **** Between the parts of a track repetitions are not removed. *)
Theorem C50_parts_refuted : exists a b : @route Z, match_ids Z.eqb zazi adiff Z.ltb 180%Z (zhits [0; 1; 2; 3]) road_id [a; b] = Ok [7; 7]%N.
Proof. exists (of_lines [road 0]), (of_lines [road 1]). vm_compute. reflexivity. Qed.

Print Assumptions C53_between.
Print Assumptions C53_detached.
Print Assumptions C53_same_edge.
Print Assumptions C53_edge_start_refuted.
Print Assumptions C54_connected.
Print Assumptions C54_skip.
Print Assumptions C54_candidates.
Print Assumptions C54_policy.
Print Assumptions C54_double_skip_refuted.
Print Assumptions C54_join_gap_refuted.
Print Assumptions C50_fitting.
Print Assumptions C50_exact.
Print Assumptions C50_nearest.
Print Assumptions C50_ids.
Print Assumptions C50_whole_edges.
Print Assumptions C50_parts.
Print Assumptions C50_part_refuted.
Print Assumptions C50_parts_refuted.
