(** C55: copying, merging, joining and cutting routes leaves every line readable as long as the lines the sources only refer to are there. *)
From Verif Require Import Base ListAux RichLine Route RouteRefs RouteRefsProofs.

(** The vocabulary of the statements is in RouteRefsProofs.v:
    - [weave mine references others]: the references are [mine] and [others], each in order;
    - [tidy r others]: the references of [r] are its own lines, each once and in order, and [others], lines it does not own;
    - [sees h r ls]: all references of [r] can be read and show the lines [ls];
    - [kept h h' given]: from [h] to [h'] no line but those in [given] was changed or released;
    - [delivers h h' given t others ls]: [kept], and [t] is tidy, owns only lines made after [h], refers to [others] and shows [ls]. *)

Section C55.
  Context {P : Type}.
  Variable eqp : P -> P -> bool.
  Variable opposite : P * P -> P * P -> bool.

  Lemma sees_lt : forall (h : @heap P) r others ls a, tidy r others -> sees h r ls -> In a (own r) \/ In a others -> a < length h.
  Proof. intros h r others ls a T S H. eapply all_lt; [exact S|]. apply (weave_in _ _ _ (proj1 T)). auto. Qed.

  (** A copy shows the same lines, has copies of all lines the original owns, refers to the same other lines, and is readable after the
      original is destroyed. *)
  Theorem C55_copy : forall (h : @heap P) r others ls, tidy r others -> sees h r ls ->
    exists h' t, copy h r = Ok (h', t) /\ r_invalid t = r_invalid r /\ delivers h h' [] t others ls /\ length (own t) = length (own r) /\
      sees (destroy h' r) t ls.
  Proof.
    intros h r others ls T S. destruct T as [W [N D]] eqn:ET. unfold copy.
    destruct (copy_loop_ok _ _ _ W N D h ls S) as [h' [m' [l' [E [W' [N' [F [K A]]]]]]]]. rewrite E. cbn [bindO].
    assert (delivers h h' [] (mkR (r_invalid r) m' l') others ls) as DL.
    { split; [exact K|]. split; [|split; [exact F|exact A]]. split; [exact W'|]. split; [exact N'|]. cbn [own]. intros a Ha Hb. apply F in Hb.
      assert (a < length h) by (eapply sees_lt; [exact T|exact S|auto]). lia. }
    exists h', (mkR (r_invalid r) m' l'). split; [reflexivity|]. split; [reflexivity|]. split; [exact DL|]. split.
    - cbn [own]. assert (forall m l o, weave m l o -> length l = length m + length o) as Hlen by (induction 1; cbn; lia).
      pose proof (Hlen _ _ _ W). pose proof (Hlen _ _ _ W'). pose proof (all_length _ _ _ S). pose proof (all_length _ _ _ A). unfold sees in *. cbn [refs] in *. lia.
    - apply (survives _ _ _ _ _ _ [r] DL). intros r' a [<-|[]] Ha. split; [eapply sees_lt; [exact T|exact S|auto]|]. intros Hb. apply (D a Hb Ha).
  Qed.

  (** Merging: the merged route shows what Route.v says (or the same exception is raised); all own lines of the sources are moved, no other
      line changes; what the merged route does not own was not owned by the sources either, so that they can be destroyed. *)
  Theorem C55_merge : forall connect non_connect_except (ss : list source) (h : @heap P), (forall s, In s ss -> sound h s) -> separate ss ->
    match Route.merge eqp (map sv ss) connect non_connect_except with
    | Ok v => exists h' t others, rmerge eqp h (map sr ss) connect non_connect_except = Ok (h', t) /\ r_invalid t = invalid v /\
        delivers h h' (owned ss) t others (lines v) /\ incl others (outside ss) /\ sees (fold_left destroy (map sr ss) h') t (lines v)
    | Throw _ => exists x, rmerge eqp h (map sr ss) connect non_connect_except = Throw x
    | _ => False
    end.
  Proof.
    intros cn ex ss h HS HP. pose proof (merge_ok eqp cn ex ss h HS HP) as M.
    destruct (Route.merge eqp (map sv ss) cn ex) as [v|v| |]; auto. destruct M as [h' [t [oo [E [Ei [D I]]]]]].
    exists h', t, oo. repeat (split; auto). apply (survives _ _ _ _ _ _ (map sr ss) D). intros r a Hr Ha.
    apply in_map_iff in Hr. destruct Hr as [s [<- Hs]]. split; [eapply sound_lt; eauto|]. intros Hb. apply (proj2 HP a (I a Hb)). eapply in_owned; eauto.
  Qed.

  (** Joining two routes keeps both readable and apart from each other, and changes nobody else's lines. *)
  Theorem C55_join : forall (h : @heap P) sa sb retain, sound h sa -> sound h sb -> separate [sa; sb] ->
    exists h' sa' sb', rjoin eqp opposite h (sr sa) (sr sb) retain = Ok (h', sr sa', sr sb') /\
      Route.join eqp opposite (sv sa) (sv sb) retain = (sv sa', sv sb') /\
      sound h' sa' /\ sound h' sb' /\ separate [sa'; sb'] /\ kept h h' (owned [sa; sb]) /\ incl (so sa') (so sa) /\ incl (so sb') (so sb) /\
      sees (destroy h' (sr sa')) (sr sb') (lines (sv sb')) /\ sees (destroy h' (sr sb')) (sr sa') (lines (sv sa')).
  Proof.
    intros h sa sb retain Sa Sb SEP.
    destruct (join_ok eqp opposite h sa sb retain Sa Sb SEP) as [h' [sa' [sb' [E [J [Sa' [Sb' [SEP' [K [Fa [Fb [Ia Ib]]]]]]]]]]]].
    exists h', sa', sb'. do 8 (split; [auto|]).
    destruct SEP' as [SN SD]. unfold owned, outside in SN, SD. cbn in SN, SD. rewrite (app_nil_r (own _)) in SN, SD. rewrite (app_nil_r (so sb')) in SD.
    apply NoDup_parts in SN. destruct SN as [_ [_ SN]].
    split; (eapply all_ext; [|apply Sb' || apply Sa']); intros a Ha; unfold destroy; apply destroy_other; intros Hb.
    - apply (weave_in _ _ _ (proj1 (proj1 Sb'))) in Ha. destruct Ha as [Ha|Ha]; [apply (SN a); auto|]. apply (SD a); apply in_app_iff; auto.
    - apply (weave_in _ _ _ (proj1 (proj1 Sa'))) in Ha. destruct Ha as [Ha|Ha]; [apply (SN a); auto|]. apply (SD a); apply in_app_iff; auto.
  Qed.

  (** Cutting whole lines out: if [s1] are the own lines the cut begins with and [s2] the rest, then exactly [s1] is copied and [s2] is
      still referred to: the cut outlives the route if and only if no own line comes after a line of someone else. *)
  Theorem C55_sub_route : forall (h : @heap P) r others ls from to s1 s2, tidy r others -> sees h r ls ->
    from <= to -> from < length (refs r) -> to <= length (refs r) ->
    firstn (to - from) (skipn from (refs r)) = s1 ++ s2 -> incl s1 (own r) -> match s2 with [] => True | a :: _ => ~ In a (own r) end ->
    exists h' t, rsub2 h r from to = Ok (h', t) /\ r_invalid t = false /\ refs t = own t ++ s2 /\ length (own t) = length s1 /\
      delivers h h' [] t s2 (firstn (to - from) (skipn from ls)) /\
      ((forall a, In a s2 -> ~ In a (own r)) <-> sees (destroy h' r) t (firstn (to - from) (skipn from ls))).
  Proof.
    intros h r others ls from to s1 s2 T S H1 H2 H3 E I M.
    destruct (sub2_ok h r others ls from to s1 s2 T S H1 H2 H3 E I M) as [h' [t [Er [Ei [Ef [El D]]]]]].
    exists h', t. do 5 (split; [auto|]). split.
    - intros H. apply (survives _ _ _ _ _ _ [r] D). intros r' a [<-|[]] Ha. split; [eapply sees_lt; eauto|]. intros Hb. apply (H a Hb Ha).
    - intros SS a Ha Hb. unfold sees in SS. rewrite Ef in SS. apply Forall2_app_inv_l in SS. destruct SS as [x [y [_ [A _]]]].
      clear - Ha Hb A. induction A as [|b l s2 y Hl A IH]; [destruct Ha|]. destruct Ha as [->|Ha]; auto.
      unfold destroy in Hl. rewrite destroy_in in Hl by auto. discriminate.
  Qed.
  (** outside of the lines: [out_of_range] *)
  Theorem C55_sub_route_range : forall (h : @heap P) r from to, ~ (from <= to /\ from < length (refs r) /\ to <= length (refs r)) ->
    rsub2 h r from to = Throw (h, r).
  Proof. apply sub2_throws. Qed.

  (** Cutting at positions and trimming, of routes whose own lines come first (routes of own lines only and routes of references only are
      such routes): the result shows what Route.v says and outlives the sources. *)
  Theorem C55_sub_route_positions : forall (h : @heap P) r others ls from fp to tp, own_first r others -> tidy r others -> sees h r ls ->
    match sub_route4 eqp (mkRoute (r_invalid r) ls) from fp to tp with
    | Ok v => exists h' t oo, rsub4 eqp h r from fp to tp = Ok (h', t) /\ r_invalid t = invalid v /\ delivers h h' [] t oo (lines v) /\
        incl oo others /\ sees (destroy h' r) t (lines v)
    | Throw _ => exists x, rsub4 eqp h r from fp to tp = Throw x
    | UB => rsub4 eqp h r from fp to tp = UB
    | Fuel => rsub4 eqp h r from fp to tp = Fuel
    end.
  Proof.
    intros h r others ls from fp to tp O T S. pose proof (sub4_ok eqp h r others ls from fp to tp O T S) as M.
    destruct (sub_route4 eqp (mkRoute (r_invalid r) ls) from fp to tp) as [v|v| |]; auto.
    destruct M as [h' [t [oo [E [Ei [D I]]]]]]. exists h', t, oo. do 4 (split; [auto|]).
    apply (survives _ _ _ _ _ _ [r] D). intros r' a [<-|[]] Ha. split; [eapply sees_lt; eauto|]. intros Hb. apply I in Hb. apply T in Hb. auto.
  Qed.

  Theorem C55_trim_merge : forall fuel (h : @heap P) r oo ls other oo2 ls2,
    own_first r oo -> tidy r oo -> sees h r ls -> own_first other oo2 -> tidy other oo2 -> sees h other ls2 ->
    (forall a, In a oo -> ~ In a (own other)) -> (forall a, In a oo2 -> ~ In a (own r)) ->
    match Route.trim_merge eqp opposite fuel (mkRoute (r_invalid r) ls) (mkRoute (r_invalid other) ls2) with
    | Ok v => exists h' t o, rtrim eqp opposite fuel h r other = Ok (h', t) /\ r_invalid t = invalid v /\ delivers h h' [] t o (lines v) /\
        incl o (oo ++ oo2) /\ sees (destroy (destroy h' r) other) t (lines v)
    | Throw _ => exists x, rtrim eqp opposite fuel h r other = Throw x
    | UB => rtrim eqp opposite fuel h r other = UB
    | Fuel => rtrim eqp opposite fuel h r other = Fuel
    end.
  Proof.
    intros fuel h r oo ls other oo2 ls2 O T S O2 T2 S2 D1 D2. pose proof (trim_ok eqp opposite fuel h r oo ls other oo2 ls2 O T S O2 T2 S2) as M.
    destruct (Route.trim_merge eqp opposite fuel (mkRoute (r_invalid r) ls) (mkRoute (r_invalid other) ls2)) as [v|v| |]; auto.
    destruct M as [h' [t [o [E [Ei [D I]]]]]]. exists h', t, o. do 4 (split; [auto|]).
    apply (survives _ _ _ _ _ _ [r; other] D). intros r' a [<-|[<-|[]]] Ha.
    - split; [eapply sees_lt; [exact T|exact S|auto]|]. intros Hb. apply I, in_app_iff in Hb. destruct Hb as [Hb|Hb]; [apply T in Hb; auto|apply (D2 a); auto].
    - split; [eapply sees_lt; [exact T2|exact S2|auto]|]. intros Hb. apply I, in_app_iff in Hb. destruct Hb as [Hb|Hb]; [apply (D1 a); auto|apply T2 in Hb; auto].
  Qed.
End C55.

(** *** examples; points are numbers, two segments are opposite if the one goes back where the other came from *)
Definition back_again (s t : nat * nat) : bool := (fst s =? snd t) && (snd s =? fst t).

(** a network of three lines, a route with a line of its own between them *)
Definition town : @heap nat := [Some [1; 2]; Some [2; 3]; Some [3; 4]; Some [4; 5; 6]].
Definition mixed : rroute := mkR false [3] [0; 1; 2; 3].
Definition front_own : rroute := mkR false [0; 1] [0; 1; 2].

Example C55_copy_demo :
  tidy mixed [0; 1; 2] /\ sees town mixed [[1; 2]; [2; 3]; [3; 4]; [4; 5; 6]] /\
  copy town mixed = Ok (town ++ [Some [4; 5; 6]], mkR false [4] [0; 1; 2; 4]) /\
  view (destroy (town ++ [Some [4; 5; 6]]) mixed) [0; 1; 2; 4] = Some [[1; 2]; [2; 3]; [3; 4]; [4; 5; 6]].
Proof.
  split; [repeat constructor; cbn; intuition lia|]. split; [repeat constructor|]. split; reflexivity.
Qed.

(** two routes, each with an own line; a connection from 2 to 4 is made *)
Definition part1 : source := (mkR false [0] [0], [[1; 2]], []) : @source nat.
Definition part2 : source := (mkR false [3] [3; 1], [[4; 5; 6]; [2; 3]], [1]) : @source nat.
Example C55_merge_demo :
  (forall s, In s [part1; part2] -> sound town s) /\ separate [part1; part2] /\
  rmerge Nat.eqb town (map sr [part1; part2]) true false =
    Ok ([Some []; Some [2; 3]; Some [3; 4]; Some []; Some [1; 2]; Some [2; 4]; Some [4; 5; 6]], mkR false [4; 5; 6] [4; 5; 6; 1]).
Proof.
  split; [intros s [<-|[<-|[]]]; repeat constructor; cbn; intuition lia|]. split; [split; [repeat constructor; cbn; intuition lia|cbn; intuition lia]|]. reflexivity.
Qed.

Definition back1 : source := (mkR false [0] [0], [[1; 2]], []) : @source nat.
Definition back2 : source := (mkR false [1] [1], [[2; 1; 3]], []) : @source nat.
Example C55_join_demo :
  let h := [Some [1; 2]; Some [2; 1; 3]] in
  sound h back1 /\ sound h back2 /\ separate [back1; back2] /\
  rjoin Nat.eqb back_again h (sr back1) (sr back2) false = Ok ([None; None; Some [1; 1]; Some [1; 3]], mkR false [2] [2], mkR false [3] [3]).
Proof.
  cbv zeta. split; [repeat constructor; cbn; intuition lia|]. split; [repeat constructor; cbn; intuition lia|].
  split; [split; [repeat constructor; cbn; intuition lia|cbn; intuition lia]|]. reflexivity.
Qed.

Example C55_sub_route_demo :
  tidy front_own [2] /\ own_first front_own [2] /\ sees town front_own [[1; 2]; [2; 3]; [3; 4]] /\
  rsub2 town front_own 1 3 = Ok (town ++ [Some [2; 3]], mkR false [4] [4; 2]) /\
  rsub4 Nat.eqb town front_own 0 0 3 1 = Ok (town ++ [Some []; Some []; Some [3]; Some [1; 2]; Some [2; 3]], mkR false [7; 8] [7; 8]).
Proof.
  split; [repeat constructor; cbn; intuition lia|]. split; [reflexivity|]. split; [repeat constructor|]. split; vm_compute; reflexivity.
Qed.

Example C55_trim_merge_demo :
  let h := [Some [1; 2; 3]; Some [3; 2; 4]] in
  tidy (mkR false [] [0]) [0] /\ own_first (mkR false [] [0]) [0] /\ tidy (mkR false [1] [1]) [] /\ own_first (mkR false [1] [1]) [] /\
  exists h' t, rtrim Nat.eqb back_again 10 h (mkR false [] [0]) (mkR false [1] [1]) = Ok (h', t) /\ view h' (refs t) = Some [[1; 2]; [2; 4]] /\
    view (destroy h' (mkR false [1] [1])) (refs t) = Some [[1; 2]; [2; 4]].
Proof.
  cbv zeta. split; [repeat constructor; cbn; intuition lia|]. split; [reflexivity|]. split; [repeat constructor; cbn; intuition lia|]. split; [reflexivity|].
  eexists _, _. split; [vm_compute; reflexivity|]. split; reflexivity.
Qed.

(** *** In general the cut does not outlive the route: the line of its own after a reference is not copied, [copy_rich_line] has moved the
    iterator over the own lines to the end when the line before was not found. *)
Theorem C55_sub_route_refuted : exists (h : @heap nat) r others ls h' t,
  tidy r others /\ sees h r ls /\ rsub2 h r 0 (length (refs r)) = Ok (h', t) /\ sees h' t ls /\ view (destroy h' r) (refs t) = None.
Proof.
  exists town, mixed, [0; 1; 2], [[1; 2]; [2; 3]; [3; 4]; [4; 5; 6]], town, (mkR false [] [0; 1; 2; 3]).
  split; [repeat constructor; cbn; intuition lia|]. split; [repeat constructor|]. split; [reflexivity|]. split; [repeat constructor|]. reflexivity.
Qed.

(** matching/algorithm/route.hpp 199-213: [candidate_route] trims twice, [start_route] with [route] and the result [start_return] with [end_route];
    all three only refer to lines of the network and the candidates. If the first edge begins with the same point twice, [start_return]
    is a reference, a line of its own and a reference. The route returned then refers to a line of the local variable [start_return]. *)
Theorem C55_candidate_route_refuted : exists (h : @heap nat) start_route route end_route h1 start_return h2 end_return,
  own start_route = [] /\ own route = [] /\ own end_route = [] /\
  rtrim Nat.eqb back_again 10 h start_route route = Ok (h1, start_return) /\ r_invalid start_return = false /\
  rtrim Nat.eqb back_again 10 h1 start_return end_route = Ok (h2, end_return) /\ r_invalid end_return = false /\
  view h2 (refs end_return) = Some [[1; 2]; [2; 3]; [3; 4]; [4; 5]] /\ view (destroy h2 start_return) (refs end_return) = None.
Proof.
  exists [Some [1; 2]; Some [2; 2; 3]; Some [3; 4]; Some [4; 5]], (mkR false [] [0]), (mkR false [] [1; 2]), (mkR false [] [3]).
  do 4 eexists. split; [reflexivity|]. split; [reflexivity|]. split; [reflexivity|].
  split; [vm_compute; reflexivity|]. split; [reflexivity|]. split; [vm_compute; reflexivity|]. split; [reflexivity|]. split; reflexivity.
Qed.

(** A route is only built from own lines that all occur among its references, in the same order; otherwise it is refused. *)
Inductive in_order : list nat -> list nat -> Prop :=
| in_order_nil : forall l, in_order [] l
| in_order_own : forall a o l, in_order o l -> in_order (a :: o) (a :: l)
| in_order_skip : forall a o l, in_order o l -> in_order o (a :: l).
Theorem C55_construct : forall own references,
  (in_order own references -> construct own references = Ok (mkR false own references)) /\
  (~ in_order own references -> exists r, construct own references = Throw r).
Proof.
  assert (forall l o, check l o = true -> in_order o l) as S.
  { induction l as [|a l IH]; intros [|b o] H; cbn in H; try discriminate; try apply in_order_nil.
    destruct (b =? a) eqn:E; [apply Nat.eqb_eq in E; subst b; apply in_order_own|apply in_order_skip]; auto. }
  assert (forall l o, in_order o l -> check l o = true) as C.
  { assert (forall l b o, in_order (b :: o) l -> in_order o l) as T.
    { induction l as [|a l IH]; intros b o H; inversion H; subst; [apply in_order_skip; auto|apply in_order_skip; eauto]. }
    intros l o H. revert o H. induction l as [|a l IH]; intros o H; inversion H; subst; auto; cbn.
    - rewrite Nat.eqb_refl. auto.
    - destruct o as [|b o]; auto. destruct (b =? a) eqn:E; auto. apply IH. eapply T. eassumption. }
  intros own references. unfold construct. split; intros H; [rewrite (C _ _ H); auto|].
  destruct (check references own) eqn:E; eauto. destruct H. auto.
Qed.
Example C55_construct_demo : in_order [5; 7] [1; 5; 2; 7] /\ ~ in_order [5; 7] [7; 5].
Proof.
  split; [repeat (apply in_order_nil || apply in_order_own || apply in_order_skip)|].
  intros H. inversion H; subst. match goal with K : in_order _ _ |- _ => inversion K; subst end; match goal with K : in_order _ [] |- _ => inversion K end.
Qed.

Print Assumptions C55_construct.
Print Assumptions C55_copy.
Print Assumptions C55_merge.
Print Assumptions C55_join.
Print Assumptions C55_sub_route.
Print Assumptions C55_sub_route_range.
Print Assumptions C55_sub_route_positions.
Print Assumptions C55_trim_merge.
Print Assumptions C55_sub_route_refuted.
Print Assumptions C55_candidate_route_refuted.
