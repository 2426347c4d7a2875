(** Properties C12 (route extraction) and C13 (route cache). *)
From Verif Require Import Base ListAux Traverse TraverseProofs Search SearchSpec SearchProofs SearchProps Router RouterProofs.

Section C12.
  Context {L W : Type}.
  Variable add : W -> W -> W.
  Variable leb : W -> W -> bool.
  Variable zero : W.
  Variable l_empty : L -> bool.
  Variable l_length : L -> option W.
  Variable lines : nat -> list (nat * L).
  Notation le a b := (leb a b = true).
  Notation weights := (weights zero l_length lines).
  Notation extract_route := (extract_route leb l_empty l_length lines).
  Notation along := (along add zero l_length lines).

  (** addition is monotone on both sides *)
  Definition monotone_both : Prop := forall a b x y, le a b -> le x y -> le (add a x) (add b y).
  Definition as_route (es : list L) : route L := match es with [] => Stay | _ => Edges es end.

  (** C12: from any path [p] of the graph the extraction takes edges that lead, one after another, along [p]
      from its first to its last vertex, and are together no longer than any path along [p]. *)
  Theorem C12_extract_along s p v d : total_order leb -> monotone_both -> measured l_empty l_length lines ->
    path add zero weights s p v d ->
    exists es d', extract_route p = as_route es /\ along s p es v d' /\
      (forall d'', path add zero weights s p v d'' -> le d' d'').
  Proof.
    intros O M Hm P. destruct (extract_along add leb zero l_empty l_length lines O M s p v d Hm P) as (d' & A & H).
    exists (route_edges leb l_empty l_length lines p), d'. split; [|auto].
    unfold Router.extract_route, as_route. destruct p; [inversion P; destruct l; discriminate|]. destruct (route_edges leb l_empty l_length lines (n :: p)); reflexivity.
  Qed.

  (** C12: between every two consecutive vertices of the path the edge taken is a shortest of the parallel
      edges. *)
  Theorem C12_parallel_shortest u v : total_order leb -> measured l_empty l_length lines ->
    (exists l, In (v, l) (lines u)) ->
    exists l, extract_route [u; v] = Edges [l] /\ In (v, l) (lines u) /\
      forall l' x', In (v, l') (lines u) -> l_length l' = Some x' -> exists x, l_length l = Some x /\ le x x'.
  Proof.
    intros O Hm [l0 H0]. destruct (best_edge_spec leb zero l_empty l_length lines O u v l0 Hm H0) as (l & E & Hin & Hmin).
    exists l. cbn. rewrite E. split; [reflexivity|]. split; [exact Hin|]. intros l' x' Hl' Ex'.
    destruct (Hm u v l Hin) as [_ [x Ex]]. exists x. split; [exact Ex|].
    specialize (Hmin l' Hl'). unfold len in Hmin. rewrite Ex, Ex' in Hmin. exact Hmin.
  Qed.

  (** C12 with C09: the route extracted for every goal of a network query has the length of a shortest path. *)
  Theorem C12_query_routes pick s vs goals : setting add leb weights pick s vs -> monotone_both ->
    measured l_empty l_length lines -> non_negative add leb weights -> NoDup goals ->
    exists ps gs, dijkstra_shortest_paths add leb zero weights pick None goals (S (edge_count weights vs)) (length vs) s = Ok ps /\
      (forall g, In g gs <-> In g goals /\ connected_to add zero weights s g) /\
      Forall2 (fun g p => exists es d, extract_route p = as_route es /\ along s p es g d /\
                                       shortest add leb zero weights s g d) gs ps.
  Proof.
    intros St M Hm Pos Ng. destruct (C09_goals_exact add leb zero weights pick s vs goals St Pos Ng) as (ps & gs & E & _ & Hg & F).
    exists ps, gs. split; [exact E|]. split; [exact Hg|]. clear - F St M Hm.
    induction F as [|g p gs ps (d & P & Sh) F IH]; constructor; [|exact IH].
    destruct (C12_extract_along s p g d (se_order _ _ _ _ _ _ St) M Hm P) as (es & d' & Ee & A & Hmin).
    exists es, d'. split; [exact Ee|]. split; [exact A|].
    assert (d' = d); [|subst; exact Sh]. apply (to_antisym _ (se_order _ _ _ _ _ _ St)).
    - apply Hmin. exact P.
    - apply Sh with (l := p). apply (along_path add zero l_length lines s p es g d' A).
  Qed.
End C12.

(** instance: lines are numbered, with a length *)
Definition demo_lines (v : nat) : list (nat * (nat * nat)) :=
  match v with 0 => [(1, (100, 7)); (1, (101, 4)); (2, (102, 1))] | 1 => [(3, (103, 2))] | 2 => [(1, (104, 2)); (1, (105, 3))] | _ => [] end.
Example demo_measured : measured (fun _ => false) (fun l : nat * nat => Some (snd l)) demo_lines.
Proof. intros v t l _. split; [reflexivity|eauto]. Qed.
Example demo_monotone_both : monotone_both Nat.add Nat.leb.
Proof. intros a b x y H1 H2. rewrite Nat.leb_le in *. lia. Qed.
Example demo_extract : extract_route Nat.leb (fun _ => false) (fun l : nat * nat => Some (snd l)) demo_lines [0; 2; 1; 3]
  = Edges [(102, 1); (104, 2); (103, 2)].
Proof. vm_compute. reflexivity. Qed.
Example demo_extract_setting :
  setting Nat.add Nat.leb (weights 0 (fun l : nat * nat => Some (snd l)) demo_lines) (pick_min Nat.leb) 0 [0; 1; 2; 3].
Proof.
  constructor; auto using nat_order, nat_mono.
  - apply pick_min_heap, nat_order.
  - repeat constructor; cbn; intuition lia.
  - cbn; auto.
  - intros [|[|[|u]]] v w H; cbn in H; repeat (destruct H as [[= <- <-]|H]; [cbn; tauto|]); destruct H.
Qed.

(** C12: the vertex list that a_star_shortest_paths returns for an unreachable goal
    (C10_unreachable_goal_refuted) is turned into a valid route that does not lead to the goal. *)
Theorem C12_unreachable_goal_refuted : exists (lines : nat -> list (nat * (nat * nat))) p es,
  let adj := weights 0 (fun l : nat * nat => Some (snd l)) lines in
  a_star_shortest_paths Nat.add Nat.leb 0 adj (pick_min Nat.leb) (fun _ => 0) None 2 10 10 1 = Ok p /\
  extract_route Nat.leb (fun _ => false) (fun l => Some (snd l)) lines p = Edges es /\
  (forall d q, ~ along Nat.add 0 (fun l : nat * nat => Some (snd l)) lines 1 q es 2 d).
Proof.
  exists (fun v => match v with 1 => [(0, (100, 5))] | _ => [] end), [1; 0; 2], [(100, 5)].
  cbn zeta. split; [vm_compute; reflexivity|]. split; [vm_compute; reflexivity|].
  intros d q A. inversion A as [|p es u d' v l A' Hl E1 E2 E3]. subst v.
  destruct u as [|[|u]]; cbn in Hl; [destruct Hl| |destruct Hl]. destruct Hl as [Hl|[]]; discriminate Hl.
Qed.

Section C13.
  Context {L W : Type}.
  Variable add : W -> W -> W.
  Variable leb : W -> W -> bool.
  Variable zero : W.
  Variable adj : nat -> list (nat * W).
  Variable pick : picker W.
  Variable extract : list nat -> route L.
  Variable vs : list nat.

  (** a route query: from vertex, set of goal vertices searched together, and the goal asked for *)
  Record request := mkQ { q_from : nat; q_goals : list nat; q_goal : nat }.
  Definition well_formed (q : request) : Prop := In (q_from q) vs /\ NoDup (q_goals q) /\ In (q_goal q) (q_goals q).

  Definition ask (bound : option W) (q : request) (c : cache L) : outcome (cache L * route L) :=
    query extract (q_from q, q_goal q)
      (dijkstra_shortest_paths add leb zero adj pick bound (q_goals q) (S (edge_count adj vs)) (length vs) (q_from q)) c.

  Fixpoint ask_all (bound : option W) (qs : list request) (c : cache L) : outcome (cache L * list (route L)) :=
    match qs with
    | [] => Ok (c, [])
    | q :: r => match ask bound q c with
                | Ok (c', x) => match ask_all bound r c' with Ok (c'', xs) => Ok (c'', x :: xs) | _ => UB end
                | _ => UB
                end
    end.

  (** C13: whatever was asked before (any starts, any goal sets), an unbounded query is answered as by a
      router with an empty cache. *)
  Definition fresh_answer (q : request) : option (route L) :=
    match ask None q [] with Ok (_, x) => Some x | _ => None end.

  (** internal: the canonical answer for a pair of vertices *)
  Definition canonical (k : key) : route L :=
    match dijkstra add leb zero adj pick None (fun _ => false) (S (edge_count adj vs)) (fst k) with
    | Ok r => if mem (snd k) (s_fin r) then match trace_back (s_pred r) (length vs) (snd k) [] with Ok p => extract p | _ => Invalid end
              else Invalid
    | _ => Invalid
    end.

  Hypothesis Set_ : forall s, In s vs -> setting add leb adj pick s vs.
  Hypothesis Pos : non_negative add leb adj.

  Lemma answers_agree q : well_formed q -> exists ps,
    dijkstra_shortest_paths add leb zero adj pick None (q_goals q) (S (edge_count adj vs)) (length vs) (q_from q) = Ok ps /\
    agrees extract canonical (q_from q, q_goal q) ps.
  Proof.
    intros (Hs & Ng & Hg). set (s := q_from q) in *. set (goals := q_goals q) in *.
    pose proof (Set_ s Hs) as St.
    assert (P3 : forall d u v w, In (v, w) (adj u) -> leb d (add d w) = true) by (intros d u v w H; exact (Pos u v w H d)).
    assert (OK := fun stop => search_ok add leb zero adj pick (fun k _ => k) (fun d _ => d) (exceeds_bound leb None) stop
                  (se_order _ _ _ _ _ _ St) (se_mono _ _ _ _ _ _ St) (fun _ _ _ H => H) (fun _ _ _ H => H) P3
                  (fun _ _ => eq_refl) (fun _ _ _ H => H) (se_heap _ _ _ _ _ _ St) s vs (se_nodup _ _ _ _ _ _ St)
                  (se_start _ _ _ _ _ _ St) (se_all _ _ _ _ _ _ St) (S (edge_count adj vs)) (le_n _)).
    destruct (OK (goals_stop goals)) as (r & E & O & Q). destruct (OK (fun _ => false)) as (r' & E' & O' & [Q'|Q']); [|discriminate].
    assert (G : Good add leb zero adj s vs None r) by (eapply (good_of_outer add leb zero adj pick (fun d _ => d)); eauto).
    assert (G' : Good add leb zero adj s vs None r') by (eapply (good_of_outer add leb zero adj pick (fun d _ => d)); eauto).
    assert (Fz : frozen r r').
    { destruct (loop_prefix add leb zero adj pick (fun k _ => k) (fun d _ => d) (exceeds_bound leb None) _ _ _ _ _ E) as (f & n & Ep).
      unfold search in E'. rewrite Ep in E'. eapply loop_frozen; eauto. }
    (* chains of finished vertices are the same in both runs *)
    assert (Same : forall g, In g (s_fin r) -> exists l d, path add zero adj s l g d /\
               trace_back (s_pred r) (length vs) g [] = Ok l /\ trace_back (s_pred r') (length vs) g [] = Ok l /\ In g (s_fin r')).
    { intros g Hf. destruct (g_fin _ _ _ _ _ _ _ _ G g Hf) as [d Ed].
      pose proof (o_inv _ _ _ _ _ _ _ _ O) as I.
      destruct (i_tree _ _ _ _ _ _ _ _ _ _ I g d Ed) as (l & P & T & N & Hl).
      assert (Hb : forall x, In x l -> In x (s_black r)).
      { intros x Hx. eapply i_black; [exact I|]. left. destruct (Hl x Hx) as [->|H]; assumption. }
      assert (T' : traced s (s_pred r') l g).
      { eapply traced_ext; [exact T|]. intros x Hx. apply Fz, Hb, Hx. }
      assert (Ll : length l <= length vs).
      { apply NoDup_incl_length; [exact N|]. eapply path_vs; eauto; apply St. }
      exists l, d. split; [exact P|].
      rewrite (traced_trace_back s _ _ _ [] T _ Ll), (traced_trace_back s _ _ _ [] T' _ Ll), app_nil_r.
      split; [reflexivity|]. split; [reflexivity|]. eapply (g_drained _ _ _ _ _ _ _ _ G'); [exact Q'|].
      destruct (Fz g) as (_ & _ & Ed'); [apply Hb; eapply path_last; eauto|]. rewrite Ed'. exact Ed. }
    assert (Ec : dijkstra add leb zero adj pick None (fun _ => false) (S (edge_count adj vs)) s = Ok r') by exact E'.
    assert (Ecan : forall g l, In g (s_fin r') -> trace_back (s_pred r') (length vs) g [] = Ok l -> extract l = canonical (s, g)).
    { intros g l Hf Et. unfold canonical. cbn [fst snd]. rewrite Ec, Et. apply mem_In in Hf. rewrite Hf. reflexivity. }
    destruct (collect_ok (fun g => trace_back (s_pred r) (length vs) g [])
                (fun g l => exists d, path add zero adj s l g d /\ extract l = canonical (s, g))
                (goals_found goals (s_fin r))) as (ps & Eps & F).
    { intros g Hgf. apply filter_In in Hgf as [_ Hf]. apply mem_In in Hf. destruct (Same g Hf) as (l & d & P & T1 & T2 & Hf').
      exists l. split; [exact T1|]. exists d. split; [exact P|]. apply Ecan; assumption. }
    assert (Ends : forall l g d, path add zero adj s l g d -> hd_error l = Some s /\ hd_error (rev l) = Some g).
    { intros l g d P. induction P as [|l u d v w P IH Hw]; [auto|]. split.
      - destruct IH as [IH _]. destruct l; [discriminate|exact IH].
      - rewrite rev_app_distr. reflexivity. }
    exists ps. split.
    - unfold dijkstra_shortest_paths. fold s goals. unfold dijkstra. rewrite E. exact Eps.
    - split.
      + intros p Hp. assert (K : exists g, In g (goals_found goals (s_fin r)) /\ exists d, path add zero adj s p g d /\ extract p = canonical (s, g)).
        { clear - F Hp. induction F as [|g l gs ls H F IH]; [destruct Hp|]. destruct Hp as [<-|Hp].
          - exists g. split; [left; reflexivity|exact H].
          - destruct (IH Hp) as (g' & Hg' & K). exists g'. split; [right; exact Hg'|exact K]. }
        destruct K as (g & _ & d & P & Ex). destruct (Ends p g d P) as [E1 E2]. exists s, g. auto.
      + cbn [fst snd]. intros Hno. unfold canonical. cbn [fst snd]. fold s. rewrite Ec. set (g := q_goal q) in *.
        destruct (mem g (s_fin r')) eqn:Em; [exfalso|reflexivity]. apply mem_In in Em.
        destruct (g_fin _ _ _ _ _ _ _ _ G' g Em) as [d Ed]. destruct (g_rec _ _ _ _ _ _ _ _ G' g d Ed) as (l & P & _).
        (* a reachable goal is found by the stopped search as well *)
        assert (Hf : In g (s_fin r)).
        { destruct Q as [Q|Q]; [eapply (g_all _ _ _ _ _ _ _ _ G); eauto; apply clean_unbounded|].
          unfold goals_stop in Q. destruct (s_fin r) as [|x fin] eqn:Ef; [discriminate|]. rewrite <- Ef in *.
          apply Nat.leb_le in Q. unfold goals_found in Q.
          apply mem_In. destruct (mem g (s_fin r)) eqn:Eg; [reflexivity|exfalso].
          assert (Lt : length (filter (fun g0 => mem g0 (s_fin r)) goals) < length goals).
          { clear - Hg Eg. induction goals as [|y k IH]; [destruct Hg|]. cbn. destruct Hg as [->|Hg].
            - rewrite Eg. pose proof (filter_length_le (fun g0 => mem g0 (s_fin r)) k). lia.
            - specialize (IH Hg). destruct (mem y (s_fin r)); cbn; lia. }
          lia. }
        assert (Hgf : In g (goals_found goals (s_fin r))) by (apply filter_In; split; [exact Hg|apply mem_In; exact Hf]).
        assert (K : exists p, In p ps /\ exists d, path add zero adj s p g d /\ extract p = canonical (s, g)).
        { clear - F Hgf. induction F as [|g' l gs ls H F IH]; [destruct Hgf|]. destruct Hgf as [->|Hgf].
          - exists l. split; [left; reflexivity|exact H].
          - destruct (IH Hgf) as (p & Hp & K). exists p. split; [right; exact Hp|exact K]. }
        destruct K as (p & Hp & d' & P' & _). destruct (Ends p g d' P') as [E1 E2].
        apply (Hno p Hp). rewrite E1, E2. reflexivity.
  Qed.

  Lemma ask_canonical q c : well_formed q -> coherent canonical c ->
    exists c', ask None q c = Ok (c', canonical (q_from q, q_goal q)) /\ coherent canonical c'.
  Proof.
    intros Hq Hc. destruct (answers_agree q Hq) as (ps & E & A). unfold ask. rewrite E. apply query_ok; assumption.
  Qed.

  Theorem C13_history_independent qs : (forall q, In q qs -> well_formed q) ->
    exists c xs, ask_all None qs [] = Ok (c, xs) /\ map Some xs = map fresh_answer qs.
  Proof.
    intros Hw. assert (H0 : coherent canonical ([] : cache L)) by (intros k r E; discriminate E).
    assert (K : forall c, coherent canonical c -> exists c' xs, ask_all None qs c = Ok (c', xs) /\ map Some xs = map fresh_answer qs);
      [|exact (K [] H0)].
    induction qs as [|q qs IH]; intros c Hc; [exists c, []; split; reflexivity|].
    assert (Hq := Hw q (or_introl eq_refl)).
    destruct (ask_canonical q c Hq Hc) as (c1 & E1 & Hc1).
    destruct (IH (fun q' H => Hw q' (or_intror H)) c1 Hc1) as (c2 & xs & E2 & Ex).
    exists c2, (canonical (q_from q, q_goal q) :: xs). cbn [ask_all]. rewrite E1, E2. split; [reflexivity|].
    cbn [map]. rewrite Ex. f_equal. unfold fresh_answer. destruct (ask_canonical q [] Hq H0) as (c3 & E3 & _). rewrite E3. reflexivity.
  Qed.
End C13.

(** an instance with a graph, two goal sets and a repeated pair *)
Example C13_case : exists c, ask_all Nat.add Nat.leb 0 (table demo_rows) (pick_min Nat.leb) (fun p => Edges p) [0; 1; 2; 3; 4; 5] None
    [mkQ 0 [3; 1] 3; mkQ 0 [1; 5] 5; mkQ 2 [1] 1; mkQ 0 [4; 1; 3] 1] []
  = Ok (c, [Edges [0; 2; 1; 3]; Invalid; Edges [2; 1]; Edges [0; 2; 1]]).
Proof. eexists. vm_compute. reflexivity. Qed.
Example C13_case_setting : forall s, In s [0; 1; 2; 3; 4; 5] ->
  setting Nat.add Nat.leb (table demo_rows) (pick_min Nat.leb) s [0; 1; 2; 3; 4; 5].
Proof.
  intros s Hs. apply table_setting; [repeat constructor; cbn; intuition lia|exact Hs|].
  intros v w H. cbn in H. repeat (destruct H as [[= <- <-]|H]; [cbn; tauto|]). destruct H.
Qed.

(** C13 fails for bounded queries: the cache does not know the bound, so a goal missed once (with a small
    bound) stays missed. *)
Theorem C13_bounded_refuted : exists adj vs q (b : nat) c1 r1 r2,
  (forall s, In s vs -> setting Nat.add Nat.leb adj (pick_min Nat.leb) s vs) /\ well_formed vs q /\
  ask Nat.add Nat.leb 0 adj (pick_min Nat.leb) (fun p => Edges p) vs (Some b) q [] = Ok (c1, r1) /\
  (exists c2, ask Nat.add Nat.leb 0 adj (pick_min Nat.leb) (fun p => Edges p) vs None q c1 = Ok (c2, Invalid)) /\
  fresh_answer Nat.add Nat.leb 0 adj (pick_min Nat.leb) (fun p => Edges p) vs q = Some r2 /\ r2 <> Invalid.
Proof.
  exists (table [[(1, 5)]; []]), [0; 1], (mkQ 0 [1] 1), 3, [((0, 1), Invalid)], Invalid, (Edges [0; 1]).
  split; [|split; [|split; [vm_compute; reflexivity|split; [eexists; vm_compute; reflexivity|split; [vm_compute; reflexivity|discriminate]]]]].
  - intros s Hs. apply table_setting; [repeat constructor; cbn; intuition lia|exact Hs|].
    intros v w H. cbn in H. repeat (destruct H as [[= <- <-]|H]; [cbn; tauto|]). destruct H.
  - repeat split; cbn; auto. repeat constructor. intros [].
Qed.

(** C13 fails after an A* query for an unreachable goal: its vertex list is stored under a key of its own
    end points, so a later query for that pair gets a wrong answer. *)
Theorem C13_unreachable_refuted : exists adj vs p c1 r1 q,
  (forall s, In s vs -> setting Nat.add Nat.leb adj (pick_min Nat.leb) s vs) /\ well_formed vs q /\
  a_star_shortest_paths Nat.add Nat.leb 0 adj (pick_min Nat.leb) (fun _ => 0) None 2 10 10 1 = Ok p /\
  query (fun p => Edges p) (1, 2) (Ok [p]) [] = Ok (c1, r1) /\
  fresh_answer Nat.add Nat.leb 0 adj (pick_min Nat.leb) (fun p => Edges p) vs q = Some Invalid /\
  exists c2 r2, ask Nat.add Nat.leb 0 adj (pick_min Nat.leb) (fun p => Edges p) vs None q c1 = Ok (c2, r2) /\ r2 <> Invalid.
Proof.
  exists (table [[]; []; []]), [0; 1; 2], [0; 2], [((1, 2), Invalid); ((0, 2), Edges [0; 2])], Invalid, (mkQ 0 [2] 2).
  split; [|split; [|split; [vm_compute; reflexivity|split; [vm_compute; reflexivity|split; [vm_compute; reflexivity|]]]]].
  - intros s Hs. apply table_setting; [repeat constructor; cbn; intuition lia|exact Hs|]. intros v w H. cbn in H. destruct H.
  - repeat split; cbn; auto. repeat constructor. intros [].
  - eexists; eexists. split; [vm_compute; reflexivity|discriminate].
Qed.

Print Assumptions C12_extract_along.
Print Assumptions C12_query_routes.
Print Assumptions C13_history_independent.
Print Assumptions C13_bounded_refuted.
Print Assumptions C13_unreachable_refuted.
