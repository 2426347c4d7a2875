(** Properties C09 (Dijkstra), C10 (A-star) and C11 (bounded search).

    [vs] is any duplicate-free list containing the start and all edge targets; it only serves to bound the
    number of steps. *)
From Verif Require Import Base ListAux AdjList AdjListSpec AdjListProofs AdjListProofs3 AdjListProps Csr CsrProofs
                          Traverse TraverseProofs TraverseProps Search SearchSpec SearchProofs.

Section Props.
  Context {W : Type}.
  Variable add : W -> W -> W.
  Variable leb : W -> W -> bool.
  Variable zero : W.
  Variable adj : nat -> list (nat * W).
  Variable pick : picker W.

  Notation le a b := (leb a b = true).
  Notation path := (path add zero adj).
  Notation shortest := (shortest add leb zero adj).
  Notation connected_to := (connected_to add zero adj).

  (** what all searches need: a graph with finitely many vertices, ordered lengths, a working heap *)
  Record setting (s : nat) (vs : list nat) : Prop := {
    se_order : total_order leb;
    se_mono : monotone_add add leb;
    se_heap : heap_like leb pick;
    se_nodup : NoDup vs;
    se_start : In s vs;
    se_all : vertices_in adj vs
  }.

  (** no vertex of [l] after the first can be overshot: every edge into it, from any vertex that has a path
      within the bound, stays within the bound *)
  Definition never_overshot (s : nat) (b : W) (l : list nat) : Prop :=
    forall x u w lu du, In x (tl l) -> path s lu u du -> u = s \/ le du b -> In (x, w) (adj u) -> le (add du w) b.

  (** internal: what is known about the state after a search *)
  Record Good (s : nat) (vs : list nat) (bound : option W) (r : sstate W) : Prop := {
    g_rec : forall v d, s_dist r v = Some d -> exists l, path s l v d /\
              (forall n, length vs <= n -> trace_back (s_pred r) n v [] = Ok l) /\
              (v = s \/ exceeds_bound leb bound d = false) /\ NoDup l;
    g_opt : forall l v d dv, In v (s_fin r) -> s_dist r v = Some dv -> path s l v d ->
              clean add adj (exceeds_bound leb bound) r l -> le dv d;
    g_all : forall l v d, s_queue r = [] -> path s l v d -> clean add adj (exceeds_bound leb bound) r l -> In v (s_fin r);
    g_fin : forall v, In v (s_fin r) -> exists d, s_dist r v = Some d;
    g_drained : forall v d, s_queue r = [] -> s_dist r v = Some d -> In v (s_fin r)
  }.

  Lemma good_of_outer prio bound s vs r : setting s vs ->
    (forall a b v, le a b -> le (prio a v) (prio b v)) -> (forall a b v, le (prio a v) (prio b v) -> le a b) ->
    (forall d u v w, In (v, w) (adj u) -> le (prio d u) (prio (add d w) v)) ->
    Outer add leb zero adj prio (exceeds_bound leb bound) s r -> Good s vs bound r.
  Proof.
    intros [S1 S2 S3 S4 S5 S6] P1 P2 P3 O. constructor.
    - intros v d E. eapply recorded_path; eauto.
    - intros l v d dv H1 H2 H3 H4. eapply finished_optimal; eauto.
    - intros l v d H1 H2 H3. eapply drained_complete; eauto.
    - intros v Hv. eapply i_fd; [eapply o_inv; exact O|exact Hv].
    - intros v d E Ed. assert (I := o_inv _ _ _ _ _ _ _ _ O).
      assert (Q : In v (s_fin r) \/ In (prio d v, v) (s_queue r)) by (eapply i_qc; eauto).
      destruct Q as [H|H]; [exact H|].
      rewrite E in H. destruct H.
  Qed.

  Lemma clean_unbounded r l : clean add adj (exceeds_bound leb None) r l.
  Proof. intros x _. apply not_pruned. reflexivity. Qed.

  Lemma clean_overshot s vs b r l : total_order leb -> Good s vs (Some b) r -> never_overshot s b l ->
    clean add adj (exceeds_bound leb (Some b)) r l.
  Proof.
    intros Or G H x Hx (u & w & d & Hu & Hw & _ & Ed & Ex). cbn in Ex.
    destruct (g_rec _ _ _ _ G u d Ed) as (lu & Pu & _ & Bu & _).
    rewrite (H x u w lu d Hx Pu) in Ex; [discriminate| |exact Hw].
    destruct Bu as [Bu|Bu]; [left; exact Bu|right]. cbn in Bu. destruct (leb d b); [reflexivity|discriminate].
  Qed.

  Lemma dijkstra_ok bound stop fuel s vs : setting s vs -> non_negative add leb adj -> S (edge_count adj vs) <= fuel ->
    exists r, dijkstra add leb zero adj pick bound stop fuel s = Ok r /\ Good s vs bound r /\
              (s_queue r = [] \/ stop (s_fin r) = true).
  Proof.
    intros St Pos Hf. assert (P3 : forall d u v w, In (v, w) (adj u) -> le d (add d w)) by (intros d u v w H; exact (Pos u v w H d)).
    destruct St as [S1 S2 S3 S4 S5 S6]. unfold dijkstra.
    destruct (search_ok add leb zero adj pick (fun k _ => k) (fun d _ => d) (exceeds_bound leb bound) stop
                S1 S2 (fun _ _ _ H => H) (fun _ _ _ H => H) P3 (fun _ _ => eq_refl) (fun _ _ _ H => H) S3 s vs S4 S5 S6 fuel Hf)
      as (r & E & O & Q).
    exists r. split; [exact E|]. split; [|exact Q].
    apply (good_of_outer (fun d _ => d)); auto. constructor; auto.
  Qed.

  Lemma a_star_ok h bound stop fuel s vs : setting s vs -> cancels add leb -> consistent add leb adj h ->
    S (edge_count adj vs) <= fuel ->
    exists r, a_star add leb zero adj pick h bound stop fuel s = Ok r /\ Good s vs bound r /\
              (s_queue r = [] \/ stop (s_fin r) = true).
  Proof.
    intros St Ca Co Hf. destruct St as [S1 S2 S3 S4 S5 S6]. unfold a_star.
    destruct (search_ok add leb zero adj pick (fun _ d => d) (fun d v => add d (h v)) (exceeds_bound leb bound) stop
                S1 S2 (fun a b v H => S2 a b (h v) H) (fun a b v H => Ca a b (h v) H) (fun d u v w H => Co d u v w H)
                (fun _ _ => eq_refl) (fun _ d _ _ => to_refl _ S1 d) S3 s vs S4 S5 S6 fuel Hf)
      as (r & E & O & Q).
    exists r. split; [exact E|]. split; [|exact Q].
    apply (good_of_outer (fun d v => add d (h v)) bound s vs r); [constructor; auto| | | |exact O].
    - intros a b v H. apply S2, H.
    - intros a b v H. eapply Ca; eauto.
    - exact Co.
  Qed.

  Lemma collect_ok {A B} (f : A -> outcome B) (g : A -> B -> Prop) l : (forall x, In x l -> exists y, f x = Ok y /\ g x y) ->
    exists ys, collect f l = Ok ys /\ Forall2 g l ys.
  Proof.
    induction l as [|x l IH]; intros H; [exists []; split; [reflexivity|constructor]|].
    destruct (H x (or_introl eq_refl)) as (y & Ey & Gy).
    destruct IH as (ys & Es & Gs); [intros z Hz; apply H; right; exact Hz|].
    exists (y :: ys). cbn. rewrite Ey, Es. split; [reflexivity|constructor; auto].
  Qed.

  (** C09: run to completion, Dijkstra's search terminates within one step per edge (plus one); every
      recorded distance is the length of a shortest path; following the recorded predecessors yields a path
      of exactly that length; vertices without a record are unreachable. *)
  Theorem C09_dijkstra_exact s vs : setting s vs -> non_negative add leb adj ->
    exists r, dijkstra add leb zero adj pick None (fun _ => false) (S (edge_count adj vs)) s = Ok r /\
      (forall v d, s_dist r v = Some d -> shortest s v d /\
         exists l, trace_back (s_pred r) (length vs) v [] = Ok l /\ path s l v d) /\
      (forall v, s_dist r v = None -> ~ connected_to s v).
  Proof.
    intros St Pos. destruct (dijkstra_ok None (fun _ => false) _ s vs St Pos (le_n _)) as (r & E & G & [Q|Q]); [|discriminate].
    exists r. split; [exact E|]. split.
    - intros v d Ed. destruct (g_rec _ _ _ _ G v d Ed) as (l & P & T & _). split.
      + split; [exists l; exact P|]. intros l' d' P'.
        eapply (g_opt _ _ _ _ G); eauto; [eapply (g_drained _ _ _ _ G); eauto|apply clean_unbounded].
      + exists l. split; [apply T; lia|exact P].
    - intros v Ed (l & d & P). destruct (g_fin _ _ _ _ G v) as [d' E']; [|congruence].
      eapply (g_all _ _ _ _ G); eauto. apply clean_unbounded.
  Qed.

  (** C09, the network query: the paths returned for a set of goals are shortest paths, one for each
      reachable goal, although the search stops as soon as all goals are finished. *)
  Theorem C09_goals_exact s vs goals : setting s vs -> non_negative add leb adj -> NoDup goals ->
    exists ps gs, dijkstra_shortest_paths add leb zero adj pick None goals (S (edge_count adj vs)) (length vs) s = Ok ps /\
      NoDup gs /\ (forall g, In g gs <-> In g goals /\ connected_to s g) /\
      Forall2 (fun g l => exists d, path s l g d /\ shortest s g d) gs ps.
  Proof.
    intros St Pos Ng. destruct (dijkstra_ok None (goals_stop goals) _ s vs St Pos (le_n _)) as (r & E & G & Q).
    unfold dijkstra_shortest_paths. rewrite E.
    destruct (collect_ok (fun g => trace_back (s_pred r) (length vs) g [])
                (fun g l => exists d, path s l g d /\ shortest s g d) (goals_found goals (s_fin r))) as (ps & Ec & F).
    { intros g Hg. apply filter_In in Hg as [Hg Hf]. apply mem_In in Hf.
      destruct (g_fin _ _ _ _ G g Hf) as [d Ed]. destruct (g_rec _ _ _ _ G g d Ed) as (l & P & T & _).
      exists l. split; [apply T; lia|]. exists d. split; [exact P|]. split; [exists l; exact P|].
      intros l' d' P'. eapply (g_opt _ _ _ _ G); eauto. apply clean_unbounded. }
    exists ps, (goals_found goals (s_fin r)). split; [exact Ec|]. split; [apply NoDup_filter; exact Ng|]. split; [|exact F].
    intros g. unfold goals_found. rewrite filter_In, mem_In. split.
    - intros [Hg Hf]. split; [exact Hg|]. destruct (g_fin _ _ _ _ G g Hf) as [d Ed].
      destruct (g_rec _ _ _ _ G g d Ed) as (l & P & _). exists l, d. exact P.
    - intros [Hg (l & d & P)]. split; [exact Hg|]. destruct Q as [Q|Q].
      + eapply (g_all _ _ _ _ G); eauto. apply clean_unbounded.
      + unfold goals_stop in Q. destruct (s_fin r) as [|x fin] eqn:Ef; [discriminate|]. rewrite <- Ef in *.
        apply Nat.leb_le in Q. unfold goals_found in Q.
        apply mem_In. destruct (mem g (s_fin r)) eqn:Eg; [reflexivity|exfalso].
        assert (L : length (filter (fun g0 => mem g0 (s_fin r)) goals) < length goals).
        { clear - Hg Eg. induction goals as [|y l IH]; [destruct Hg|]. cbn. destruct Hg as [->|Hg].
          - rewrite Eg. pose proof (filter_length_le (fun g0 => mem g0 (s_fin r)) l). lia.
          - specialize (IH Hg). destruct (mem y (s_fin r)); cbn; lia. }
        lia.
  Qed.

  (** C10: with a consistent estimate the path found for a reachable goal is a shortest path. *)
  Theorem C10_a_star_exact s vs goal h : setting s vs -> cancels add leb -> consistent add leb adj h ->
    connected_to s goal ->
    exists l d, a_star_shortest_paths add leb zero adj pick h None goal (S (edge_count adj vs)) (length vs) s = Ok l /\
      path s l goal d /\ shortest s goal d.
  Proof.
    intros St Ca Co (l0 & d0 & P0). destruct (a_star_ok h None (goal_stop goal) _ s vs St Ca Co (le_n _)) as (r & E & G & Q).
    assert (Hf : In goal (s_fin r)).
    { destruct Q as [Q|Q]; [|apply mem_In; exact Q]. eapply (g_all _ _ _ _ G); eauto. apply clean_unbounded. }
    destruct (g_fin _ _ _ _ G goal Hf) as [d Ed]. destruct (g_rec _ _ _ _ G goal d Ed) as (l & P & T & _).
    exists l, d. unfold a_star_shortest_paths. rewrite E, T by lia. split; [reflexivity|]. split; [exact P|].
    split; [exists l; exact P|]. intros l' d' P'. eapply (g_opt _ _ _ _ G); eauto. apply clean_unbounded.
  Qed.

  (** C11, soundness: whatever the bound and the stopping rule, every recorded distance is the length of
      the path given by the predecessors, and is within the bound (the start excepted). *)
  Theorem C11_bounded_dijkstra_sound s vs b stop : setting s vs -> non_negative add leb adj ->
    exists r, dijkstra add leb zero adj pick (Some b) stop (S (edge_count adj vs)) s = Ok r /\
      forall v d, s_dist r v = Some d -> (v = s \/ le d b) /\
        exists l, trace_back (s_pred r) (length vs) v [] = Ok l /\ path s l v d.
  Proof.
    intros St Pos. destruct (dijkstra_ok (Some b) stop _ s vs St Pos (le_n _)) as (r & E & G & Q).
    exists r. split; [exact E|]. intros v d Ed. destruct (g_rec _ _ _ _ G v d Ed) as (l & P & T & B & _).
    split; [|exists l; split; [apply T; lia|exact P]].
    destruct B as [B|B]; [left; exact B|right]. cbn in B. destruct (leb d b); [reflexivity|discriminate].
  Qed.

  Theorem C11_bounded_a_star_sound s vs b h stop : setting s vs -> cancels add leb -> consistent add leb adj h ->
    exists r, a_star add leb zero adj pick h (Some b) stop (S (edge_count adj vs)) s = Ok r /\
      forall v d, s_dist r v = Some d -> (v = s \/ le d b) /\
        exists l, trace_back (s_pred r) (length vs) v [] = Ok l /\ path s l v d.
  Proof.
    intros St Ca Co. destruct (a_star_ok h (Some b) stop _ s vs St Ca Co (le_n _)) as (r & E & G & Q).
    exists r. split; [exact E|]. intros v d Ed. destruct (g_rec _ _ _ _ G v d Ed) as (l & P & T & B & _).
    split; [|exists l; split; [apply T; lia|exact P]].
    destruct B as [B|B]; [left; exact B|right]. cbn in B. destruct (leb d b); [reflexivity|discriminate].
  Qed.

  (** C11, when the bounded search is complete: a goal with a path none of whose vertices can be overshot
      is found, at a distance not longer than that path; in particular if a shortest path is such, the
      distance found is shortest. *)
  Theorem C11_bounded_complete_if s vs b goals g l d : setting s vs -> non_negative add leb adj -> NoDup goals ->
    In g goals -> path s l g d -> never_overshot s b l ->
    exists r dg, dijkstra add leb zero adj pick (Some b) (goals_stop goals) (S (edge_count adj vs)) s = Ok r /\
      In g (goals_found goals (s_fin r)) /\ s_dist r g = Some dg /\ le dg d /\
      (shortest s g d -> shortest s g dg).
  Proof.
    intros St Pos Ng Hg P Hn. destruct (dijkstra_ok (Some b) (goals_stop goals) _ s vs St Pos (le_n _)) as (r & E & G & Q).
    assert (Hc := clean_overshot s vs b r l (se_order _ _ St) G Hn).
    assert (Hf : In g (s_fin r)).
    { destruct Q as [Q|Q]; [eapply (g_all _ _ _ _ G); eauto|].
      unfold goals_stop in Q. destruct (s_fin r) as [|x fin] eqn:Ef; [discriminate|]. rewrite <- Ef in *.
      apply Nat.leb_le in Q. unfold goals_found in Q.
      apply mem_In. destruct (mem g (s_fin r)) eqn:Eg; [reflexivity|exfalso].
      assert (L : length (filter (fun g0 => mem g0 (s_fin r)) goals) < length goals).
      { clear - Hg Eg. induction goals as [|y k IH]; [destruct Hg|]. cbn. destruct Hg as [->|Hg].
        - rewrite Eg. pose proof (filter_length_le (fun g0 => mem g0 (s_fin r)) k). lia.
        - specialize (IH Hg). destruct (mem y (s_fin r)); cbn; lia. }
      lia. }
    destruct (g_fin _ _ _ _ G g Hf) as [dg Ed]. exists r, dg.
    assert (L : le dg d) by (eapply (g_opt _ _ _ _ G); eauto).
    split; [exact E|]. split; [apply filter_In; split; [exact Hg|apply mem_In; exact Hf]|].
    split; [exact Ed|]. split; [exact L|]. intros [_ Hs].
    destruct (g_rec _ _ _ _ G g dg Ed) as (l' & P' & _). split; [exists l'; exact P'|].
    intros l'' d'' P''. eapply (to_trans _ (se_order _ _ St)); eauto.
  Qed.
End Props.

(** *** a concrete heap and concrete lengths *)
Section Picker.
  Context {W : Type}.
  Variable leb : W -> W -> bool.

  Fixpoint take_min (e : W * nat) (q : list (W * nat)) : (W * nat) * list (W * nat) :=
    match q with
    | [] => (e, [])
    | x :: r => if leb (fst e) (fst x) then let (m, r') := take_min e r in (m, x :: r')
                else let (m, r') := take_min x r in (m, e :: r')
    end.
  Definition pick_min : picker W := fun _ q => match q with [] => None | e :: r => Some (take_min e r) end.

  Lemma take_min_ok : total_order leb -> forall q e m r, take_min e q = (m, r) ->
    Permutation (e :: q) (m :: r) /\ leb (fst m) (fst e) = true /\ forall x, In x r -> leb (fst m) (fst x) = true.
  Proof.
    intros O. induction q as [|x q IH]; intros e m r E; cbn in E.
    - injection E as <- <-. split; [reflexivity|]. split; [apply (to_refl _ O)|intros x []].
    - destruct (leb (fst e) (fst x)) eqn:L.
      + destruct (take_min e q) as [m' r'] eqn:E'. injection E as <- <-. destruct (IH e m' r' E') as (P & L1 & L2).
        split; [|split; [exact L1|]].
        * rewrite perm_swap, P. apply perm_swap.
        * intros y [<-|Hy]; [eapply (to_trans _ O); eauto|auto].
      + destruct (take_min x q) as [m' r'] eqn:E'. injection E as <- <-. destruct (IH x m' r' E') as (P & L1 & L2).
        assert (Lx : leb (fst x) (fst e) = true) by (destruct (to_total _ O (fst e) (fst x)); congruence).
        split; [|split].
        * rewrite P. apply perm_swap.
        * eapply (to_trans _ O); eauto.
        * intros y [<-|Hy]; [eapply (to_trans _ O); eauto|auto].
  Qed.

  Lemma pick_min_heap : total_order leb -> heap_like leb pick_min.
  Proof.
    intros O n [|e q] H; [contradiction|]. cbn. destruct (take_min e q) as [m r] eqn:E. exists m, r.
    destruct (take_min_ok O q e m r E) as (P & _ & L). auto.
  Qed.
End Picker.

Lemma nat_order : total_order Nat.leb.
Proof.
  constructor; intros; rewrite ?Nat.leb_le in *; lia.
Qed.
Lemma nat_mono : monotone_add Nat.add Nat.leb.
Proof. intros a b w H. rewrite Nat.leb_le in *. lia. Qed.
Lemma nat_cancels : cancels Nat.add Nat.leb.
Proof. intros a b w H. rewrite Nat.leb_le in *. lia. Qed.
Lemma nat_non_negative adj : non_negative Nat.add Nat.leb adj.
Proof. intros u v w _ a. apply Nat.leb_le. lia. Qed.

Definition table (rows : list (list (nat * nat))) (v : nat) : list (nat * nat) := nth v rows [].
Lemma table_setting rows s vs : NoDup vs -> In s vs -> (forall v w, In (v, w) (concat rows) -> In v vs) ->
  setting Nat.add Nat.leb (table rows) (pick_min Nat.leb) s vs.
Proof.
  intros N Hs H. constructor; auto using nat_order, nat_mono.
  - apply pick_min_heap, nat_order.
  - intros u v w Hw. apply (H v w). apply in_concat. exists (table rows u). split; [|exact Hw].
    unfold table in *. destruct (Nat.lt_ge_cases u (length rows)) as [L|L]; [apply nth_In; exact L|].
    rewrite nth_overflow in Hw by exact L. destruct Hw.
Qed.

(** a graph with parallel edges, a loop, a zero-length edge and an unreachable vertex *)
Definition demo_rows : list (list (nat * nat)) :=
  [[(1, 7); (1, 4); (2, 1); (0, 0)]; [(3, 2)]; [(1, 2); (3, 9)]; [(0, 1); (4, 0)]; []; [(0, 1)]].
Example demo_setting : setting Nat.add Nat.leb (table demo_rows) (pick_min Nat.leb) 0 [0; 1; 2; 3; 4].
Proof.
  apply table_setting; [repeat constructor; cbn; intuition lia|cbn; auto|].
  intros v w H. cbn in H. repeat (destruct H as [[= <- <-]|H]; [cbn; tauto|]). destruct H.
Qed.
Example demo_paths :
  dijkstra_shortest_paths Nat.add Nat.leb 0 (table demo_rows) (pick_min Nat.leb) None [3; 5; 4] 20 6 0
  = Ok [[0; 2; 1; 3]; [0; 2; 1; 3; 4]].
Proof. vm_compute. reflexivity. Qed.
Definition demo_h (v : nat) : nat := nth v [4; 2; 4; 0; 0; 0] 0.
Example demo_consistent : consistent Nat.add Nat.leb (table demo_rows) demo_h.
Proof.
  intros d u v w H. apply Nat.leb_le.
  destruct u as [|[|[|[|[|[|u]]]]]]; cbn in H; repeat (destruct H as [[= <- <-]|H]; [cbn; lia|]); try destruct H.
  destruct u; destruct H.
Qed.
Example demo_a_star :
  a_star_shortest_paths Nat.add Nat.leb 0 (table demo_rows) (pick_min Nat.leb) demo_h None 3 20 6 0 = Ok [0; 2; 1; 3].
Proof. vm_compute. reflexivity. Qed.
Example demo_bounded :
  dijkstra_shortest_paths Nat.add Nat.leb 0 (table demo_rows) (pick_min Nat.leb) (Some 4) [3; 1] 20 6 0 = Ok [].
Proof. vm_compute. reflexivity. Qed.

(** inverts hypotheses about paths in concrete graphs *)
Lemma path_inv {W} (add : W -> W -> W) zero adj s l v d : path add zero adj s l v d ->
  (v = s /\ l = [s] /\ d = zero) \/ exists l' u d' w, path add zero adj s l' u d' /\ In (v, w) (adj u) /\ l = l' ++ [v] /\ d = add d' w.
Proof. intros H. destruct H as [|l u d v w P Hw]; [left; auto|right]. exists l, u, d, w. auto. Qed.

(** C10: an estimate that is a lower bound on the remaining distance but not consistent can lead to a path
    that is not shortest. *)
Definition lower_bound (adj : nat -> list (nat * nat)) (goal : nat) (h : nat -> nat) : Prop :=
  forall v l d, path Nat.add 0 adj v l goal d -> h v <= d.

Definition bad_rows : list (list (nat * nat)) := [[(1, 1); (2, 3)]; [(2, 1)]; [(3, 3)]; []].
Definition bad_h (v : nat) : nat := match v with 1 => 4 | _ => 0 end.

Theorem C10_inconsistent_refuted : exists adj h vs s goal l,
  setting Nat.add Nat.leb adj (pick_min Nat.leb) s vs /\ lower_bound adj goal h /\
  a_star_shortest_paths Nat.add Nat.leb 0 adj (pick_min Nat.leb) h None goal (S (edge_count adj vs)) (length vs) s = Ok l /\
  exists d, path Nat.add 0 adj s l goal d /\ ~ shortest Nat.add Nat.leb 0 adj s goal d.
Proof.
  exists (table bad_rows), bad_h, [0; 1; 2; 3], 0, 3, [0; 2; 3].
  split; [|split; [|split; [vm_compute; reflexivity|]]].
  - apply table_setting; [repeat constructor; cbn; intuition lia|cbn; auto|].
    intros v w H. cbn in H. repeat (destruct H as [[= <- <-]|H]; [cbn; tauto|]). destruct H.
  - assert (K : forall l v d, path Nat.add 0 (table bad_rows) 1 l v d -> (v = 1 /\ d = 0) \/ (v = 2 /\ d = 1) \/ (v = 3 /\ d = 4)).
    { intros l v d P. induction P as [|l u d v w P IH Hw]; [auto|].
      destruct IH as [[-> ->]|[[-> ->]|[-> ->]]]; cbn in Hw.
      - destruct Hw as [[= <- <-]|[]]. auto.
      - destruct Hw as [[= <- <-]|[]]. auto.
      - destruct Hw. }
    intros [|[|v]] l d P; cbn; try lia. destruct (K l 3 d P) as [[? ?]|[[? ?]|[? ?]]]; lia.
  - exists 6. split.
    + apply (path_edge Nat.add 0 (table bad_rows) 0 [0; 2] 2 3 3 3); [|cbn; auto].
      apply (path_edge Nat.add 0 (table bad_rows) 0 [0] 0 0 2 3); [constructor|cbn; auto].
    + intros [_ H]. assert (P : path Nat.add 0 (table bad_rows) 0 [0; 1; 2; 3] 3 5).
      { apply (path_edge Nat.add 0 (table bad_rows) 0 [0; 1; 2] 2 2 3 3); [|cbn; auto].
        apply (path_edge Nat.add 0 (table bad_rows) 0 [0; 1] 1 1 2 1); [|cbn; auto].
        apply (path_edge Nat.add 0 (table bad_rows) 0 [0] 0 0 1 1); [constructor|cbn; auto]. }
      specialize (H _ _ P). discriminate H.
Qed.

(** C10: for an unreachable goal the path extraction reads a missing predecessor as vertex 0; the "path"
    returned starts at the start, ends at the goal, and is not a path of the graph. *)
Theorem C10_unreachable_goal_refuted : exists adj h vs s goal l,
  setting Nat.add Nat.leb adj (pick_min Nat.leb) s vs /\ consistent Nat.add Nat.leb adj h /\
  a_star_shortest_paths Nat.add Nat.leb 0 adj (pick_min Nat.leb) h None goal (S (edge_count adj vs)) (S (length vs)) s = Ok l /\
  hd_error l = Some s /\ hd_error (rev l) = Some goal /\ (forall v d, ~ path Nat.add 0 adj s l v d).
Proof.
  exists (table [[]; [(0, 5)]; []]), (fun _ => 0), [0; 1; 2], 1, 2, [1; 0; 2].
  split; [|split; [|split; [vm_compute; reflexivity|split; [reflexivity|split; [reflexivity|]]]]].
  - apply table_setting; [repeat constructor; cbn; intuition lia|cbn; auto|].
    intros v w H. cbn in H. repeat (destruct H as [[= <- <-]|H]; [cbn; tauto|]). destruct H.
  - intros d u v w _. apply Nat.leb_le. lia.
  - intros v d P. apply path_inv in P as [(_ & H & _)|(l' & u & d' & w & P & Hw & E & _)]; [discriminate|].
    apply path_inv in P as [(-> & -> & _)|(l'' & u' & d'' & w' & P & Hw' & -> & _)].
    + discriminate E.
    + change [1; 0; 2] with ([1; 0] ++ [2]) in E. apply app_inj_tail in E as [E <-].
      change [1; 0] with ([1] ++ [0]) in E. apply app_inj_tail in E as [_ <-].
      cbn in Hw. exact Hw.
Qed.

(** C11: a goal with a path well within the bound can be missed: the long direct edge is examined first
    and blackens the goal. *)
Theorem C11_bounded_misses_goal_refuted : exists adj vs s b g l d,
  setting Nat.add Nat.leb adj (pick_min Nat.leb) s vs /\ path Nat.add 0 adj s l g d /\ d <= b /\
  dijkstra_shortest_paths Nat.add Nat.leb 0 adj (pick_min Nat.leb) (Some b) [g] (S (edge_count adj vs)) (length vs) s = Ok [].
Proof.
  exists (table [[(1, 1); (2, 100)]; [(2, 1)]; []]), [0; 1; 2], 0, 10, 2, [0; 1; 2], 2.
  split; [|split; [|split; [lia|vm_compute; reflexivity]]].
  - apply table_setting; [repeat constructor; cbn; intuition lia|cbn; auto|].
    intros v w H. cbn in H. repeat (destruct H as [[= <- <-]|H]; [cbn; tauto|]). destruct H.
  - apply (path_edge Nat.add 0 _ 0 [0; 1] 1 1 2 1); [|cbn; auto].
    apply (path_edge Nat.add 0 _ 0 [0] 0 0 1 1); [constructor|cbn; auto].
Qed.

(** C11: and a goal can be found at a distance that is not shortest although a shortest path is within the
    bound. *)
Theorem C11_bounded_suboptimal_refuted : exists adj vs s b g r dg l d,
  setting Nat.add Nat.leb adj (pick_min Nat.leb) s vs /\
  dijkstra Nat.add Nat.leb 0 adj (pick_min Nat.leb) (Some b) (goals_stop [g]) (S (edge_count adj vs)) s = Ok r /\
  s_dist r g = Some dg /\ path Nat.add 0 adj s l g d /\ d < dg /\ dg <= b.
Proof.
  exists (table [[(2, 9); (1, 1)]; [(2, 100); (2, 1)]; []]), [0; 1; 2], 0, 10, 2.
  eexists; exists 9, [0; 1; 2], 2. split; [|split; [vm_compute; reflexivity|split; [vm_compute; reflexivity|split; [|lia]]]].
  - apply table_setting; [repeat constructor; cbn; intuition lia|cbn; auto|].
    intros v w H. cbn in H. repeat (destruct H as [[= <- <-]|H]; [cbn; tauto|]). destruct H.
  - apply (path_edge Nat.add 0 _ 0 [0; 1] 1 1 2 1); [|cbn; auto].
    apply (path_edge Nat.add 0 _ 0 [0] 0 0 1 1); [constructor|cbn; auto].
Qed.

(** an instance of [never_overshot] *)
Example demo_never_overshot : never_overshot Nat.add Nat.leb 0 (table [[(1, 2); (2, 5)]; [(2, 1)]; []]) 0 6 [0; 1; 2].
Proof.
  assert (K : forall l v d, path Nat.add 0 (table [[(1, 2); (2, 5)]; [(2, 1)]; []]) 0 l v d ->
              (v = 0 /\ d = 0) \/ (v = 1 /\ d = 2) \/ v = 2).
  { intros l v d P. induction P as [|l u d v w P IH Hw]; [auto|].
    destruct IH as [[-> ->]|[[-> ->]| ->]]; cbn in Hw.
    - destruct Hw as [[= <- <-]|[[= <- <-]|[]]]; auto.
    - destruct Hw as [[= <- <-]|[]]. auto.
    - destruct Hw. }
  intros x u w lu du _ P _ Hw. apply Nat.leb_le. destruct (K _ _ _ P) as [[-> ->]|[[-> ->]| ->]]; cbn in Hw.
  - destruct Hw as [[= <- <-]|[[= <- <-]|[]]]; lia.
  - destruct Hw as [[= <- <-]|[]]. lia.
  - destruct Hw.
Qed.

(** *** the compressed graph as the graph searched: weights are the lengths of the edge data *)
Section Network.
  Context {VD ED W : Type}.
  Variable len : ED -> W.
  Definition csr_adj (c : csr VD ED) (v : nat) : list (nat * W) := map (fun p => (fst p, len (snd p))) (csr_outs c v).

  (** the searched edges are exactly the edges of the adjacency list the graph was compressed from *)
  Lemma csr_adj_edges dir (g : graph VD ED) c u v w : exact dir g -> indexed g -> from_adjacency_list dir g = Ok c ->
    (In (v, w) (csr_adj c u) <->
     exists e, In e (g_es g) /\ position g (e_src e) = Some u /\ position g (e_tgt e) = Some v /\ len (e_data e) = w).
  Proof.
    intros H Hi E.
    assert (Pp : forall x, In x (vertex_ids g) -> position g x = Some (pos g x) /\ pos g x < length (g_vs g)).
    { intros x Hx. destruct (get_vertex_some g _ Hx) as [y Ey].
      destruct (position_nth g _ y (ex_vid _ _ H) Ey) as (j & P & N). unfold pos. rewrite P. split; [reflexivity|].
      apply nth_error_Some. congruence. }
    destruct (nth_error (g_vs g) u) as [x|] eqn:En.
    - unfold csr_adj. rewrite (csr_outs_effect dir g c u x H Hi E En), map_map. cbn. rewrite in_map_iff.
      assert (Hx : In x (g_vs g)) by (eapply nth_error_In; eauto).
      assert (Px : position g (v_id x) = Some u).
      { destruct (position_nth g (v_id x) x (ex_vid _ _ H) (get_vertex_unique dir g x H Hx)) as (j & P & N).
        rewrite P. f_equal. rewrite <- (position_indexed g x j Hi N). apply (position_indexed g x u Hi En). }
      split.
      + intros (e & [= <- <-] & He). apply filter_In in He as [He Es]. apply Nat.eqb_eq in Es. exists e.
        destruct (ex_end _ _ H e He) as [_ Ht]. rewrite Es. repeat split; auto. apply Pp, Ht.
      + intros (e & He & Ps & Pt & Ew). exists e. destruct (ex_end _ _ H e He) as [Hs Ht].
        destruct (Pp _ Ht) as [Pt' _]. rewrite Pt' in Pt. injection Pt as ->. rewrite Ew. split; [reflexivity|].
        apply filter_In. split; [exact He|]. apply Nat.eqb_eq.
        apply (pos_inj g); [apply (ex_vid _ _ H)|exact Hs|apply in_map; exact Hx|].
        unfold pos. rewrite Ps, Px. reflexivity.
    - split.
      + unfold csr_adj, csr_outs, csr_out, csr_range. intros Hin. exfalso.
        assert (L : length (c_vs c) = length (g_vs g)).
        { rewrite (from_adjacency_list_effect dir g H Hi) in E. injection E as <-. cbn. apply starts_length. }
        apply nth_error_None in En. rewrite (proj2 (nth_error_None (c_vs c) u)) in Hin by lia. exact Hin.
      + intros (e & He & Ps & _). exfalso. destruct (ex_end _ _ H e He) as [Hs _]. destruct (Pp _ Hs) as [Ps' L].
        apply nth_error_None in En. rewrite Ps' in Ps. injection Ps as Ps. lia.
  Qed.
End Network.

Section NetworkProps.
  Context {VD ED W : Type}.
  Variable len : ED -> W.
  Variables (add : W -> W -> W) (leb : W -> W -> bool) (zero : W) (pick : picker W).

  (** C09 end to end: queries on the compressed form of an exact, indexed adjacency list. *)
  Theorem C09_on_network dir (g : graph VD ED) c s goals : exact dir g -> indexed g -> from_adjacency_list dir g = Ok c ->
    total_order leb -> monotone_add add leb -> heap_like leb pick ->
    (forall e, In e (g_es g) -> forall a, leb a (add a (len (e_data e))) = true) ->
    s < length (g_vs g) -> NoDup goals ->
    exists ps gs, dijkstra_shortest_paths add leb zero (csr_adj len c) pick None goals
                    (S (edge_count (csr_adj len c) (seq 0 (length (g_vs g))))) (length (g_vs g)) s = Ok ps /\
      NoDup gs /\ (forall x, In x gs <-> In x goals /\ connected_to add zero (csr_adj len c) s x) /\
      Forall2 (fun x l => exists d, path add zero (csr_adj len c) s l x d /\
                                    shortest add leb zero (csr_adj len c) s x d) gs ps.
  Proof.
    intros H Hi E O M Hp Pos Hs Ng.
    assert (V : vertices_in (csr_adj len c) (seq 0 (length (g_vs g)))).
    { intros u v w Hw. apply (csr_adj_edges len dir g c u v w H Hi E) in Hw as (e & He & _ & Pt & _).
      destruct (ex_end _ _ H e He) as [_ Ht]. destruct (get_vertex_some g _ Ht) as [y Ey].
      destruct (position_nth g _ y (ex_vid _ _ H) Ey) as (j & P & N). rewrite P in Pt. injection Pt as ->.
      apply in_seq. assert (v < length (g_vs g)) by (apply nth_error_Some; congruence). lia. }
    assert (St : setting add leb (csr_adj len c) pick s (seq 0 (length (g_vs g)))).
    { constructor; auto; [apply seq_NoDup|apply in_seq; lia]. }
    assert (P : non_negative add leb (csr_adj len c)).
    { intros u v w Hw a. apply (csr_adj_edges len dir g c u v w H Hi E) in Hw as (e & He & _ & _ & <-). apply Pos, He. }
    destruct (C09_goals_exact add leb zero (csr_adj len c) pick s _ goals St P Ng) as (ps & gs & K).
    rewrite seq_length in K. exists ps, gs. exact K.
  Qed.
End NetworkProps.

(** C09, C10: the searches stop as soon as they may: no vertex is finished once every goal is (Dijkstra; the
    start is always finished) or once the goal is (A* ). *)
Section Stops.
  Context {W : Type}.
  Variable add : W -> W -> W.
  Variable leb : W -> W -> bool.
  Variable zero : W.
  Variable adj : nat -> list (nat * W).
  Variable pick : picker W.

  Lemma relax_fin cur prio exceeds k v e s : s_fin (relax add leb zero cur prio exceeds k v s e) = s_fin s.
  Proof.
    destruct e as [t w]. unfold relax. destruct (mem t _); [reflexivity|].
    destruct (match s_dist s t with None => true | Some x => _ end); reflexivity.
  Qed.

  Lemma relaxes_fin cur prio exceeds k v es : forall s,
    s_fin (fold_left (relax add leb zero cur prio exceeds k v) es s) = s_fin s.
  Proof. induction es as [|e es IH]; intros s; cbn [fold_left]; [reflexivity|]. rewrite IH. apply relax_fin. Qed.

  Lemma loop_fin cur prio exceeds stop fuel : forall n s r,
    search_loop add leb zero adj pick cur prio exceeds stop fuel n s = Ok r ->
    exists l, s_fin r = s_fin s ++ l /\ forall p v q, l = p ++ v :: q -> stop (s_fin s ++ p) = false.
  Proof.
    induction fuel as [|f IH]; intros n s r; cbn [search_loop]; destruct (s_queue s) as [|e q0] eqn:Eq;
      try (intros [= <-]; exists []; rewrite app_nil_r; split; [reflexivity|];
           intros [|? ?] ? ? H; discriminate H);
      destruct (stop (s_fin s)) eqn:Es;
      try (intros [= <-]; exists []; rewrite app_nil_r; split; [reflexivity|];
           intros [|? ?] ? ? H; discriminate H); [discriminate|].
    destruct (pick n (e :: q0)) as [[[k v] q]|]; [|discriminate]. intros H.
    apply IH in H as (l & E & P). cbn [s_fin] in E, P. rewrite relaxes_fin in E, P. cbn [s_fin] in E, P.
    exists (v :: l). split; [rewrite E, <- app_assoc; reflexivity|].
    intros [|x p] v' q' [= Ex El].
    - rewrite app_nil_r. exact Es.
    - subst x. specialize (P p v' q' El). rewrite <- app_assoc in P. exact P.
  Qed.

  Theorem C09_stops bound goals fuel start r :
    dijkstra add leb zero adj pick bound (goals_stop goals) fuel start = Ok r ->
    forall p v q, s_fin r = p ++ v :: q -> p <> [] -> exists g, In g goals /\ ~ In g p.
  Proof.
    intros H p v q E Np. apply loop_fin in H as (l & El & P). cbn [s_fin app] in El. rewrite El in E.
    specialize (P p v q E). cbn [s_fin app] in P. unfold goals_stop in P. destruct p as [|x p]; [congruence|].
    apply Nat.leb_gt in P. clear El E Np. unfold goals_found in P. revert P. generalize (x :: p). intros fin.
    induction goals as [|g gs IH]; intros P; [inversion P|]. cbn [filter] in P. destruct (mem g fin) eqn:Em.
    - cbn [length] in P. destruct IH as (g' & I & N); [lia|]. exists g'. split; [right; exact I|exact N].
    - exists g. split; [left; reflexivity|]. intros I. apply (proj2 (mem_In g fin)) in I. congruence.
  Qed.

  Theorem C10_stops h bound goal fuel start r :
    a_star add leb zero adj pick h bound (goal_stop goal) fuel start = Ok r ->
    forall p v q, s_fin r = p ++ v :: q -> ~ In goal p.
  Proof.
    intros H p v q E I. apply loop_fin in H as (l & El & P). cbn [s_fin app] in El. rewrite El in E.
    specialize (P p v q E). cbn [s_fin app] in P. unfold goal_stop in P.
    apply (proj2 (mem_In goal p)) in I. congruence.
  Qed.
End Stops.
Example demo_stops :
  (match dijkstra Nat.add Nat.leb 0 (table demo_rows) (pick_min Nat.leb) None (goals_stop [1; 2]) 20 0 with
   | Ok r => s_fin r | _ => [] end) = [0; 2; 1].
Proof. vm_compute. reflexivity. Qed.

Print Assumptions C09_stops.
Print Assumptions C10_stops.
Print Assumptions C09_dijkstra_exact.
Print Assumptions C09_goals_exact.
Print Assumptions C09_on_network.
Print Assumptions C10_a_star_exact.
Print Assumptions C10_inconsistent_refuted.
Print Assumptions C10_unreachable_goal_refuted.
Print Assumptions C11_bounded_dijkstra_sound.
Print Assumptions C11_bounded_a_star_sound.
Print Assumptions C11_bounded_complete_if.
Print Assumptions C11_bounded_misses_goal_refuted.
Print Assumptions C11_bounded_suboptimal_refuted.
