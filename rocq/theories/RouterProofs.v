(** Proofs about route extraction and the route cache. *)
From Verif Require Import Base ListAux Traverse TraverseProofs Search SearchSpec SearchProofs SearchProps Router.

Section Extract.
  Context {L W : Type}.
  Variable add : W -> W -> W.
  Variable leb : W -> W -> bool.
  Variable zero : W.
  Variable l_empty : L -> bool.
  Variable l_length : L -> option W.
  Variable lines : nat -> list (nat * L).
  Notation le a b := (leb a b = true).
  Notation best_edge := (best_edge leb l_empty l_length lines).
  Notation route_edges := (route_edges leb l_empty l_length lines).
  Notation better := (better leb l_empty l_length).

  Definition len (l : L) : W := match l_length l with Some x => x | None => zero end.
  (** the graph the search sees *)
  Definition weights (v : nat) : list (nat * W) := map (fun e => (fst e, len (snd e))) (lines v).
  (** all lines are non-empty and have a length *)
  Definition measured : Prop := forall v t l, In (t, l) (lines v) -> l_empty l = false /\ exists x, l_length l = Some x.

  (** the edges [es], one after another, lead from [s] along the vertices [p] to [v]; their lengths add up
      to [d] *)
  Inductive along (s : nat) : list nat -> list L -> nat -> W -> Prop :=
  | along_start : along s [s] [] s zero
  | along_edge p es u d v l : along s p es u d -> In (v, l) (lines u) -> along s (p ++ [v]) (es ++ [l]) v (add d (len l)).

  Hypothesis Ord : total_order leb.

  Lemma better_fold next : forall es l0 x0, (forall t l, In (t, l) es -> l_empty l = false /\ exists x, l_length l = Some x) ->
    l_length l0 = Some x0 ->
    exists l x, fold_left (better next) es (Some l0, Some x0) = (Some l, Some x) /\ l_length l = Some x /\
      (l = l0 \/ In (next, l) es) /\ le x x0 /\ forall l', In (next, l') es -> le x (len l').
  Proof.
    induction es as [|[t l1] es IH]; intros l0 x0 Hm E0; cbn [fold_left].
    - exists l0, x0. split; [reflexivity|]. split; [exact E0|]. split; [left; reflexivity|]. split; [apply (to_refl _ Ord)|intros l' []].
    - assert (Hm' : forall t l, In (t, l) es -> l_empty l = false /\ exists x, l_length l = Some x)
        by (intros t' l' H; apply (Hm t' l'); right; exact H).
      destruct (Hm t l1 (or_introl eq_refl)) as [He [x1 E1]]. unfold Router.better at 2. cbn [snd].
      destruct (Nat.eqb_spec t next) as [->|Ht]; cbn [negb].
      + rewrite He, E1. destruct (leb x0 x1) eqn:Lx; cbn [negb].
        * destruct (IH l0 x0 Hm' E0) as (l & x & E & El & Hin & Lb & Ha). exists l, x. repeat split; auto.
          -- destruct Hin; [left|right; right]; assumption.
          -- intros l' [H|H]; [|auto]. injection H as <-. unfold len. rewrite E1. eapply (to_trans _ Ord); eauto.
        * destruct (IH l1 x1 Hm' E1) as (l & x & E & El & Hin & Lb & Ha). exists l, x.
          assert (L10 : le x1 x0) by (destruct (to_total _ Ord x0 x1); congruence). repeat split; auto.
          -- destruct Hin as [->|H]; right; [left; reflexivity|right; exact H].
          -- eapply (to_trans _ Ord); eauto.
          -- intros l' [H|H]; [|auto]. injection H as <-. unfold len. rewrite E1. exact Lb.
      + destruct (IH l0 x0 Hm' E0) as (l & x & E & El & Hin & Lb & Ha). exists l, x. repeat split; auto.
        * destruct Hin; [left|right; right]; assumption.
        * intros l' [H|H]; [|auto]. injection H as -> _. contradiction.
  Qed.

  Lemma better_start next : forall es, (forall t l, In (t, l) es -> l_empty l = false /\ exists x, l_length l = Some x) ->
    forall l0, In (next, l0) es ->
    exists l x, fold_left (better next) es (None, None) = (Some l, Some x) /\ l_length l = Some x /\
      In (next, l) es /\ forall l', In (next, l') es -> le x (len l').
  Proof.
    induction es as [|[t l1] es IH]; intros Hm l0 H0; [destruct H0|]. cbn [fold_left].
    assert (Hm' : forall t l, In (t, l) es -> l_empty l = false /\ exists x, l_length l = Some x)
      by (intros t' l' H; apply (Hm t' l'); right; exact H).
    destruct (Hm t l1 (or_introl eq_refl)) as [He [x1 E1]]. unfold Router.better at 2. cbn [snd].
    destruct (Nat.eqb_spec t next) as [->|Ht]; cbn [negb].
    - rewrite He, E1. destruct (better_fold next es l1 x1 Hm' E1) as (l & x & E & El & Hin & Lb & Ha).
      exists l, x. repeat split; auto.
      + destruct Hin as [->|H]; [left; reflexivity|right; exact H].
      + intros l' [H|H]; [|auto]. injection H as <-. unfold len. rewrite E1. exact Lb.
    - destruct H0 as [H|H0]; [injection H as -> _; contradiction|].
      destruct (IH Hm' l0 H0) as (l & x & E & El & Hin & Ha). exists l, x. repeat split; auto; [right; exact Hin|].
      intros l' [H|H]; [|auto]. injection H as -> _. contradiction.
  Qed.

  Lemma best_edge_spec v next l0 : measured -> In (next, l0) (lines v) ->
    exists l, best_edge v next = Some l /\ In (next, l) (lines v) /\ forall l', In (next, l') (lines v) -> le (len l) (len l').
  Proof.
    intros Hm H0. destruct (better_start next (lines v) (fun t l => Hm v t l) l0 H0) as (l & x & E & El & Hin & Ha).
    exists l. unfold Router.best_edge. rewrite E. split; [reflexivity|]. split; [exact Hin|].
    intros l' H'. unfold len at 1. rewrite El. auto.
  Qed.

  Lemma route_edges_snoc : forall p u v, route_edges (p ++ [u; v]) =
    route_edges (p ++ [u]) ++ match best_edge u v with Some l => [l] | None => [] end.
  Proof.
    induction p as [|a p IH]; intros u v.
    - cbn. destruct (best_edge u v); reflexivity.
    - destruct p as [|b p].
      + cbn. destruct (best_edge a u), (best_edge u v); reflexivity.
      + specialize (IH u v). cbn [app] in *.
        change (route_edges (a :: b :: p ++ [u; v])) with
          (match best_edge a b with Some l => l :: route_edges (b :: p ++ [u; v]) | None => route_edges (b :: p ++ [u; v]) end).
        change (route_edges (a :: b :: p ++ [u])) with
          (match best_edge a b with Some l => l :: route_edges (b :: p ++ [u]) | None => route_edges (b :: p ++ [u]) end).
        rewrite IH. destruct (best_edge a b); reflexivity.
  Qed.

  Lemma path_ends s p v d : path add zero weights s p v d -> exists q, p = q ++ [v].
  Proof. intros P. destruct P as [|p u d v w P Hw]; [exists []; reflexivity|exists p; reflexivity]. Qed.

  Lemma path_hd s p v d : path add zero weights s p v d -> hd_error p = Some s.
  Proof.
    intros P. induction P as [|p u d v w P IH Hw]; [reflexivity|]. destruct p; [discriminate|exact IH].
  Qed.

  Hypothesis Mono : forall a b x y, le a b -> le x y -> le (add a x) (add b y).

  Lemma extract_along s p v d : measured -> path add zero weights s p v d ->
    exists d', along s p (route_edges p) v d' /\ forall d'', path add zero weights s p v d'' -> le d' d''.
  Proof.
    intros Hm P. induction P as [|p u d v w P IH Hw].
    - exists zero. split; [constructor|]. intros d'' P. apply path_inv in P as [(_ & _ & ->)|(l' & u & d' & w & P & _ & E & _)].
      + apply (to_refl _ Ord).
      + pose proof (path_ends _ _ _ _ P) as [q ->]. apply (f_equal (@length nat)) in E. rewrite !app_length in E. cbn in E. lia.
    - destruct IH as (d1 & A & Ha). unfold weights in Hw. apply in_map_iff in Hw as ([t l0] & [= -> <-] & Hl). cbn [snd].
      destruct (best_edge_spec u v l0 Hm Hl) as (l & Eb & Hin & Hmin).
      destruct (path_ends _ _ _ _ P) as [q Eq]. exists (add d1 (len l)). split.
      + assert (Er : route_edges (p ++ [v]) = route_edges p ++ [l]).
        { rewrite Eq, <- app_assoc. cbn [app]. rewrite route_edges_snoc, Eb. reflexivity. }
        rewrite Er. eapply along_edge; eassumption.
      + intros d'' P''. apply path_inv in P'' as [(_ & E & _)|(p' & u' & d' & w' & P' & Hw' & E & ->)].
        * exfalso. apply (f_equal (@length nat)) in E. rewrite Eq, !app_length in E. cbn in E. lia.
        * apply app_inj_tail in E as [<- _].
          assert (u' = u).
          { destruct (path_ends _ _ _ _ P') as [q' Eq']. rewrite Eq in Eq'. apply app_inj_tail in Eq'. symmetry; apply Eq'. }
          subst u'. apply in_map_iff in Hw' as ([t l'] & [= -> <-] & Hl'). cbn [snd]. apply Mono; auto.
  Qed.

  Lemma along_path s p es v d : along s p es v d -> path add zero weights s p v d.
  Proof.
    induction 1 as [|p es u d v l A IH Hl]; [constructor|]. econstructor; [exact IH|].
    apply in_map_iff. exists (v, l). split; [reflexivity|exact Hl].
  Qed.
End Extract.

(** *** searches with and without stopping *)
Section Stops.
  Context {W : Type}.
  Variable add : W -> W -> W.
  Variable leb : W -> W -> bool.
  Variable zero : W.
  Variable adj : nat -> list (nat * W).
  Variable pick : picker W.
  Variable cur : W -> W -> W.
  Variable prio : W -> nat -> W.
  Variable exceeds : W -> bool.
  Notation relax := (relax add leb zero cur prio exceeds).
  Notation loop := (search_loop add leb zero adj pick cur prio exceeds).

  Definition frozen (s s' : sstate W) : Prop := forall x, In x (s_black s) ->
    In x (s_black s') /\ s_pred s' x = s_pred s x /\ s_dist s' x = s_dist s x.

  Lemma frozen_refl s : frozen s s.
  Proof. intros x H; auto. Qed.
  Lemma frozen_trans s1 s2 s3 : frozen s1 s2 -> frozen s2 s3 -> frozen s1 s3.
  Proof.
    intros H1 H2 x Hx. destruct (H1 x Hx) as (A & B & C). destruct (H2 x A) as (A' & B' & C').
    repeat split; [exact A'|congruence|congruence].
  Qed.

  Lemma relax_frozen k v s e : frozen s (relax k v s e).
  Proof.
    intros x Hx. destruct e as [t w]. unfold Search.relax.
    set (black := if exceeds _ then _ else _).
    assert (Hb : In x black) by (subst black; destruct (exceeds _); [right|]; exact Hx).
    destruct (mem t black) eqn:Em; [cbn; auto|].
    destruct (match s_dist s t with None => _ | Some _ => _ end); [|cbn; auto]. cbn.
    assert (x <> t) by (intros ->; apply mem_nIn in Em; contradiction).
    unfold upd. destruct (Nat.eqb_spec x t); [contradiction|auto].
  Qed.
  Lemma fold_frozen k v es : forall s, frozen s (fold_left (relax k v) es s).
  Proof.
    induction es as [|e es IH]; intros s; [apply frozen_refl|]. cbn. eapply frozen_trans; [apply relax_frozen|apply IH].
  Qed.

  Lemma loop_frozen stop : forall fuel n s s', loop stop fuel n s = Ok s' -> frozen s s'.
  Proof.
    induction fuel as [|f IH]; intros n s s' E; cbn in E.
    - destruct (s_queue s); [injection E as <-; apply frozen_refl|].
      destruct (stop (s_fin s)); [injection E as <-; apply frozen_refl|discriminate].
    - destruct (s_queue s) as [|e0 q0] eqn:Eq; [injection E as <-; apply frozen_refl|].
      destruct (stop (s_fin s)); [injection E as <-; apply frozen_refl|].
      destruct (pick n (e0 :: q0)) as [[[k v] q]|]; [|discriminate].
      eapply frozen_trans; [|apply (IH _ _ _ E)]. intros x Hx.
      destruct (fold_frozen k v (adj v) (mkS (s_pred s) (s_dist s) (s_black s) (s_fin s) q) x Hx) as (A & B & C). cbn. auto.
  Qed.

  (** a stopped run is an initial part of the run that is not stopped *)
  Lemma loop_prefix stop : forall fuel n s s', loop stop fuel n s = Ok s' ->
    exists fuel' n', loop (fun _ => false) fuel n s = loop (fun _ => false) fuel' n' s'.
  Proof.
    induction fuel as [|f IH]; intros n s s' E; cbn in E.
    - destruct (s_queue s) eqn:Eq; [injection E as <-; exists 0, n; reflexivity|].
      destruct (stop (s_fin s)); [injection E as <-; exists 0, n; reflexivity|discriminate].
    - destruct (s_queue s) as [|e0 q0] eqn:Eq; [injection E as <-; exists (S f), n; reflexivity|].
      destruct (stop (s_fin s)); [injection E as <-; exists (S f), n; reflexivity|].
      destruct (pick n (e0 :: q0)) as [[[k v] q]|] eqn:Ep; [|discriminate].
      destruct (IH _ _ _ E) as (f' & n' & E'). exists f', n'. rewrite <- E'. cbn. rewrite Eq, Ep. reflexivity.
  Qed.
End Stops.

(** *** the cache *)
Section Cache.
  Context {L : Type}.
  Variable extract : list nat -> route L.
  Variable ans : key -> route L.

  Lemma key_eqb_spec a b : reflect (a = b) (key_eqb a b).
  Proof.
    unfold key_eqb. destruct a as [a1 a2], b as [b1 b2]. cbn.
    destruct (Nat.eqb_spec a1 b1), (Nat.eqb_spec a2 b2); constructor; congruence.
  Qed.

  (** the result of a search agrees with [ans] *)
  Definition agrees (k : key) (ps : list (list nat)) : Prop :=
    (forall p, In p ps -> exists a b, hd_error p = Some a /\ hd_error (rev p) = Some b /\ extract p = ans (a, b)) /\
    ((forall p, In p ps -> (hd_error p, hd_error (rev p)) <> (Some (fst k), Some (snd k))) -> ans k = Invalid).
  Definition coherent (c : cache L) : Prop := forall k r, lookup c k = Some r -> r = ans k.

  Lemma store_paths_ok k ps : forall c found,
    (forall p, In p ps -> exists a b, hd_error p = Some a /\ hd_error (rev p) = Some b /\ extract p = ans (a, b)) ->
    coherent c -> (found = None \/ found = Some (ans k)) ->
    exists c' found', store_paths extract k c found ps = Ok (c', found') /\ coherent c' /\
      (found' = None \/ found' = Some (ans k)) /\
      (found' = None -> lookup c' k = lookup c k) /\
      (found' = None -> forall p, In p ps -> (hd_error p, hd_error (rev p)) <> (Some (fst k), Some (snd k))).
  Proof.
    induction ps as [|p ps IH]; intros c found Hp Hc Hf.
    - exists c, found. cbn. repeat split; auto.
    - destruct (Hp p (or_introl eq_refl)) as (a & b & Ea & Eb & Ex). cbn [store_paths]. rewrite Ea, Eb.
      assert (Hp' : forall p, In p ps -> exists a b, hd_error p = Some a /\ hd_error (rev p) = Some b /\ extract p = ans (a, b))
        by (intros q Hq; apply Hp; right; exact Hq).
      assert (K : exists c1 x, (match lookup c (a, b) with
                   | Some x => store_paths extract k c (if key_eqb k (a, b) then Some x else found) ps
                   | None => store_paths extract k (((a, b), extract p) :: c) (if key_eqb k (a, b) then Some (extract p) else found) ps
                   end = store_paths extract k c1 (if key_eqb k (a, b) then Some x else found) ps) /\ coherent c1 /\ x = ans (a, b) /\
                   (k <> (a, b) -> lookup c1 k = lookup c k)).
      { destruct (lookup c (a, b)) as [x|] eqn:El.
        - exists c, x. split; [reflexivity|]. split; [exact Hc|]. split; [exact (Hc _ _ El)|auto].
        - exists (((a, b), extract p) :: c), (extract p). split; [reflexivity|]. split; [|split; [exact Ex|]].
          + intros k' r. cbn [lookup]. destruct (key_eqb_spec (a, b) k') as [<-|_]; [intros [= <-]; exact Ex|apply Hc].
          + intros Hk. cbn [lookup]. destruct (key_eqb_spec (a, b) k) as [<-|_]; [contradiction|reflexivity]. }
      destruct K as (c1 & x & E1 & Hc1 & -> & Hl1). cbn zeta. rewrite E1.
      destruct (IH c1 (if key_eqb k (a, b) then Some (ans (a, b)) else found) Hp' Hc1) as (c' & found' & E' & Hc' & Hf' & Hl' & Hn').
      { destruct (key_eqb_spec k (a, b)) as [->|_]; auto. }
      exists c', found'. split; [exact E'|]. split; [exact Hc'|]. split; [exact Hf'|].
      assert (G : forall c found ps c' found', store_paths extract k c found ps = Ok (c', found') -> found <> None -> found' <> None).
      { clear. intros c found ps. revert c found. induction ps as [|q ps IH]; intros c found c' found' E Hf; cbn in E.
        - injection E as _ <-. exact Hf.
        - destruct (hd_error q), (hd_error (rev q)); try discriminate E.
          destruct (lookup c _); apply (IH _ _ _ _ E); destruct (key_eqb k _); congruence. }
      assert (Hk : found' = None -> k <> (a, b)).
      { intros E ->. destruct (key_eqb_spec (a, b) (a, b)) as [_|H]; [|congruence]. apply (G _ _ _ _ _ E'); congruence. }
      split.
      + intros E. rewrite (Hl' E). apply Hl1, Hk, E.
      + intros E q [<-|Hq]; [|apply Hn'; auto]. rewrite Ea, Eb. intros [= -> ->]. apply (Hk E). destruct k; reflexivity.
  Qed.

  Lemma query_ok k ps c : agrees k ps -> coherent c ->
    exists c', query extract k (Ok ps) c = Ok (c', ans k) /\ coherent c'.
  Proof.
    intros [Hp Hn] Hc. unfold query. destruct (lookup c k) as [r|] eqn:El.
    - exists c. rewrite (Hc _ _ El). auto.
    - destruct (store_paths_ok k ps c None Hp Hc (or_introl eq_refl)) as (c' & f & E & Hc' & Hf & Hl & Hno). rewrite E.
      destruct Hf as [->| ->]; [|exists c'; auto].
      rewrite (Hl eq_refl), El. assert (Ek : ans k = Invalid) by (apply Hn, Hno; reflexivity).
      exists ((k, Invalid) :: c'). rewrite Ek. split; [reflexivity|].
      intros k' r. cbn [lookup]. destruct (key_eqb_spec k k') as [<-|_]; [intros [= <-]; auto|apply Hc'].
  Qed.
End Cache.
