(** Proofs about the generic shortest-path search. *)
From Verif Require Import Base ListAux Traverse TraverseProofs Search SearchSpec.

Section Proofs.
  Context {W : Type}.
  Variable add : W -> W -> W.
  Variable leb : W -> W -> bool.
  Variable zero : W.
  Variable adj : nat -> list (nat * W).
  Variable pick : picker W.
  Variable cur : W -> W -> W.
  Variable prio : W -> nat -> W.
  Variable exceeds : W -> bool.
  Variable stop : list nat -> bool.

  Notation le a b := (leb a b = true).
  Hypothesis Ord : total_order leb.
  Hypothesis add_mono : monotone_add add leb.
  Hypothesis prio_mono : forall a b v, le a b -> le (prio a v) (prio b v).
  Hypothesis prio_cancel : forall a b v, le (prio a v) (prio b v) -> le a b.
  Hypothesis prio_edge : forall d u v w, In (v, w) (adj u) -> le (prio d u) (prio (add d w) v).
  Hypothesis cur_first : forall d v, cur (prio d v) d = d.
  Hypothesis cur_later : forall k d v, le (prio d v) k -> le d (cur k d).
  Hypothesis Heap : heap_like leb pick.

  Variable s0 : nat.
  Variable vs : list nat.
  Hypothesis vs_nd : NoDup vs.
  Hypothesis vs_s0 : In s0 vs.
  Hypothesis vs_all : vertices_in adj vs.

  Notation sstate := (sstate W).
  Notation relax := (relax add leb zero cur prio exceeds).
  Notation path := (path add zero adj s0).

  Let refl := to_refl _ Ord.
  Let trans := to_trans _ Ord.
  Let antisym := to_antisym _ Ord.

  Lemma gt_le a b : negb (leb a b) = true -> le b a.
  Proof. intros H. destruct (to_total _ Ord a b) as [E|E]; [rewrite E in H; discriminate|exact E]. Qed.

  Lemma edge_ext d u w : In (u, w) (adj u) -> le d (add d w).
  Proof. intros H. apply (prio_cancel _ _ u). apply prio_edge. exact H. Qed.

  (** predecessor chain from the start *)
  Inductive traced (p : nat -> option nat) : list nat -> nat -> Prop :=
  | tr_start : p s0 = Some s0 -> traced p [s0] s0
  | tr_next l u v : traced p l u -> p v = Some u -> v <> u -> traced p (l ++ [v]) v.

  Lemma traced_last p l v : traced p l v -> In v l.
  Proof. intros H. destruct H; [left; reflexivity|apply in_app_iff; right; left; reflexivity]. Qed.

  Lemma traced_ext p p' l v : traced p l v -> (forall x, In x l -> p' x = p x) -> traced p' l v.
  Proof.
    induction 1 as [H|l u v H IH Hp Hn]; intros E.
    - constructor. rewrite E by (left; reflexivity). exact H.
    - constructor 2 with (u := u).
      + apply IH. intros x Hx. apply E, in_app_iff; auto.
      + rewrite E by (apply in_app_iff; right; left; reflexivity). exact Hp.
      + exact Hn.
  Qed.

  Lemma traced_trace_back p l v acc : traced p l v -> forall n, length l <= n -> trace_back p n v acc = Ok (l ++ acc).
  Proof.
    intros H. revert acc. induction H as [H|l u v H IH Hp Hn]; intros acc n Hl.
    - destruct n; [cbn in Hl; lia|]. cbn. unfold pget. rewrite H, Nat.eqb_refl. reflexivity.
    - rewrite app_length in Hl. cbn in Hl. destruct n; [lia|]. cbn. unfold pget. rewrite Hp.
      destruct (Nat.eqb_spec u v) as [->|_]; [contradiction|]. rewrite IH by lia. rewrite <- app_assoc. reflexivity.
  Qed.

  Lemma path_last l v d : path l v d -> In v l.
  Proof. intros H. destruct H; [left; reflexivity|apply in_app_iff; right; left; reflexivity]. Qed.

  Lemma path_vs l v d : path l v d -> incl l vs.
  Proof.
    induction 1 as [|l u d v w H IH Hw]; intros x Hx.
    - destruct Hx as [<-|[]]. exact vs_s0.
    - apply in_app_iff in Hx as [Hx|[<-|[]]]; [auto|]. eapply vs_all; eauto.
  Qed.

  (** [F]: vertices whose processing has started; [R u e]: edge [e] of [u] has been examined *)
  Section Invariant.
    Variable F : list nat.
    Variable R : nat -> nat * W -> Prop.

    (** [t] was blackened by the visitor *)
    Definition pruned (s : sstate) (t : nat) : Prop :=
      exists u w d, In u F /\ In (t, w) (adj u) /\ R u (t, w) /\ s_dist s u = Some d /\ exceeds (add d w) = true.

    Record Inv (s : sstate) : Prop := {
      i_start : s_dist s s0 = Some zero /\ s_pred s s0 = Some s0;
      i_tree : forall v d, s_dist s v = Some d ->
               exists l, path l v d /\ traced (s_pred s) l v /\ NoDup l /\ forall x, In x l -> x = v \/ In x F;
      i_qs : forall k v, In (k, v) (s_queue s) -> exists d, s_dist s v = Some d /\ le (prio d v) k;
      i_qc : forall v d, s_dist s v = Some d -> In v F \/ In (prio d v, v) (s_queue s);
      i_fd : forall v, In v F -> exists d, s_dist s v = Some d;
      i_rel : forall u d t w, In u F -> In (t, w) (adj u) -> R u (t, w) -> s_dist s u = Some d ->
              pruned s t \/ exists dt, s_dist s t = Some dt /\ le dt (add d w);
      i_black : forall x, In x (s_black s) <-> In x (s_fin s) \/ pruned s x;
      i_bound : forall v d, s_dist s v = Some d -> v = s0 \/ exceeds d = false
    }.
  End Invariant.

  Lemma start_zero F R s d : Inv F R s -> s_dist s s0 = Some d -> d = zero.
  Proof. intros I E. destruct (i_start _ _ _ I) as [E' _]. congruence. Qed.

  (** *** one first-time pop *)
  Section Inner.
    Variables (k d : W) (u : nat) (fin : list nat).
    Hypothesis Hk : k = prio d u.
    Let F := u :: fin.
    (** edges of earlier vertices, and those of [u] in [done] *)
    Definition Rin (done : list (nat * W)) (x : nat) (e : nat * W) : Prop := x = u /\ In e done \/ x <> u.

    Record Inner (done : list (nat * W)) (s : sstate) : Prop := {
      n_inv : Inv F (Rin done) s;
      n_fin : s_fin s = fin;
      n_u : s_dist s u = Some d;
      n_unew : ~ In u fin;
      n_start : In s0 F;
      n_low : forall t dt, In t F -> s_dist s t = Some dt -> le (prio dt t) k;
      n_high : forall k' v, In (k', v) (s_queue s) -> le k k'
    }.

    Lemma pruned_mono s s' done done' t : (forall x, In x F -> s_dist s' x = s_dist s x) -> incl done done' ->
      pruned F (Rin done) s t -> pruned F (Rin done') s' t.
    Proof.
      intros E Hd (x & w & dx & Hx & Hw & Hr & Ed & He). exists x, w, dx. rewrite E by exact Hx. repeat split; auto.
      destruct Hr as [[-> Hr]|Hr]; [left|right]; auto.
    Qed.

    Lemma inner_step done e s : Inner done s -> In e (adj u) -> Inner (done ++ [e]) (relax k u s e).
    Proof.
      intros [I Nf Nu Nn Ns Nl Nh] He. destruct e as [t w]. unfold Search.relax.
      assert (Eg : dget zero s u = d) by (unfold dget; rewrite Nu; reflexivity). rewrite Eg.
      assert (Ec : cur k d = d) by (rewrite Hk; apply cur_first). rewrite Ec.
      set (black := if exceeds (add d w) then t :: s_black s else s_black s).
      assert (HR : forall x e', Rin (done ++ [(t, w)]) x e' -> Rin done x e' \/ x = u /\ e' = (t, w)).
      { intros x e' [[-> H]|H]; [|left; right; exact H]. apply in_app_iff in H as [H|[<-|[]]]; [left; left; auto|right; auto]. }
      assert (HRi : incl done (done ++ [(t, w)])) by (intros x Hx; apply in_app_iff; auto).
      assert (HuF : In u F) by (left; reflexivity).
      (* pruned vertices after this step, when distances of F do not change *)
      assert (Pr : forall s', (forall x, In x F -> s_dist s' x = s_dist s x) -> forall x,
                   pruned F (Rin (done ++ [(t, w)])) s' x <-> pruned F (Rin done) s x \/ (x = t /\ exceeds (add d w) = true)).
      { intros s' E x. split.
        - intros (y & w' & dy & Hy & Hw & Hr & Ed & Hex). rewrite E in Ed by exact Hy.
          destruct (HR _ _ Hr) as [Hr'|[-> H]].
          + left. exists y, w', dy. auto.
          + injection H as -> ->. right. split; [reflexivity|]. congruence.
        - intros [H|[-> H]]; [eapply pruned_mono; eauto|].
          exists u, w, d. rewrite E by exact HuF. repeat split; auto. left. split; [reflexivity|].
          apply in_app_iff; right; left; reflexivity. }
      assert (Bl : forall s', (forall x, In x F -> s_dist s' x = s_dist s x) -> s_black s' = black -> s_fin s' = fin ->
                   forall x, In x (s_black s') <-> In x (s_fin s') \/ pruned F (Rin (done ++ [(t, w)])) s' x).
      { intros s' E Eb Ef x. rewrite Eb, Ef, (Pr s' E x). pose proof (i_black _ _ _ I x) as B. rewrite Nf in B.
        subst black. destruct (exceeds (add d w)); cbn.
        - rewrite B. split; [intros [<-|[H|H]]; tauto|intros [H|[H|[-> _]]]; tauto].
        - rewrite B. split; [tauto|]. intros [H|[H|[_ H]]]; try tauto. discriminate. }
      destruct (mem t black) eqn:Em.
      - (* target BLACK *)
        assert (E : forall x, In x F -> s_dist (mkS (s_pred s) (s_dist s) black (s_fin s) (s_queue s)) x = s_dist s x) by reflexivity.
        constructor; cbn; auto. destruct I as [I1 I2 I3 I4 I5 I6 I7 I8]. constructor; cbn; auto.
        + intros x dx t' w' Hx Hw Hr Ed. destruct (HR _ _ Hr) as [Hr'|[-> H]].
          * destruct (I6 x dx t' w' Hx Hw Hr' Ed) as [H|H]; [left; apply Pr; auto|right; exact H].
          * injection H as -> ->. assert (dx = d) by congruence. subst dx.
            apply mem_In in Em. subst black. destruct (exceeds (add d w)) eqn:Ex.
            -- left. apply Pr; auto.
            -- apply I7 in Em as [Em|Em]; [|left; apply Pr; auto].
               right. rewrite Nf in Em. assert (HtF : In t F) by (right; exact Em).
               destruct (I5 t HtF) as [dt Ed']. exists dt. split; [exact Ed'|].
               apply (prio_cancel _ _ t). eapply trans; [apply (Nl t dt HtF Ed')|]. rewrite Hk. apply prio_edge. exact He.
        + exact (Bl (mkS (s_pred s) (s_dist s) black (s_fin s) (s_queue s)) E eq_refl Nf).
      - apply mem_nIn in Em.
        assert (Ex : exceeds (add d w) = false).
        { destruct (exceeds (add d w)) eqn:Ex; [|reflexivity]. exfalso. apply Em. subst black. left; reflexivity. }
        assert (Hb : black = s_black s) by (subst black; rewrite Ex; reflexivity).
        assert (HtnF : ~ In t fin).
        { intros H. apply Em. rewrite Hb. apply (i_black _ _ _ I). left. rewrite Nf. exact H. }
        destruct (match s_dist s t with None => true | Some x => negb (leb x (add d w)) end) eqn:Er.
        + (* relaxed *)
          assert (Htu : t <> u).
          { intros ->. rewrite Nu in Er. rewrite (edge_ext d u w He) in Er. discriminate. }
          assert (HtF : ~ In t F) by (intros [H|H]; congruence).
          set (s' := mkS (upd (s_pred s) t u) (upd (s_dist s) t (add d w)) black (s_fin s) (s_queue s ++ [(prio (add d w) t, t)])).
          assert (E : forall x, In x F -> s_dist s' x = s_dist s x).
          { intros x Hx. cbn. unfold upd. destruct (Nat.eqb_spec x t) as [->|_]; [contradiction|reflexivity]. }
          assert (Eo : forall x, x <> t -> s_dist s' x = s_dist s x).
          { intros x Hx. cbn. unfold upd. destruct (Nat.eqb_spec x t); [contradiction|reflexivity]. }
          assert (Et : s_dist s' t = Some (add d w)) by (cbn; unfold upd; rewrite Nat.eqb_refl; reflexivity).
          assert (Eold : forall dt, s_dist s t = Some dt -> le (add d w) dt).
          { intros dt Edt. rewrite Edt in Er. apply gt_le. exact Er. }
          assert (Ht0 : t <> s0) by (intros ->; apply HtF, Ns).
          constructor; cbn [s_fin s_queue]; auto.
          * { destruct I as [I1 I2 I3 I4 I5 I6 I7 I8]. constructor.
              - split; [rewrite Eo by congruence; tauto|]. cbn. unfold upd.
                destruct (Nat.eqb_spec s0 t); [congruence|tauto].
              - intros v dv Edv. destruct (Nat.eq_dec v t) as [->|Hvt].
                + rewrite Et in Edv. injection Edv as <-.
                  destruct (I2 u d Nu) as (l & P & T & N & Hl).
                  assert (Htl : ~ In t l). { intros H. destruct (Hl t H) as [|H']; contradiction. }
                  exists (l ++ [t]). split; [econstructor; eauto|]. split; [|split].
                  * constructor 2 with (u := u); [|cbn; unfold upd; rewrite Nat.eqb_refl; reflexivity|exact Htu].
                    apply (traced_ext (s_pred s)); [exact T|]. intros x Hx. cbn. unfold upd.
                    destruct (Nat.eqb_spec x t) as [->|_]; [contradiction|reflexivity].
                  * apply NoDup_app'; [exact N|repeat constructor; intros []|].
                    intros x Hx [<-|[]]. contradiction.
                  * intros x Hx. apply in_app_iff in Hx as [Hx|[<-|[]]]; [|left; reflexivity].
                    right. destruct (Hl x Hx) as [->|H]; [left; reflexivity|exact H].
                + rewrite Eo in Edv by exact Hvt. destruct (I2 v dv Edv) as (l & P & T & N & Hl).
                  exists l. split; [exact P|]. split; [|split; auto].
                  apply (traced_ext (s_pred s)); [exact T|]. intros x Hx. cbn. unfold upd.
                  destruct (Nat.eqb_spec x t) as [->|_]; [|reflexivity].
                  destruct (Hl t Hx) as [H|H]; [congruence|contradiction].
              - intros k' v Hq. cbn in Hq. apply in_app_iff in Hq as [Hq|[Hq|[]]].
                + destruct (I3 k' v Hq) as (dv & Edv & L). destruct (Nat.eq_dec v t) as [->|Hvt].
                  * exists (add d w). split; [exact Et|]. eapply trans; [|exact L]. apply prio_mono, Eold. exact Edv.
                  * exists dv. rewrite Eo by exact Hvt. auto.
                + injection Hq as <- <-. exists (add d w). split; [exact Et|apply refl].
              - intros v dv Edv. cbn [s_queue]. destruct (Nat.eq_dec v t) as [->|Hvt].
                + rewrite Et in Edv. injection Edv as <-. right. apply in_app_iff; right; left; reflexivity.
                + rewrite Eo in Edv by exact Hvt. destruct (I4 v dv Edv) as [H|H]; [left; exact H|].
                  right. apply in_app_iff; auto.
              - intros v Hv. rewrite E by exact Hv. auto.
              - intros x dx t' w' Hx Hw Hr Ed. rewrite E in Ed by exact Hx.
                destruct (HR _ _ Hr) as [Hr'|[-> H]].
                + destruct (I6 x dx t' w' Hx Hw Hr' Ed) as [H|(dt & Edt & L)]; [left; apply Pr; auto|right].
                  destruct (Nat.eq_dec t' t) as [->|Hvt].
                  * exists (add d w). split; [exact Et|]. eapply trans; [apply Eold; exact Edt|exact L].
                  * exists dt. rewrite Eo by exact Hvt. auto.
                + injection H as -> ->. assert (dx = d) by congruence. subst dx. right. exists (add d w).
                  split; [exact Et|apply refl].
              - exact (Bl s' E eq_refl Nf).
              - intros v dv Edv. destruct (Nat.eq_dec v t) as [->|Hvt].
                + rewrite Et in Edv. injection Edv as <-. right; exact Ex.
                + rewrite Eo in Edv by exact Hvt. auto. }
          * rewrite E by exact HuF. exact Nu.
          * intros x dx Hx Ed. rewrite E in Ed by exact Hx. auto.
          * intros k' v Hq. apply in_app_iff in Hq as [Hq|[Hq|[]]]; [exact (Nh k' v Hq)|]. injection Hq as <- <-.
            rewrite Hk. apply prio_edge. exact He.
        + (* not shorter *)
          destruct (s_dist s t) as [dt|] eqn:Edt; [|discriminate].
          assert (L : le dt (add d w)) by (destruct (leb dt (add d w)); [reflexivity|discriminate]).
          constructor; cbn; auto. destruct I as [I1 I2 I3 I4 I5 I6 I7 I8]. constructor; cbn; auto.
          * intros x dx t' w' Hx Hw Hr Ed. destruct (HR _ _ Hr) as [Hr'|[-> H]].
            -- destruct (I6 x dx t' w' Hx Hw Hr' Ed) as [H|H]; [left; apply Pr; auto|right; exact H].
            -- injection H as -> ->. assert (dx = d) by congruence. subst dx. right. exists dt. auto.
          * exact (Bl (mkS (s_pred s) (s_dist s) black (s_fin s) (s_queue s)) (fun x _ => eq_refl) eq_refl Nf).
    Qed.

    Lemma inner_fold : forall es done s, Inner done s -> incl es (adj u) ->
      Inner (done ++ es) (fold_left (relax k u) es s).
    Proof.
      induction es as [|e es IH]; intros done s H Hi; cbn; [rewrite app_nil_r; exact H|].
      replace (done ++ e :: es) with ((done ++ [e]) ++ es) by (rewrite <- app_assoc; reflexivity).
      apply IH; [apply inner_step; [exact H|apply Hi; left; reflexivity]|]. intros x Hx. apply Hi. right; exact Hx.
    Qed.

    Lemma relax_queue_length s e : length (s_queue (relax k u s e)) <= S (length (s_queue s)).
    Proof.
      destruct e as [t w]. unfold Search.relax. destruct (mem t _); [cbn; lia|].
      destruct (match s_dist s t with None => _ | Some _ => _ end); cbn; [rewrite app_length; cbn|]; lia.
    Qed.
    Lemma fold_queue_length es : forall s, length (s_queue (fold_left (relax k u) es s)) <= length es + length (s_queue s).
    Proof.
      induction es as [|e es IH]; intros s; cbn; [lia|]. specialize (IH (relax k u s e)).
      pose proof (relax_queue_length s e). lia.
    Qed.
  End Inner.

  (** *** the main loop *)
  Definition Rall (x : nat) (e : nat * W) : Prop := True.
  Record Outer (s : sstate) : Prop := {
    o_inv : Inv (s_fin s) Rall s;
    o_first : s_fin s = [] /\ s_queue s = [(prio zero s0, s0)] \/ In s0 (s_fin s);
    o_order : forall t dt k v, In t (s_fin s) -> s_dist s t = Some dt -> In (k, v) (s_queue s) -> le (prio dt t) k
  }.

  Lemma outer_init : Outer (mkS (upd (fun _ => None) s0 s0) (upd (fun _ => None) s0 zero) [] [] [(prio zero s0, s0)]).
  Proof.
    assert (Hd : forall v d, upd (fun _ => None) s0 zero v = Some d -> v = s0 /\ d = zero).
    { intros v d. unfold upd. destruct (Nat.eqb_spec v s0); [intros [= <-]; auto|discriminate]. }
    constructor; cbn; [|left; auto|intros ? ? ? ? []]. constructor; cbn.
    - unfold upd. rewrite Nat.eqb_refl. auto.
    - intros v d E. apply Hd in E as [-> ->]. exists [s0]. split; [constructor|]. split; [|split].
      + constructor. unfold upd. rewrite Nat.eqb_refl. reflexivity.
      + repeat constructor. intros [].
      + intros x [<-|[]]; auto.
    - intros k v [H|[]]. injection H as <- <-. exists zero. unfold upd. rewrite Nat.eqb_refl. split; [reflexivity|apply refl].
    - intros v d E. apply Hd in E as [-> ->]. right; left; reflexivity.
    - intros ? [].
    - intros ? ? ? ? [].
    - intros x; split; [intros []|]. intros [[]|(u & w & d & [] & _)].
    - intros v d E. apply Hd in E as [-> _]. left; reflexivity.
  Qed.

  (** popping an entry of an already finished vertex changes nothing but the list of finish calls *)
  Definition same (s s' : sstate) : Prop :=
    s_pred s' = s_pred s /\ s_dist s' = s_dist s /\ s_fin s' = s_fin s /\ s_queue s' = s_queue s /\
    (forall x, In x (s_black s') <-> In x (s_black s)).

  Lemma stale_relax s0' s k v d e : same s0' s ->
    (forall u d t w, In u (s_fin s0') -> In (t, w) (adj u) -> s_dist s0' u = Some d ->
       pruned (s_fin s0') Rall s0' t \/ exists dt, s_dist s0' t = Some dt /\ le dt (add d w)) ->
    (forall x, In x (s_black s0') <-> In x (s_fin s0') \/ pruned (s_fin s0') Rall s0' x) ->
    In v (s_fin s0') -> s_dist s0' v = Some d -> le (prio d v) k -> In e (adj v) ->
    same s0' (relax k v s e).
  Proof.
    intros (E1 & E2 & E3 & E4 & E5) Hrel Hbl Hv Ed Lk He. destruct e as [t w]. unfold Search.relax.
    assert (Eg : dget zero s v = d) by (unfold dget; rewrite E2, Ed; reflexivity). rewrite Eg.
    set (black := if exceeds (add d w) then t :: s_black s else s_black s).
    assert (Hb : forall x, In x black <-> In x (s_black s0')).
    { intros x. subst black. destruct (exceeds (add d w)) eqn:Ex; [|apply E5]. cbn. rewrite E5.
      split; [|tauto]. intros [<-|H]; [|exact H]. apply Hbl. right. exists v, w, d. repeat split; auto. }
    destruct (mem t black) eqn:Em; [repeat split; auto; apply Hb|].
    apply mem_nIn in Em. rewrite Hb, Hbl in Em.
    destruct (Hrel v d t w Hv He Ed) as [P|(dt & Edt & L)]; [tauto|].
    rewrite E2, Edt.
    assert (L' : le dt (add (cur k d) w)).
    { eapply trans; [exact L|]. apply add_mono. apply (cur_later k d v Lk). }
    rewrite L'. cbn. repeat split; auto; apply Hb.
  Qed.

  Lemma stale_fold s0' k v d es : 
    (forall u d t w, In u (s_fin s0') -> In (t, w) (adj u) -> s_dist s0' u = Some d ->
       pruned (s_fin s0') Rall s0' t \/ exists dt, s_dist s0' t = Some dt /\ le dt (add d w)) ->
    (forall x, In x (s_black s0') <-> In x (s_fin s0') \/ pruned (s_fin s0') Rall s0' x) ->
    In v (s_fin s0') -> s_dist s0' v = Some d -> le (prio d v) k -> incl es (adj v) ->
    forall s, same s0' s -> same s0' (fold_left (relax k v) es s).
  Proof.
    intros Hrel Hbl Hv Ed Lk. induction es as [|e es IH]; intros Hi s Hs; [exact Hs|]. cbn.
    apply IH; [intros x Hx; apply Hi; right; exact Hx|].
    eapply stale_relax; eauto. apply Hi. left; reflexivity.
  Qed.

  (** invariants only look at membership in the list of finished vertices *)
  Lemma pruned_ext F F' R R' s s' t : (forall x, In x F <-> In x F') -> (forall x e, In x F -> In e (adj x) -> (R x e <-> R' x e)) ->
    s_dist s' = s_dist s -> pruned F R s t <-> pruned F' R' s' t.
  Proof.
    intros HF HR E. unfold pruned. rewrite E.
    split; intros (u & w & d & H1 & H2 & H3 & H4); exists u, w, d.
    - split; [apply HF; exact H1|]. split; [exact H2|]. split; [apply HR; auto|exact H4].
    - split; [apply HF; exact H1|]. split; [exact H2|]. split; [|exact H4]. apply HR; auto. apply HF; exact H1.
  Qed.

  Lemma Inv_ext F F' R R' s s' : (forall x, In x F <-> In x F') -> (forall x e, In x F -> In e (adj x) -> (R x e <-> R' x e)) ->
    s_pred s' = s_pred s -> s_dist s' = s_dist s ->
    (forall x, In x (s_queue s') -> In x (s_queue s)) ->
    (forall k v, In (k, v) (s_queue s) -> In (k, v) (s_queue s') \/ In v F') ->
    (forall x, In x (s_black s') <-> In x (s_fin s') \/ pruned F' R' s' x) ->
    Inv F R s -> Inv F' R' s'.
  Proof.
    intros HF HR Ep Ed Hq Hq' Hb [I1 I2 I3 I4 I5 I6 I7 I8].
    constructor; rewrite ?Ep, ?Ed; auto.
    - intros v d E. destruct (I2 v d E) as (l & P & T & N & Hl). exists l. repeat split; auto.
      intros x Hx. destruct (Hl x Hx); [auto|right; apply HF; assumption].
    - intros v d E. destruct (I4 v d E) as [H|H]; [left; apply HF; exact H|]. destruct (Hq' _ _ H); auto.
    - intros v Hv. apply I5, HF. exact Hv.
    - intros u d t w Hu Hw Hr E. assert (Hu' : In u F) by (apply HF; exact Hu).
      destruct (I6 u d t w Hu' Hw (proj2 (HR u (t, w) Hu' Hw) Hr) E) as [H|H]; [left|right; exact H].
      apply (pruned_ext F F' R R' s s'); auto.
  Qed.

  (** edges not yet looked at *)
  Definition todo (fin : list nat) : nat := edge_count adj (filter (fun v => negb (mem v fin)) vs).

  Lemma todo_step fin u : In u vs -> ~ In u fin -> todo fin = length (adj u) + todo (fin ++ [u]).
  Proof.
    intros Hu Hn. unfold todo. clear vs_all vs_s0. induction vs as [|x l IH]; [destruct Hu|].
    apply NoDup_cons_iff in vs_nd as [Nx Nl]. cbn.
    assert (M : mem x (fin ++ [u]) = mem x fin || (x =? u)).
    { unfold mem. rewrite existsb_app. cbn. rewrite orb_false_r. reflexivity. }
    rewrite M. destruct (Nat.eqb_spec x u) as [->|Hx].
    - rewrite orb_true_r. cbn. rewrite (proj2 (mem_nIn u fin) Hn). cbn. f_equal. f_equal.
      apply filter_ext_in'. intros y Hy. f_equal. unfold mem. rewrite existsb_app. cbn. rewrite orb_false_r.
      destruct (Nat.eqb_spec y u) as [->|_]; [contradiction|]. rewrite orb_false_r. reflexivity.
    - rewrite orb_false_r. destruct Hu as [H|Hu]; [congruence|]. specialize (IH Nl Hu).
      unfold edge_count in IH |- *. destruct (mem x fin); cbn; lia.
  Qed.

  Lemma todo_stale fin u : In u fin -> todo (fin ++ [u]) = todo fin.
  Proof.
    intros Hu. unfold todo. f_equal. apply filter_ext_in'. intros y _. f_equal.
    destruct (mem y fin) eqn:E.
    - apply mem_In. apply in_app_iff; left. apply mem_In; exact E.
    - apply mem_nIn. apply mem_nIn in E. intros H. apply in_app_iff in H as [H|[<-|[]]]; contradiction.
  Qed.

  Lemma outer_step s n k u q : Outer s -> s_queue s <> [] -> pick n (s_queue s) = Some ((k, u), q) ->
    Permutation (s_queue s) ((k, u) :: q) -> (forall x, In x q -> le k (fst x)) ->
    let s1 := fold_left (relax k u) (adj u) (mkS (s_pred s) (s_dist s) (s_black s) (s_fin s) q) in
    let s' := mkS (s_pred s1) (s_dist s1) (u :: s_black s1) (s_fin s1 ++ [u]) (s_queue s1) in
    Outer s' /\ length (s_queue s') + todo (s_fin s') < length (s_queue s) + todo (s_fin s) /\ s_fin s' = s_fin s ++ [u].
  Proof.
    intros [I O1 O2] Hne Hp Hperm Hmin.
    assert (Hin : In (k, u) (s_queue s)) by (apply (Permutation_in _ (Permutation_sym Hperm)); left; reflexivity).
    assert (Hqs : forall x, In x q -> In x (s_queue s)) by (intros x Hx; apply (Permutation_in _ (Permutation_sym Hperm)); right; exact Hx).
    destruct (i_qs _ _ _ I k u Hin) as (d & Ed & Lk).
    set (sq := mkS (s_pred s) (s_dist s) (s_black s) (s_fin s) q).
    assert (Hlen : length (s_queue s) = S (length q)) by (rewrite (Permutation_length Hperm); reflexivity).
    destruct (in_dec Nat.eq_dec u (s_fin s)) as [Hu|Hu].
    - (* stale *)
      assert (Sm : same sq (fold_left (relax k u) (adj u) sq)).
      { destruct I as [I1 I2 I3 I4 I5 I6 I7 I8]. apply (stale_fold sq k u d (adj u)); auto.
        - intros x dx t w Hx Hw E. destruct (I6 x dx t w Hx Hw Logic.I E) as [H|H]; [left|right; exact H].
          exact H.
        - intros x Hx; exact Hx.
        - repeat split; auto. }
      destruct Sm as (E1 & E2 & E3 & E4 & E5). cbn in E1, E2, E3, E4, E5.
      intros s1 s'. subst s1. fold sq in s'. split; [|split].
      + constructor.
        * apply (Inv_ext (s_fin s) (s_fin s') Rall Rall s s'); cbn.
          -- intros x. rewrite E3, in_app_iff. cbn. split; [auto|]. intros [H|[<-|[]]]; auto.
          -- intros; tauto.
          -- exact E1.
          -- exact E2.
          -- rewrite E4. exact Hqs.
          -- intros k' v H. rewrite E4, E3. apply (Permutation_in _ Hperm) in H as [H|H]; [|left; exact H].
             injection H as <- <-. right. apply in_app_iff; left; exact Hu.
          -- intros x. rewrite E5, E3, (i_black _ _ _ I x), in_app_iff.
             assert (P : pruned (s_fin s) Rall s x <-> pruned (s_fin s ++ [u]) Rall s' x).
             { apply pruned_ext; [|intros; tauto|exact E2]. intros y. rewrite in_app_iff. cbn. split; [auto|].
               intros [H|[<-|[]]]; auto. }
             cbn. rewrite P. cbn. split; [intros [<-|[H|H]]; auto|]. intros [[H|[<-|[]]]|H]; auto.
          -- exact I.
        * cbn. rewrite E3. right. apply in_app_iff; left.
          destruct O1 as [[O1 _]|O1]; [rewrite O1 in Hu; destruct Hu|exact O1].
        * cbn. rewrite E2, E3, E4. intros t dt k' v Ht Et Hq. apply (O2 t dt k' v); auto.
          apply in_app_iff in Ht as [Ht|[<-|[]]]; auto.
      + cbn. rewrite E3, E4, todo_stale by exact Hu. lia.
      + cbn. rewrite E3. reflexivity.
    - (* first time *)
      assert (Hk : k = prio d u).
      { apply antisym; [|exact Lk]. destruct (i_qc _ _ _ I u d Ed) as [H|H]; [contradiction|].
        apply (Permutation_in _ Hperm) in H as [H|H]; [injection H as ->; apply refl|].
        exact (Hmin _ H). }
      assert (Ns : In s0 (u :: s_fin s)).
      { destruct O1 as [[_ O1]|O1]; [|right; exact O1]. rewrite O1 in Hin. destruct Hin as [H|[]].
        injection H as _ ->. left; reflexivity. }
      assert (HR : forall x e, In x (s_fin s) -> In e (adj x) -> Rall x e <-> Rin u [] x e).
      { intros x e Hx _. split; [|split]. intros _. right. intros ->. contradiction. }
      assert (Hnp : forall x, pruned (u :: s_fin s) (Rin u []) sq x <-> pruned (s_fin s) Rall s x).
      { intros x. split.
        - intros (y & w & dy & Hy & Hw & Hr & E & Hex). exists y, w, dy. cbn in E. repeat split; auto.
          destruct Hy as [<-|Hy]; [|exact Hy]. destruct Hr as [[_ []]|Hr]. contradiction.
        - intros (y & w & dy & Hy & Hw & _ & E & Hex). exists y, w, dy. repeat split; auto; [right; exact Hy|].
          right. intros ->. contradiction. }
      assert (In0 : Inner k d u (s_fin s) [] sq).
      { constructor; cbn; auto.
        - destruct I as [I1 I2 I3 I4 I5 I6 I7 I8]. constructor; cbn [s_dist s_pred s_queue s_fin s_black sq]; auto.
          + intros v dv E. destruct (I2 v dv E) as (l & P & T & N & Hl). exists l. repeat split; auto.
            intros x Hx. destruct (Hl x Hx); [auto|right; right; assumption].
          + intros v dv E. destruct (I4 v dv E) as [H|H]; [left; right; exact H|].
            apply (Permutation_in _ Hperm) in H as [H|H]; [|right; exact H]. injection H as _ <-. left; left; reflexivity.
          + intros v [<-|Hv]; eauto.
          + intros x dx t w Hx Hw Hr E. destruct Hx as [<-|Hx]; [destruct Hr as [[_ []]|Hr]; contradiction|].
            destruct (I6 x dx t w Hx Hw Logic.I E) as [H|H]; [left; apply Hnp; exact H|right; exact H].
          + intros x. rewrite Hnp. apply I7.
        - intros t dt [<-|Ht] Et.
          + assert (dt = d) by congruence. subst. apply refl.
          + apply (O2 t dt k u); auto.
        - intros k' v Hq. exact (Hmin _ Hq). }
      pose proof (inner_fold k d u (s_fin s) Hk (adj u) [] sq In0 (fun x Hx => Hx)) as [J Jf Ju Jn Js Jl Jh].
      cbn [app] in J. intros s1 s'. fold sq in s1. fold s1 in J, Jf, Ju, Jl, Jh.
      assert (HF : forall x, In x (u :: s_fin s) <-> In x (s_fin s ++ [u])).
      { intros x. rewrite in_app_iff. cbn. tauto. }
      assert (HR' : forall x e, In x (u :: s_fin s) -> In e (adj x) -> Rin u (adj u) x e <-> Rall x e).
      { intros x e _ He. split; [split|]. intros _. destruct (Nat.eq_dec x u) as [->|Hx]; [left|right]; auto. }
      split; [|split].
      + constructor.
        * apply (Inv_ext (u :: s_fin s) (s_fin s') (Rin u (adj u)) Rall s1 s'); cbn.
          -- rewrite Jf. exact HF.
          -- exact HR'.
          -- reflexivity.
          -- reflexivity.
          -- auto.
          -- auto.
          -- intros x. rewrite (i_black _ _ _ J x), Jf, in_app_iff.
             rewrite <- (pruned_ext (u :: s_fin s) (s_fin s ++ [u]) (Rin u (adj u)) Rall s1 s' x HF HR' eq_refl). cbn. tauto.
          -- exact J.
        * cbn. right. rewrite Jf. apply HF. exact Ns.
        * cbn. rewrite Jf. intros t dt k' v Ht Et Hq. eapply trans; [apply Jl; [apply HF; exact Ht|exact Et]|].
          exact (Jh k' v Hq).
      + cbn. rewrite Jf. pose proof (fold_queue_length k u (adj u) sq) as L. fold s1 in L. cbn in L.
        rewrite (todo_step (s_fin s) u); [lia| |exact Hu].
        destruct (i_tree _ _ _ I u d Ed) as (l & P & _). apply (path_vs l u d P). eapply path_last; eauto.
      + cbn. rewrite Jf. reflexivity.
  Qed.

  Lemma search_loop_ok : forall fuel n s, Outer s -> length (s_queue s) + todo (s_fin s) <= fuel ->
    exists s', search_loop add leb zero adj pick cur prio exceeds stop fuel n s = Ok s' /\ Outer s' /\
               (s_queue s' = [] \/ stop (s_fin s') = true).
  Proof.
    induction fuel as [|f IH]; intros n s O Hf.
    - assert (E : s_queue s = []) by (apply length_zero_iff_nil; lia). exists s. unfold search_loop. rewrite E. auto.
    - destruct (s_queue s) as [|e0 q0] eqn:Eq; [exists s; cbn; rewrite Eq; auto|].
      destruct (stop (s_fin s)) eqn:Es; [exists s; cbn; rewrite Eq, Es; auto|].
      assert (Hne : s_queue s <> []) by congruence.
      destruct (Heap n (s_queue s) Hne) as ([k u] & q & Ep & Hperm & Hmin).
      destruct (outer_step s n k u q O Hne Ep Hperm Hmin) as (O' & Hm & _).
      cbn [search_loop]. rewrite Eq, Es, <- Eq, Ep. apply IH; [exact O'|]. rewrite <- Eq in Hf. lia.
  Qed.

  Lemma search_ok fuel : S (edge_count adj vs) <= fuel ->
    exists s, search add leb zero adj pick cur prio exceeds stop fuel s0 = Ok s /\ Outer s /\
              (s_queue s = [] \/ stop (s_fin s) = true).
  Proof.
    intros Hf. unfold search. apply search_loop_ok; [apply outer_init|]. cbn.
    unfold todo. rewrite (filter_true (fun v => negb (mem v []))); [lia|reflexivity].
  Qed.

  (** *** consequences *)
  Definition clean (s : sstate) (l : list nat) : Prop := forall x, In x (tl l) -> ~ pruned (s_fin s) Rall s x.

  Lemma path_nonempty l v d : path l v d -> l <> [].
  Proof. intros H E. destruct H; [discriminate|]. destruct l; discriminate. Qed.

  (** along any clean path, either its end is finished with a small enough distance, or some queued vertex
      has one *)
  Lemma frontier s l v d : Outer s -> path l v d -> clean s l -> s_fin s <> [] ->
    exists y dy d', le (prio dy y) (prio d v) /\ s_dist s y = Some d' /\ le d' dy /\
        ((In y (s_fin s) /\ y = v /\ dy = d) \/ (~ In y (s_fin s) /\ In (prio d' y, y) (s_queue s))).
  Proof.
    intros [I O1 O2] P Hc Hne. induction P as [|l u d v w P IH Hw].
    - exists s0, zero, zero. split; [apply refl|].
      split; [apply (i_start _ _ _ I)|]. split; [apply refl|]. left.
      destruct O1 as [[O1 _]|O1]; [contradiction|]. auto.
    - destruct IH as (y & dy & d' & Lp & Ey & Ly & H).
      { intros x Hx. apply Hc. destruct l as [|a l]; [destruct Hx|]. cbn in Hx |- *. apply in_app_iff; auto. }
      destruct H as [(Hy & -> & ->)|H].
      + assert (Hv : ~ pruned (s_fin s) Rall s v).
        { apply Hc. pose proof (path_nonempty _ _ _ P) as Hl. destruct l as [|a l]; [contradiction|]. cbn.
          apply in_app_iff; right; left; reflexivity. }
        destruct (i_rel _ _ _ I u d' v w Hy Hw Logic.I Ey) as [K|(dv & Ev & Lv)]; [contradiction|].
        exists v, (add d w), dv. split; [apply refl|].
        split; [exact Ev|]. split; [eapply trans; [exact Lv|apply add_mono; exact Ly]|].
        destruct (in_dec Nat.eq_dec v (s_fin s)) as [Hf|Hf]; [left; auto|right].
        split; [exact Hf|]. destruct (i_qc _ _ _ I v dv Ev); [contradiction|assumption].
      + exists y, dy, d'. split; [|auto]. eapply trans; [exact Lp|apply prio_edge; exact Hw].
  Qed.

  Lemma finished_optimal s l v d dv : Outer s -> In v (s_fin s) -> s_dist s v = Some dv -> path l v d -> clean s l ->
    le dv d.
  Proof.
    intros O Hv Ev P Hc. assert (Hne : s_fin s <> []) by (intros E; rewrite E in Hv; destruct Hv).
    destruct (frontier s l v d O P Hc Hne) as (y & dy & d' & Lp & Ey & Ly & [(Hy & -> & ->)|(Hy & Hq)]).
    - assert (dv = d') by congruence. subst. exact Ly.
    - apply (prio_cancel _ _ v). eapply trans; [|exact Lp]. eapply trans; [|apply prio_mono; exact Ly].
      eapply (o_order _ O); eauto.
  Qed.

  Lemma drained_complete s l v d : Outer s -> s_queue s = [] -> path l v d -> clean s l -> In v (s_fin s).
  Proof.
    intros O E P Hc.
    assert (Hne : s_fin s <> []).
    { intros K. destruct (o_first _ O) as [[_ H]|H]; [congruence|]. rewrite K in H. destruct H. }
    destruct (frontier s l v d O P Hc Hne) as (y & dy & d' & Lp & Ey & Ly & [(Hy & -> & ->)|(Hy & Hq)]); [exact Hy|].
    rewrite E in Hq. destruct Hq.
  Qed.

  Lemma recorded_path s v d : Outer s -> s_dist s v = Some d ->
    exists l, path l v d /\ (forall n, length vs <= n -> trace_back (s_pred s) n v [] = Ok l) /\
              (v = s0 \/ exceeds d = false) /\ NoDup l.
  Proof.
    intros O E. destruct (i_tree _ _ _ (o_inv _ O) v d E) as (l & P & T & N & _). exists l.
    split; [exact P|]. split; [|split; [apply (i_bound _ _ _ (o_inv _ O) v d E)|exact N]].
    intros n Hn. rewrite (traced_trace_back _ _ _ [] T); [rewrite app_nil_r; reflexivity|].
    pose proof (NoDup_incl_length N (path_vs l v d P)). lia.
  Qed.

  Lemma not_pruned s x : (forall w, exceeds w = false) -> ~ pruned (s_fin s) Rall s x.
  Proof. intros H (u & w & d & _ & _ & _ & _ & E). rewrite H in E. discriminate. Qed.
End Proofs.
