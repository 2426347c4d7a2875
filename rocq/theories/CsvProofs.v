(** Proofs about the CSV track importer. *)
From Verif Require Import Base ListAux Csv.

(** *** Specification vocabulary *)
Section Spec.
  Context {Id P : Type}.
  Variable ideq : Id -> Id -> bool.
  Variable num : nat -> Id.
  Variable cfg : settings Id.
  Notation row := (row Id P).
  Notation rid := (row_id num cfg).

  (** the rows of id [i] that hold a point, in row order, each with its time or its number *)
  Definition points_of (i : Id) (rows : list row) : list (option nat * P) :=
    flat_map (fun r => match r_geom r with Point p => if ideq (rid r) i then [(r_time r, p)] else [] | _ => [] end) rows.
  Fixpoint stamp (k : nat) (l : list (option nat * P)) : list (nat * P) :=
    match l with
    | [] => []
    | (t, p) :: r => (match t with Some t => t | None => k end, p) :: stamp (S k) r
    end.

  (** the ids of the point rows, each once *)
  Definition point_ids (rows : list row) : list Id :=
    flat_map (fun r => match r_geom r with Point _ => [rid r] | _ => [] end) rows.
  Fixpoint uniq (l : list Id) : list Id :=
    match l with
    | [] => []
    | i :: r => i :: filter (fun j => negb (ideq i j)) (uniq r)
    end.

  (** tracks given as lines *)
  Definition line_tracks (rows : list row) : list (Id * list (list P)) :=
    flat_map (fun r => match r_geom r with
                       | Lines ls => if selected ideq cfg (line_id num cfg r) then [(line_id num cfg r, ls)] else []
                       | _ => []
                       end) rows.
  (** one track per selected id *)
  Variable sort : list (nat * P) -> list (nat * P).
  Definition point_tracks (rows : list row) : list (Id * list (list P)) :=
    map (fun i => (i, [map snd (sort (stamp 0 (points_of i rows)))])) (filter (selected ideq cfg) (uniq (point_ids rows))).

  (** the contract of [std::sort] by time *)
  Definition by_time (l : list (nat * P)) : Prop :=
    forall i j x y, i < j -> nth_error l i = Some x -> nth_error l j = Some y -> fst x <= fst y.
  Definition sorts : Prop := forall l, Permutation l (sort l) /\ by_time (sort l).

  (** equal ids are contiguous: the id of a row is that of the row before it, or was not seen yet *)
  Fixpoint contiguous (seen : list Id) (prev : option Id) (rows : list row) : Prop :=
    match rows with
    | [] => True
    | r :: t => (prev = Some (rid r) \/ ~ In (rid r) seen) /\ contiguous (rid r :: seen) (Some (rid r)) t
    end.
End Spec.

Section Proofs.
  Context {Id P : Type}.
  Variable ideq : Id -> Id -> bool.
  Hypothesis ideq_spec : forall a b, reflect (a = b) (ideq a b).
  Variable num : nat -> Id.
  Variable cfg : settings Id.
  Variable sort : list (nat * P) -> list (nat * P).
  Variable order : list (Id * list (nat * P)) -> list (Id * list (nat * P)).
  Hypothesis order_ok : forall l, Permutation l (order l).
  Notation row := (row Id P).
  Notation rid := (row_id num cfg).
  Notation sel := (selected ideq cfg).
  Notation ptsof := (points_of ideq num cfg).
  Notation uniq := (uniq ideq).
  Notation pids := (point_ids num cfg).

  Lemma ideq_refl a : ideq a a = true.
  Proof. destruct (ideq_spec a a); congruence. Qed.

  Lemma uniq_In l i : In i (uniq l) <-> In i l.
  Proof.
    induction l as [|j l IH]; cbn; [tauto|]. rewrite filter_In, IH.
    destruct (ideq_spec j i); cbn; split; intros H; intuition (try congruence).
  Qed.
  Lemma uniq_NoDup l : NoDup (uniq l).
  Proof.
    induction l as [|j l IH]; cbn; [constructor|]. constructor.
    - rewrite filter_In. intros [_ H]. rewrite ideq_refl in H. discriminate.
    - apply NoDup_filter; exact IH.
  Qed.
  Lemma uniq_snoc l i : uniq (l ++ [i]) = if existsb (fun j => ideq j i) l then uniq l else uniq l ++ [i].
  Proof.
    induction l as [|j l IH]; cbn; [reflexivity|]. rewrite IH. destruct (existsb (fun j => ideq j i) l).
    - rewrite orb_true_r. reflexivity.
    - rewrite orb_false_r, filter_app; cbn. destruct (ideq j i); cbn; rewrite ?app_nil_r; reflexivity.
  Qed.
  Lemma uniq_app l m : (forall i, In i l -> ~ In i m) -> uniq (l ++ m) = uniq l ++ uniq m.
  Proof.
    induction l as [|j l IH]; cbn; intros H; [reflexivity|]. rewrite IH by (intros; apply H; auto).
    rewrite filter_app. do 2 f_equal. apply filter_true. intros x Hx. apply (proj1 (uniq_In _ _)) in Hx.
    destruct (ideq_spec j x); [|reflexivity]. subst. exfalso. eapply (H x); auto.
  Qed.

  Lemma stamp_snoc k (l : list (option nat * P)) t p : stamp k (l ++ [(t, p)]) = stamp k l ++ [((match t with Some t => t | None => k + length l end), p)].
  Proof.
    revert k. induction l as [|[t' p'] l IH]; intros k; cbn.
    - rewrite Nat.add_0_r. reflexivity.
    - rewrite IH. cbn. rewrite Nat.add_succ_r. reflexivity.
  Qed.
  Lemma stamp_length k (l : list (option nat * P)) : length (stamp k l) = length l.
  Proof. revert k; induction l as [|[t p] l IH]; intros k; cbn; [reflexivity|]. rewrite IH; reflexivity. Qed.

  (** the collected measurements after the rows [pre] *)
  Definition collected (pre : list row) : list (Id * list (nat * P)) :=
    map (fun i => (i, stamp 0 (ptsof i pre))) (uniq (pids pre)).

  Lemma points_app i (l m : list row) : ptsof i (l ++ m) = ptsof i l ++ ptsof i m.
  Proof. unfold points_of. apply flat_map_app. Qed.
  Lemma pids_app (l m : list row) : pids (l ++ m) = pids l ++ pids m.
  Proof. unfold point_ids. apply flat_map_app. Qed.

  Lemma points_none i (pre : list row) : ~ In i (pids pre) -> ptsof i pre = [].
  Proof.
    unfold points_of, point_ids. induction pre as [|r pre IH]; cbn; intros H; [reflexivity|]. rewrite in_app_iff in H.
    rewrite IH by auto. rewrite app_nil_r. destruct (r_geom r); auto. destruct (ideq_spec (rid r) i); [|reflexivity].
    exfalso; apply H. left; left; auto.
  Qed.

  Lemma find_collected i pre :
    find_meas ideq i (collected pre) = if existsb (fun j => ideq j i) (pids pre) then Some (stamp 0 (ptsof i pre)) else None.
  Proof.
    unfold find_meas, collected. 
    assert (E : existsb (fun j => ideq j i) (pids pre) = existsb (fun j => ideq j i) (uniq (pids pre))).
    { apply Bool.eq_iff_eq_true. rewrite !existsb_exists. split; intros (j & H & K); exists j; split; auto; apply (uniq_In (pids pre) j); auto. }
    rewrite E. clear E. induction (uniq (pids pre)) as [|j l IH]; cbn; [reflexivity|].
    destruct (ideq_spec j i) as [->|Ne]; cbn; auto.
  Qed.

  Lemma append_collected (r : row) p pre t :
    r_geom r = Point p -> r_time r = t ->
    append_meas ideq (rid r) ((match t with Some t => t | None => length (ptsof (rid r) pre) end), p) (collected pre)
    = collected (pre ++ [r]).
  Proof.
    intros G T. unfold collected. rewrite pids_app. cbn [point_ids flat_map]. rewrite G. cbn [app]. rewrite uniq_snoc.
    assert (Pi : forall i, ptsof i (pre ++ [r]) = ptsof i pre ++ if ideq (rid r) i then [(t, p)] else []).
    { intros i. rewrite points_app. cbn. rewrite G, T, app_nil_r. reflexivity. }
    pose proof (uniq_NoDup (pids pre)) as Nd.
    assert (Sub : forall i, In i (uniq (pids pre)) <-> In i (pids pre)) by (intros; apply uniq_In).
    destruct (existsb (fun j => ideq j (rid r)) (pids pre)) eqn:E.
    - assert (Hin : In (rid r) (uniq (pids pre))).
      { apply existsb_exists in E as (j & H & K). destruct (ideq_spec j (rid r)); [|discriminate]. subst. apply Sub; auto. }
      clear E Sub. induction (uniq (pids pre)) as [|j l IH]; [destruct Hin|]. cbn [map append_meas].
      inversion Nd as [|? ? Nj Nl]; subst. destruct (ideq_spec j (rid r)) as [->|Ne].
      + f_equal.
        * rewrite Pi, ideq_refl, stamp_snoc. reflexivity.
        * apply map_ext_in. intros i Hi. rewrite Pi. destruct (ideq_spec (rid r) i); [subst; contradiction|].
          rewrite app_nil_r. reflexivity.
      + destruct Hin as [?|Hin]; [congruence|]. rewrite IH by auto. f_equal. rewrite Pi.
        destruct (ideq_spec (rid r) j); [congruence|]. rewrite app_nil_r. reflexivity.
    - assert (Hout : ~ In (rid r) (pids pre)).
      { intros H. apply not_true_iff_false in E. apply E, existsb_exists. exists (rid r). rewrite ideq_refl. auto. }
      rewrite map_app. cbn [map]. rewrite Pi, ideq_refl, (points_none _ _ Hout). cbn [length app stamp].
      assert (Hout' : ~ In (rid r) (uniq (pids pre))) by (rewrite Sub; exact Hout).
      clear E Sub Hout Nd. induction (uniq (pids pre)) as [|j l IH]; cbn [map append_meas app].
      + reflexivity.
      + cbn in Hout'. destruct (ideq_spec j (rid r)) as [->|Ne]; [exfalso; auto|]. rewrite IH by auto.
        f_equal. rewrite Pi. destruct (ideq_spec (rid r) j); [congruence|]. rewrite app_nil_r. reflexivity.
  Qed.

  Lemma collected_skip (r : row) pre : (forall p, r_geom r <> Point p) -> collected (pre ++ [r]) = collected pre.
  Proof.
    intros G. unfold collected. rewrite pids_app.
    assert (E : pids [r] = []) by (cbn; destruct (r_geom r); [exfalso; eapply G; reflexivity|reflexivity|reflexivity]).
    rewrite E, app_nil_r. apply map_ext. intros i. rewrite points_app.
    assert (E2 : ptsof i [r] = []) by (cbn; destruct (r_geom r); [exfalso; eapply G; reflexivity|reflexivity|reflexivity]).
    rewrite E2, app_nil_r. reflexivity.
  Qed.

  (** one row with the measurements so far being those of [pre] *)
  Definition add_row (cur : option Id) (r : row) (pre : list row) (out : list (Id * list (list P))) :=
    mkCsv (Some (last_id num cfg r)) (collected (pre ++ [r])) (out ++ line_tracks ideq num cfg [r]).

  Lemma row_effect s r pre :
    c_meas s = collected pre ->
    (match c_current s with Some c => grouped cfg && negb (ideq (rid r) c) | None => false end) = false ->
    process_row ideq num sort order cfg s r = add_row (c_current s) r pre (c_out s).
  Proof.
    intros M N. unfold process_row.
    assert (E : match c_current s with
                | Some c => if grouped cfg && negb (ideq (rid r) c) then finish_import ideq sort order cfg s else s
                | None => s end = s) by (destruct (c_current s); [rewrite N|]; reflexivity).
    rewrite E. unfold add_row, last_id, line_tracks. cbn [flat_map]. destruct (r_geom r) as [p|ls|] eqn:G.
    - rewrite app_nil_r. f_equal. rewrite M, find_collected.
      assert (F : match r_time r with Some t => t
                  | None => match (if existsb (fun j => ideq j (rid r)) (pids pre) then Some (stamp 0 (ptsof (rid r) pre)) else None) with
                            | Some l => length l | None => 0 end end
                  = match r_time r with Some t => t | None => length (ptsof (rid r) pre) end).
      { destruct (r_time r); [reflexivity|]. destruct (existsb (fun j => ideq j (rid r)) (pids pre)) eqn:E2.
        - apply stamp_length.
        - rewrite points_none; [reflexivity|]. intros H. apply not_true_iff_false in E2. apply E2, existsb_exists.
          exists (rid r). rewrite ideq_refl. auto. }
      rewrite F. apply append_collected; [exact G|reflexivity].
    - rewrite app_nil_r. f_equal. rewrite M, collected_skip; [reflexivity|]. intros p; congruence.
    - rewrite app_nil_r. f_equal. rewrite M, collected_skip; [reflexivity|]. intros p; congruence.
  Qed.

  Lemma flush pre :
    Permutation (flat_map (fun e => if sel (fst e) then [(fst e, [map snd (sort (snd e))])] else []) (order (collected pre)))
                (point_tracks ideq num cfg sort pre).
  Proof.
    rewrite <- (Permutation_flat_map _ (order_ok (collected pre))). unfold point_tracks, collected.
    induction (uniq (pids pre)) as [|i l IH]; cbn [map flat_map filter fst snd]; [constructor|].
    destruct (sel i); cbn; [constructor|]; exact IH.
  Qed.

  Lemma ungrouped_fold rows : grouped cfg = false -> forall s pre,
    c_meas s = collected pre ->
    let s' := fold_left (process_row ideq num sort order cfg) rows s in
    c_meas s' = collected (pre ++ rows) /\ c_out s' = c_out s ++ line_tracks ideq num cfg rows.
  Proof.
    intros Hg. induction rows as [|r rows IH]; intros s pre M; cbn [fold_left].
    - rewrite !app_nil_r. auto.
    - rewrite (row_effect s r pre M) by (destruct (c_current s); [rewrite Hg|]; reflexivity).
      destruct (IH (add_row (c_current s) r pre (c_out s)) (pre ++ [r]) eq_refl) as [A B].
      cbn in A, B |- *. rewrite A, B, <- !app_assoc. auto.
  Qed.

  Lemma point_tracks_app l m :
    (forall i, In i (pids l) -> ~ In i (pids m)) ->
    point_tracks ideq num cfg sort (l ++ m) = point_tracks ideq num cfg sort l ++ point_tracks ideq num cfg sort m.
  Proof.
    intros D. unfold point_tracks. rewrite pids_app, uniq_app, filter_app, map_app by exact D. f_equal; apply map_ext_in; intros i Hi.
    - apply filter_In in Hi as [Hi _]. apply (proj1 (uniq_In _ _)) in Hi. rewrite points_app, (points_none i m), app_nil_r; auto.
    - apply filter_In in Hi as [Hi _]. apply (proj1 (uniq_In _ _)) in Hi. rewrite points_app, (points_none i l); auto.
      intros H. exact (D i H Hi).
  Qed.

  Lemma pids_in i (rows : list row) : In i (pids rows) -> exists r, In r rows /\ rid r = i.
  Proof.
    unfold point_ids. rewrite in_flat_map. intros (r & Hr & H). exists r. split; [exact Hr|].
    destruct (r_geom r); [|destruct H|destruct H]. destruct H as [H|[]]; exact H.
  Qed.

  Lemma line_tracks_app (l m : list row) : line_tracks ideq num cfg (l ++ m) = line_tracks ideq num cfg l ++ line_tracks (P:=P) ideq num cfg m.
  Proof. unfold line_tracks. apply flat_map_app. Qed.

  Lemma grouped_fold rows : grouped cfg = true ->
    forall s pre blk prev seen,
    (forall r, In r rows -> last_id num cfg r = rid r) ->
    c_meas s = collected blk -> c_current s = prev ->
    (forall r, In r blk -> Some (rid r) = prev) -> (forall r, In r pre -> In (rid r) seen /\ Some (rid r) <> prev) ->
    (forall c, prev = Some c -> In c seen) -> (prev = None -> blk = [] /\ pre = []) ->
    contiguous num cfg seen prev rows ->
    Permutation (c_out s) (line_tracks ideq num cfg (pre ++ blk) ++ point_tracks ideq num cfg sort pre) ->
    Permutation (c_out (finish_import ideq sort order cfg (fold_left (process_row ideq num sort order cfg) rows s)))
                (line_tracks ideq num cfg (pre ++ blk ++ rows) ++ point_tracks ideq num cfg sort (pre ++ blk ++ rows)).
  Proof.
    intros Hg. induction rows as [|r rows IH]; intros s pre blk prev seen HL M C HB HP HS HN HC HO; cbn [fold_left].
    - rewrite app_nil_r. unfold finish_import; cbn [c_out]. rewrite M, (flush blk), HO, <- app_assoc.
      rewrite point_tracks_app; [reflexivity|].
      intros i Hi Hj. apply pids_in in Hi as (a & Ha & <-). apply pids_in in Hj as (b & Hb & E).
      apply (HP a Ha). rewrite <- (HB b Hb), E. reflexivity.
    - destruct HC as [HC1 HC2].
      destruct (match prev with Some c => negb (ideq (rid r) c) | None => false end) eqn:New.
      + (* a new id *)
        destruct prev as [c|]; [|discriminate]. destruct (ideq_spec (rid r) c) as [|Ne]; [discriminate|].
        assert (Nin : ~ In (rid r) seen) by (destruct HC1 as [E|E]; [congruence|exact E]).
        assert (Rew : process_row ideq num sort order cfg s r
                      = add_row (Some c) r [] (c_out (finish_import ideq sort order cfg s))).
        { pose proof (row_effect (mkCsv (Some (rid r)) [] (c_out (finish_import ideq sort order cfg s))) r [] eq_refl) as RE.
          cbn [c_current] in RE. rewrite ideq_refl in RE. rewrite andb_false_r in RE. specialize (RE eq_refl).
          unfold add_row in *. cbn [c_out] in RE. rewrite <- RE. unfold process_row. rewrite C. cbn [c_current].
          destruct (ideq_spec (rid r) c); [congruence|]. rewrite Hg. cbn [negb andb]. rewrite ideq_refl. cbn [negb].
          cbn [finish_import c_meas c_out]. reflexivity. }
        rewrite Rew.
        replace (pre ++ blk ++ r :: rows) with ((pre ++ blk) ++ [r] ++ rows) by (rewrite <- app_assoc; reflexivity).
        apply (IH _ (pre ++ blk) [r] (Some (rid r)) (rid r :: seen)).
        * intros x Hx. apply HL. right; exact Hx.
        * reflexivity.
        * cbn. f_equal. apply HL. left; reflexivity.
        * intros x [<-|[]]. reflexivity.
        * intros x Hx. assert (In (rid x) seen).
          { apply in_app_iff in Hx as [Hx|Hx]; [apply HP; exact Hx|]. apply HS. symmetry. apply HB; exact Hx. }
          split; [right; assumption|]. intros [= E]. rewrite E in H. contradiction.
        * intros x [= <-]. left; reflexivity.
        * discriminate.
        * exact HC2.
        * cbn [add_row c_out]. unfold add_row; cbn [c_out]. unfold finish_import; cbn [c_out].
          rewrite M, (flush blk), HO, !line_tracks_app.
          rewrite point_tracks_app.
          2: { intros i Hi Hj. apply pids_in in Hi as (a & Ha & <-). apply pids_in in Hj as (b & Hb & E).
               apply (HP a Ha). rewrite <- (HB b Hb), E. reflexivity. }
          rewrite <- !app_assoc. do 2 apply Permutation_app_head.
          rewrite app_assoc. apply Permutation_app_comm.
      + (* same id *)
        rewrite (row_effect s r blk M).
        2: { rewrite C. destruct prev; [|reflexivity]. rewrite New. apply andb_false_r. }
        assert (Pv : pre = [] /\ prev = None /\ blk = [] \/ prev = Some (rid r)).
        { destruct prev as [c|]; [|left; destruct (HN eq_refl) as [-> ->]; auto].
          right. destruct (ideq_spec (rid r) c); [congruence|discriminate]. }
        replace (pre ++ blk ++ r :: rows) with (pre ++ (blk ++ [r]) ++ rows) by (rewrite <- app_assoc; reflexivity).
        apply (IH _ pre (blk ++ [r]) (Some (rid r)) (rid r :: seen)).
        * intros x Hx. apply HL. right; exact Hx.
        * reflexivity.
        * cbn. f_equal. apply HL. left; reflexivity.
        * intros x Hx. apply in_app_iff in Hx as [Hx|[<-|[]]]; [|reflexivity].
          destruct Pv as [(_ & _ & ->)|Pv]; [destruct Hx|]. rewrite <- Pv. apply HB; exact Hx.
        * intros x Hx. destruct Pv as [(-> & _ & _)|Pv]; [destruct Hx|]. rewrite <- Pv.
          split; [right; apply HP; exact Hx|apply HP; exact Hx].
        * intros x [= <-]. left; reflexivity.
        * discriminate.
        * exact HC2.
        * unfold add_row; cbn [c_out]. rewrite HO. rewrite app_assoc, (line_tracks_app (pre ++ blk) [r]).
          rewrite <- !app_assoc. apply Permutation_app_head. apply Permutation_app_comm.
  Qed.
End Proofs.
