(** Property C71: the importers of GPX tracks, of the Seattle ground truth and of tracks from standard input. *)
From Coq Require Import Ascii.
From Verif Require Import Base ListAux CsvProofs CsvProps AdjList AdjListSpec GraphHelper GraphHelperProofs NetFiles NetFilesProofs NetFilesProps TrackFiles.

(** *** GPX *)
Section Gpx.
  Context {C P : Type}.
  Variable texteq : list C -> list C -> bool.
  Hypothesis texteq_spec : forall a b, reflect (a = b) (texteq a b).
  Variable num : nat -> list C.
  Variable sort : list (nat * P) -> list (nat * P).
  Hypothesis sort_ok : sorts sort.
  Variable reproject : P -> P.
  Notation gpx := (@gpx C P).
  Notation trk := (@trk C P).
  Notation gpoint := (@gpoint P).
  Implicit Types cfg : @gpx_settings C.

  (** the tracks of all files that are understood, each with the name in the metadata of its file *)
  Definition somes {A} (l : list (option A)) : list A := flat_map (fun o => match o with Some a => [a] | None => [] end) l.
  Definition all_trks (files : list (option gpx)) : list (list C * trk) :=
    flat_map (fun g => map (fun t => (g_metadata g, t)) (somes (g_trks g))) (somes files).

  (** the id of the [k]-th track: a number if ids are not wanted or there is neither a name of the track nor one of the file, counting
      only the tracks that are numbered; otherwise the first of these names that is there *)
  Definition nameless (cfg : @gpx_settings C) (mt : list C * trk) : bool :=
    gs_no_id cfg || (match t_name (snd mt) with [] => true | _ => false end && match fst mt with [] => true | _ => false end).
  Definition id_is (cfg : @gpx_settings C) (ts : list (list C * trk)) (k : nat) (id : list C) : Prop :=
    exists mt, nth_error ts k = Some mt /\
      ((nameless cfg mt = true /\ id = num (length (filter (nameless cfg) (firstn k ts)))) \/
       (nameless cfg mt = false /\ t_name (snd mt) <> [] /\ id = t_name (snd mt)) \/
       (nameless cfg mt = false /\ t_name (snd mt) = [] /\ id = fst mt)).

  (** the time of the [i]-th point of a segment *)
  Definition time_is (cfg : @gpx_settings C) (i : nat) (t : option timetext) (v : nat) : Prop :=
    match t with
    | None => v = i
    | Some s => match gs_no_parse_time cfg, s_number s, s_millis s with
                | true, Some k, _ => v = k
                | true, None, _ => v = i
                | false, _, Some m => v * 1000 <= m < v * 1000 + 1000
                | false, _, None => v = 0
                end
    end.
  (** the line of a segment: its points, reprojected, by time *)
  Definition line_is (cfg : @gpx_settings C) (seg : list (option gpoint)) (line : list P) : Prop :=
    exists stamped ms, Forall2 (fun (ip : nat * gpoint) (m : nat * P) => time_is cfg (fst ip) (gp_time (snd ip)) (fst m) /\ snd m = reproject (gp_place (snd ip)))
                         (combine (seq 0 (length (somes seg))) (somes seg)) stamped /\
      Permutation stamped ms /\ by_time ms /\ line = map snd ms.

  Lemma measured cfg seg : forall ms, fold_left (measure reproject cfg) seg ms =
    ms ++ map (fun ip => (point_stamp cfg (fst ip) (gp_time (snd ip)), reproject (gp_place (snd ip)))) (combine (seq (length ms) (length (somes seg))) (somes seg)).
  Proof.
    induction seg as [|[p|] seg IH]; intros ms; cbn [fold_left somes flat_map app]; [cbn; rewrite app_nil_r; reflexivity| |apply IH].
    fold (somes seg). cbn [measure]. rewrite IH, app_length. cbn [length seq combine map fst snd]. rewrite <- app_assoc, Nat.add_1_r. reflexivity.
  Qed.
  Lemma stamp_time cfg i t : time_is cfg i t (point_stamp cfg i t).
  Proof.
    unfold time_is, point_stamp, parse_time. destruct t as [s|]; [|reflexivity]. destruct (gs_no_parse_time cfg); [destruct (s_number s); reflexivity|].
    destruct (s_millis s) as [m|]; [|reflexivity]. pose proof (Nat.div_mod m 1000 ltac:(lia)). pose proof (Nat.mod_upper_bound m 1000 ltac:(lia)). lia.
  Qed.
  Lemma segment_ok cfg seg : line_is cfg seg (segment_line sort reproject cfg seg).
  Proof.
    unfold segment_line. rewrite (measured cfg seg []). cbn [app length]. set (st := map (fun ip => (_, _)) _). exists st, (sort st).
    destruct (sort_ok st) as [A B]. split; [|auto]. unfold st. clear. induction (combine _ _) as [|x l IH]; [constructor|].
    cbn [map]. constructor; [|exact IH]. cbn [fst snd]. split; [apply stamp_time|reflexivity].
  Qed.
  Lemma lines_ok cfg (t : trk) : Forall2 (line_is cfg) (somes (t_segs t)) (track_lines sort reproject cfg t).
  Proof.
    unfold track_lines. induction (t_segs t) as [|[s|] l IH]; cbn; [constructor| |exact IH]. constructor; [apply segment_ok|exact IH].
  Qed.

  Definition wanted_id (cfg : @gpx_settings C) (id : list C) : Prop := gs_selectors cfg = [] \/ In id (gs_selectors cfg).
  Lemma chosen_wanted cfg id : chosen texteq cfg id = true <-> wanted_id cfg id.
  Proof.
    unfold chosen, wanted_id. destruct (gs_selectors cfg) as [|a s]; [tauto|]. rewrite existsb_exists. split.
    - intros (x & X & E). destruct (texteq_spec id x) as [->|]; [auto|discriminate].
    - intros [|H]; [discriminate|]. exists id. split; [exact H|]. destruct (texteq_spec id id); [reflexivity|contradiction].
  Qed.

  Let step cfg (s : nat * list (list C * list (list P))) (mt : list C * trk) := track_step texteq num sort reproject cfg (fst mt) s (Some (snd mt)).
  Lemma read_flat cfg files : gpx_read texteq num sort reproject cfg files = snd (fold_left (step cfg) (all_trks files) (0, [])).
  Proof.
    unfold gpx_read. f_equal. generalize (0, @nil (list C * list (list P))) as s. induction files as [|[g|] files IH]; intros s; cbn [fold_left]; [reflexivity| |apply IH].
    unfold all_trks, somes at 2. cbn [flat_map app]. rewrite fold_left_app. fold (@somes gpx files). fold (all_trks files). rewrite <- IH. f_equal. clear IH.
    revert s. induction (g_trks g) as [|[t|] l IH]; intros s; cbn [fold_left somes flat_map map app]; [reflexivity| |apply IH]. fold (somes l). rewrite IH. reflexivity.
  Qed.

  (** C71 (GPX): the tracks passed on are the wanted ones of all tracks of the files, in order, each with its id and, for every segment, the line of its
      points ordered by time. *)
  Theorem C71_gpx cfg files : exists outs,
    Forall2 (fun k o => id_is cfg (all_trks files) k (fst o) /\
                        exists mt, nth_error (all_trks files) k = Some mt /\ Forall2 (line_is cfg) (somes (t_segs (snd mt))) (snd o))
      (seq 0 (length (all_trks files))) outs /\
    exists keep, (forall o, keep o = true <-> wanted_id cfg (fst o)) /\ gpx_read texteq num sort reproject cfg files = filter keep outs.
  Proof.
    rewrite read_flat. set (ts := all_trks files).
    assert (G : forall todo don, don ++ todo = ts -> forall out, exists outs,
      Forall2 (fun k o => id_is cfg ts k (fst o) /\ exists mt, nth_error ts k = Some mt /\ Forall2 (line_is cfg) (somes (t_segs (snd mt))) (snd o))
        (seq (length don) (length todo)) outs /\
      snd (fold_left (step cfg) todo (length (filter (nameless cfg) don), out)) = out ++ filter (fun o => chosen texteq cfg (fst o)) outs).
    { induction todo as [|[meta t] todo IH]; intros don E out; cbn [fold_left length seq].
      - exists []. cbn. rewrite app_nil_r. split; [constructor|reflexivity].
      - assert (N : nth_error ts (length don) = Some (meta, t)) by (rewrite <- E, nth_error_app2, Nat.sub_diag by lia; reflexivity).
        assert (F : firstn (length don) ts = don) by (rewrite <- E, firstn_app, Nat.sub_diag, firstn_all; cbn; apply app_nil_r).
        unfold step at 2, track_step. cbn [fst snd]. destruct (track_id num cfg meta t (length (filter (nameless cfg) don))) as [id c] eqn:I.
        assert (H : id_is cfg ts (length don) id /\ c = length (filter (nameless cfg) (don ++ [(meta, t)]))).
        { unfold id_is. rewrite F, filter_app, app_length. cbn [filter]. unfold track_id in I. unfold nameless in *. cbn [fst snd] in *.
          destruct (gs_no_id cfg) eqn:Z; cbn [orb] in *.
          - injection I as <- <-. split; [|cbn; lia]. exists (meta, t). split; [exact N|]. left. auto.
          - destruct (t_name t) as [|a n] eqn:T; cbn [andb] in *.
            + destruct meta as [|b m]; injection I as <- <-.
              * split; [|cbn; lia]. exists ([], t). split; [exact N|]. left. cbn [snd fst]. rewrite T. auto.
              * split; [|cbn; lia]. exists (b :: m, t). split; [exact N|]. right. right. cbn [snd fst]. rewrite T. auto.
            + injection I as <- <-. split; [|cbn; lia]. exists (meta, t). split; [exact N|]. right. left. cbn [snd]. rewrite T. split; [reflexivity|]. split; [discriminate|reflexivity]. }
        destruct H as [Hid ->]. destruct (IH (don ++ [(meta, t)]) ltac:(rewrite <- app_assoc; exact E)
          (if chosen texteq cfg id then out ++ [(id, track_lines sort reproject cfg t)] else out)) as (outs & A & B).
        exists ((id, track_lines sort reproject cfg t) :: outs). split.
        + constructor; [|rewrite app_length, Nat.add_1_r in A; exact A]. cbn [fst snd]. split; [exact Hid|]. exists (meta, t). split; [exact N|]. apply lines_ok.
        + rewrite B. cbn [filter fst]. destruct (chosen texteq cfg id); [rewrite <- app_assoc; reflexivity|reflexivity]. }
    destruct (G ts [] eq_refl []) as (outs & A & B). exists outs. split; [exact A|]. exists (fun o => chosen texteq cfg (fst o)). split; [intros o; apply chosen_wanted|exact B].
  Qed.

  Lemma stamped_places (cfg : @gpx_settings C) (ips : list (nat * gpoint)) : forall stamped,
    Forall2 (fun (ip : nat * gpoint) (m : nat * P) => time_is cfg (fst ip) (gp_time (snd ip)) (fst m) /\ snd m = reproject (gp_place (snd ip))) ips stamped ->
    map snd stamped = map (fun p => reproject (gp_place p)) (map snd ips).
  Proof. induction 1 as [|ip m ips st [_ B] _ IH]; cbn; [reflexivity|]. rewrite B, IH. reflexivity. Qed.
  Lemma snd_combine {A B} (l : list A) (m : list B) : length l = length m -> map snd (combine l m) = m.
  Proof. revert m. induction l as [|a l IH]; intros [|b m] H; cbn in *; try discriminate; [reflexivity|]. f_equal. apply IH. lia. Qed.

  (** a segment without any time keeps its order *)
  Theorem C71_gpx_untimed cfg seg line : line_is cfg seg line -> (forall p, In (Some p) seg -> gp_time p = None) ->
    line = map (fun p => reproject (gp_place p)) (somes seg).
  Proof.
    intros (st & ms & F & Pm & B & ->) U.
    assert (U' : forall p, In p (somes seg) -> gp_time p = None).
    { intros p H. unfold somes in H. apply in_flat_map in H as ([q|] & H & X); [|destruct X]. destruct X as [<-|[]]. apply U; exact H. }
    assert (T : map fst st = seq 0 (length (somes seg))).
    { clear U Pm B ms. revert st F U'. generalize (somes seg) as l. clear seg. intros l. generalize 0. induction l as [|p l IH]; intros k st F U'; cbn in F.
      - inversion F; reflexivity.
      - inversion F as [|? m ? st' [A _] F' E1 E2]; subst. cbn [map length seq]. cbn in A. rewrite (U' p (or_introl eq_refl)) in A. cbn in A. rewrite A. f_equal.
        apply IH; [exact F'|]. intros q H. apply U'. right; exact H. }
    assert (L : length st = length (somes seg)) by (rewrite <- (map_length fst), T; apply seq_length).
    rewrite <- (order_unique st ms); [|rewrite T; apply seq_NoDup|exact Pm|apply (seq_by_time st 0); rewrite T, L; reflexivity|exact B].
    rewrite (stamped_places cfg _ st F), snd_combine by apply seq_length. reflexivity.
  Qed.
  (** a segment in which the times, in whole seconds, strictly increase keeps its order *)
  Theorem C71_gpx_in_order cfg seg line (secs : list nat) : line_is cfg seg line -> gs_no_parse_time cfg = false ->
    (forall i j a b, i < j -> nth_error secs i = Some a -> nth_error secs j = Some b -> a < b) ->
    Forall2 (fun p v => exists s m, gp_time p = Some s /\ s_millis s = Some m /\ v * 1000 <= m < v * 1000 + 1000) (somes seg) secs ->
    line = map (fun p => reproject (gp_place p)) (somes seg).
  Proof.
    intros (st & ms & F & Pm & B & ->) Np Inc Fs.
    assert (T : map fst st = secs).
    { clear Pm B ms Inc. revert secs Fs. revert st F.
      assert (G : forall l k st, Forall2 (fun (ip : nat * gpoint) (m : nat * P) => time_is cfg (fst ip) (gp_time (snd ip)) (fst m) /\ snd m = reproject (gp_place (snd ip)))
          (combine (seq k (length l)) l) st -> forall secs,
          Forall2 (fun p v => exists s m, gp_time p = Some s /\ s_millis s = Some m /\ v * 1000 <= m < v * 1000 + 1000) l secs -> map fst st = secs);
        [|intros st F; exact (G _ _ st F)].
      induction l as [|p l IH]; intros k st F secs Fs; cbn [length seq combine] in F.
      - inversion F. inversion Fs. reflexivity.
      - inversion F as [|? m ? st' [A _] F' E1 E2]; subst. inversion Fs as [|? v ? sc (s & ml & X & Y & Z) Fs' E1 E2]; subst. cbn [map]. f_equal; [|exact (IH _ _ F' _ Fs')].
        cbn [fst snd] in A. unfold time_is in A. rewrite X, Np, Y in A. destruct (s_number s); lia. }
    rewrite <- (order_unique st ms).
    - rewrite (stamped_places cfg _ st F), snd_combine by apply seq_length. reflexivity.
    - rewrite T. apply NoDup_nth_error. intros i j Hi E. destruct (nth_error secs i) as [a|] eqn:Ei; [|apply nth_error_None in Ei; lia].
      destruct (Nat.lt_trichotomy i j) as [X|[X|X]]; [|exact X|].
      + specialize (Inc i j a a X Ei (eq_sym E)). lia.
      + specialize (Inc j i a a X (eq_sym E) Ei). lia.
    - exact Pm.
    - intros i j x y L X Y. apply (map_nth_error fst) in X. apply (map_nth_error fst) in Y. rewrite T in X, Y. specialize (Inc i j _ _ L X Y). lia.
    - exact B.
  Qed.
End Gpx.

(** *** Seattle ground truth *)
Section GroundTruth.
  Context {P : Type}.
  Variable reproject : P -> P.
  Notation sea_row := (@sea_row P).

  (** the pairs of neighbouring points *)
  Definition segs (l : list P) : list (P * P) := combine l (tl l).
  (** the line of the edge which a row of the route travels, in the direction of travel; the first row of an id counts, one-way roads
      have no line against their direction *)
  Definition travels (rows : list sea_row) (r : nat * bool) (e : list P) : Prop :=
    exists k line two_way, first_row (map (fun x => (sr_id x, (sr_line x, sr_two_way x))) rows) (fst r) k (line, two_way) /\
      ((snd r = true /\ e = line) \/ (snd r = false /\ two_way = true /\ e = rev line)).
  (** every line starts where the one before it ends *)
  Fixpoint attached (es : list (list P)) : Prop :=
    match es with
    | e :: ((f :: _) as r) => hd_error (rev e) = hd_error f /\ attached r
    | _ => True
    end.

  Lemma find_lines (rows : list sea_row) id x : find_id (edge_lines rows) id = Some x <->
    exists k, first_row (map (fun x => (sr_id x, (sr_line x, sr_two_way x))) rows) id k x.
  Proof.
    pose proof (edge_indexes_ok (map (fun x => (sr_id x, (sr_line x, sr_two_way x))) rows) [] []) as H. cbn [app] in H.
    assert (E : forall m, fold_left (fun em r => emplace_id em (fst r) (snd r)) (map (fun x => (sr_id x, (sr_line x, sr_two_way x))) rows) m =
                fold_left (fun m r => emplace_id m (sr_id r) (sr_line r, sr_two_way r)) rows m).
    { clear. induction rows as [|r rows IH]; intros m; cbn; [reflexivity|apply IH]. }
    rewrite E in H. apply H. intros i y. split; [discriminate|]. intros (k & X & _). destruct k; discriminate.
  Qed.
  Lemma travels_row rows gt r e : travels rows r e -> route_row (edge_lines rows) gt r = append_edge gt e.
  Proof.
    intros (k & line & tw & F & D). unfold route_row. rewrite (proj2 (find_lines rows (fst r) (line, tw)) (ex_intro _ k F)).
    destruct D as [[-> ->]|(-> & -> & ->)]; reflexivity.
  Qed.
  Lemma travels_not rows gt r : ~ (exists e, travels rows r e) -> route_row (edge_lines rows) gt r = Throw gt.
  Proof.
    intros N. unfold route_row. destruct (find_id (edge_lines rows) (fst r)) as [[line tw]|] eqn:F; [|reflexivity].
    apply find_lines in F as (k & F). destruct (snd r) eqn:D; [destruct N; exists line, k, line, tw; auto|].
    destruct tw; [|reflexivity]. destruct N. exists (rev line), k, line, true. auto 6.
  Qed.
  Lemma segs_app (a b : list P) p : hd_error (rev a) = Some p -> segs (a ++ b) = segs a ++ segs (p :: b).
  Proof.
    revert p. induction a as [|x a IH]; intros p H; [discriminate|]. destruct a as [|y a]; [cbn in H; injection H as <-; reflexivity|].
    assert (H' : hd_error (rev (y :: a)) = Some p).
    { cbn [rev] in H |- *. destruct (rev a ++ [y]) as [|z l] eqn:E; [destruct (rev a); discriminate|exact H]. }
    specialize (IH p H'). change (segs ((x :: y :: a) ++ b)) with ((x, y) :: segs ((y :: a) ++ b)).
    rewrite IH. reflexivity.
  Qed.
  Lemma last_app (a b : list P) p : hd_error (rev a) = Some p -> hd_error (rev (a ++ b)) = hd_error (rev (p :: b)).
  Proof.
    intros H. rewrite rev_app_distr. cbn [rev]. destruct (rev b); [exact H|reflexivity].
  Qed.

  Lemma last_some (l : list P) : l <> [] -> exists p, hd_error (rev l) = Some p.
  Proof. intros N. destruct (rev l) as [|p r] eqn:X; [|exists p; reflexivity]. apply (f_equal (@rev P)) in X. rewrite rev_involutive in X. contradiction. Qed.

  Lemma appended es : (forall e, In e es -> e <> []) -> forall gt p, hd_error (rev gt) = Some p -> attached es ->
    (match es with e :: _ => Some p = hd_error e | [] => True end) -> exists gt', foldO append_edge es gt = Ok gt' /\
    segs gt' = segs gt ++ flat_map segs es /\ hd_error gt' = hd_error gt.
  Proof.
    induction es as [|e es IH]; intros Ne gt p L A J; cbn [foldO flat_map].
    - exists gt. rewrite app_nil_r. auto.
    - destruct e as [|q e]; [destruct (Ne [] (or_introl eq_refl)); reflexivity|]. cbn in J. injection J as <-.
      destruct gt as [|g gt]; [discriminate|]. cbn [append_edge bindO].
      assert (L2 : exists r, hd_error (rev ((g :: gt) ++ e)) = Some r) by (apply last_some; discriminate).
      destruct L2 as (r & L2).
      destruct (IH (fun x H => Ne x (or_intror H)) ((g :: gt) ++ e) r L2) as (gt' & E1 & E2 & E3).
      + destruct es; [exact I|apply A].
      + destruct es as [|f es]; [exact I|]. destruct A as [A _]. rewrite <- A, <- L2. apply last_app. exact L.
      + exists gt'. split; [exact E1|]. split; [|exact E3]. rewrite E2, (segs_app (g :: gt) e p L), <- app_assoc. reflexivity.
  Qed.
  Lemma route_fold rows : forall rt es gt, Forall2 (travels rows) rt es -> foldO (route_row (edge_lines rows)) rt gt = foldO append_edge es gt.
  Proof.
    intros rt es gt F. revert gt. induction F as [|r e rt es T F IH]; intros gt; cbn [foldO]; [reflexivity|].
    rewrite (travels_row rows gt r e T). destruct (append_edge gt e); cbn [bindO]; auto.
  Qed.

  (** C71 (ground truth): if every row of the route can be travelled and the lines are attached to each other, the track starts at the first point of the
      route and its steps are the steps of the lines travelled, in order; nothing is left out and nothing is added. *)
  Theorem C71_ground_truth rows rt es : Forall2 (travels rows) rt es -> (forall e, In e es -> e <> []) -> attached es ->
    exists gt, ground_truth_read reproject (Some rows) (Some rt) = Ok (Some (map reproject gt)) /\
      segs gt = flat_map segs es /\ hd_error gt = match es with e :: _ => hd_error e | [] => None end.
  Proof.
    intros F Ne A. unfold ground_truth_read. rewrite (route_fold rows rt es [] F). destruct es as [|e es]; cbn [foldO flat_map].
    - exists []. auto.
    - cbn [append_edge bindO].
      assert (L : exists p, hd_error (rev e) = Some p) by (apply last_some, Ne; left; reflexivity).
      destruct L as (p & L). destruct (appended es (fun x H => Ne x (or_intror H)) e p L) as (gt & E1 & E2 & E3).
      + destruct es; [exact I|apply A].
      + destruct es as [|f es]; [exact I|]. destruct A as [A _]. rewrite <- A, L. reflexivity.
      + exists gt. rewrite E1. cbn [bindO]. auto.
  Qed.
  (** a row that names an unknown edge, or a one-way road against its direction, ends the import with an exception *)
  Theorem C71_ground_truth_rejects rows rt es r rest : Forall2 (travels rows) rt es -> (forall e, In e es -> e <> []) ->
    ~ (exists e, travels rows r e) -> exists x, ground_truth_read reproject (Some rows) (Some (rt ++ r :: rest)) = Throw x.
  Proof.
    intros F Ne N. unfold ground_truth_read.
    assert (G : forall gt, exists x, foldO (route_row (edge_lines rows)) (rt ++ r :: rest) gt = Throw x).
    { induction F as [|r' e rt es T F IH]; intros gt; cbn [app foldO].
      - rewrite (travels_not rows gt r N). cbn. eauto.
      - rewrite (travels_row rows gt r' e T). unfold append_edge. pose proof (Ne e (or_introl eq_refl)) as Nn. destruct e as [|p e]; [contradiction|].
        destruct gt; cbn [bindO]; apply IH; intros x H; apply Ne; right; exact H. }
    destruct (G []) as (x & ->). cbn. eauto.
  Qed.

  (** C71 (ground truth in its network): if the rows of the road network agree about the places of the nodes and no two nodes lie at the
      same place, the lines travelled are those of a path in the graph which the network importer (C70) builds from the same file. *)
  Theorem C71_ground_truth_path dir rows rt es (place : nat -> P) : Forall2 (travels rows) rt es -> attached es ->
    (forall r, In r rows -> sr_line r <> []) -> (forall r id p, In r rows -> places r id p -> p = place id) ->
    (forall a b, place a = place b -> a = b) ->
    exists h vm vs ges path, seattle_read reproject dir rows = Ok (h, vm) /\ graph_is dir h vs ges /\ incl path ges /\
      map (fun e => snd (snd e)) path = es /\
      (forall k (e f : nat * nat * (nat * list P)), nth_error path k = Some e -> nth_error path (S k) = Some f -> snd (fst e) = fst (fst f)).
  Proof.
    intros F A Ne Pl Inj. destruct (C70_seattle_ends reproject dir rows place Ne Pl) as (h & vm & vs & ess & E & G & Nd & M & Ends).
    exists h, vm, vs, (concat ess).
    assert (Lines : forall r e, travels rows r e -> exists i j id, In (i, j, (id, e)) (concat ess)).
    { intros r e (k & line & tw & [X _] & D). apply nth_error_In in X. apply in_map_iff in X as (x & X & Ix). injection X as _ <- <-.
      apply In_nth_error in Ix as [n Ix]. assert (Hm : exists l, nth_error ess n = Some l /\ row_made vs x l).
      { clear -M Ix. revert n Ix. induction M as [|a l rows ess H M IH]; intros [|n] Ix; cbn in *; try discriminate; [injection Ix as <-; eauto|apply IH; exact Ix]. }
      destruct Hm as (l & Hl & i & j & p & q & _ & _ & ->). apply nth_error_In in Hl.
      destruct D as [[_ ->]|(_ & Tw & ->)].
      - exists i, j, (sr_id x). apply in_concat. eexists. split; [exact Hl|]. left; reflexivity.
      - exists j, i, (sr_id x). apply in_concat. eexists. split; [exact Hl|]. rewrite Tw. right; left; reflexivity. }
    assert (Path : exists path, incl path (concat ess) /\ map (fun e => snd (snd e)) path = es).
    { clear -F Lines. induction F as [|r e rt es T F IH]; [exists []; split; [intros x []|reflexivity]|]. destruct IH as (path & I & Mp).
      destruct (Lines r e T) as (i & j & id & X). exists ((i, j, (id, e)) :: path). cbn. rewrite Mp. split; [|reflexivity]. intros x [<-|Hx]; auto. }
    destruct Path as (path & I & Mp). exists path. split; [exact E|]. split; [exact G|]. split; [exact I|]. split; [exact Mp|].
    intros k e f He Hf.
    assert (At : hd_error (rev (snd (snd e))) = hd_error (snd (snd f))).
    { apply (map_nth_error (fun e => snd (snd e))) in He. apply (map_nth_error (fun e => snd (snd e))) in Hf. rewrite Mp in He, Hf. clear -A He Hf.
      revert k He Hf. induction es as [|a es IH]; intros k He Hf; [destruct k; discriminate|]. destruct es as [|b es]; [destruct k as [|[|k]]; discriminate|].
      destruct A as [A1 A2]. destruct k as [|k]; [cbn in He, Hf; congruence|]. exact (IH A2 k He Hf). }
    apply nth_error_In, I in He. apply nth_error_In, I in Hf. destruct e as [[i j] [id l]]. destruct f as [[i' j'] [id' l']]. cbn [fst snd] in *.
    destruct (Ends i j id l He) as (a & b & _ & Vb & _ & Lb). destruct (Ends i' j' id' l' Hf) as (a' & b' & Va & _ & La & _).
    assert (b = a') as -> by (apply Inj; congruence).
    apply (map_nth_error fst) in Vb. apply (map_nth_error fst) in Va. cbn in Va, Vb.
    apply (proj1 (NoDup_nth_error (map fst vs)) Nd); [apply nth_error_Some; congruence|congruence].
  Qed.
End GroundTruth.

(** *** standard input *)
Section Input.
  Context {P : Type}.
  Variable num : nat -> list ascii.
  Variable reproject : P -> P.
  Variable read_point : list ascii -> option P.
  Variable read_line : list ascii -> option (list P).
  Variable read_multi : list ascii -> option (list (list P)).
  Notation text := (list ascii).
  Local Open Scope char_scope.

  Definition is_sep (c : ascii) : Prop := c = "," \/ c = ";" \/ c = "|".
  (** the text is made of these non-empty pieces without separators and of separators, at least one between two pieces *)
  Inductive pieces : text -> list text -> Prop :=
  | pieces_end : pieces [] []
  | pieces_sep c s ts : is_sep c -> pieces s ts -> pieces (c :: s) ts
  | pieces_tok t s ts : t <> [] -> (forall c, In c t -> ~ is_sep c) -> (s = [] \/ exists c r, s = c :: r /\ is_sep c) -> pieces s ts -> pieces (t ++ s) (t :: ts).
  (** the text without the white space around it *)
  Definition white (c : ascii) : Prop := In (nat_of_ascii c) [9; 10; 11; 12; 13; 32]%nat.
  Definition core (s t : text) : Prop := exists a b, s = a ++ t ++ b /\ Forall white a /\ Forall white b /\
    (forall c r, t = c :: r -> ~ white c) /\ (forall c r, t = r ++ [c] -> ~ white c).
  Definition begins (p s : text) : Prop := exists r, s = p ++ r.
  Definition POINT : text := ["P"; "O"; "I"; "N"; "T"].
  Definition LINESTRING : text := ["L"; "I"; "N"; "E"; "S"; "T"; "R"; "I"; "N"; "G"].
  Definition MULTILINESTRING : text := ["M"; "U"; "L"; "T"; "I"] ++ LINESTRING.
  (** the lines which a text stands for *)
  Inductive stands_for : text -> list (list P) -> Prop :=
  | points_text s ts ps : begins POINT s -> pieces s ts -> Forall2 (fun t p => exists u, core t u /\ read_point u = Some p) ts ps ->
      stands_for s [map reproject ps]
  | line_text s l : begins LINESTRING s -> read_line s = Some l -> stands_for s [map reproject l]
  | multi_text s ls : begins MULTILINESTRING s -> read_multi s = Some ls -> stands_for s (map (map reproject) ls).

  Lemma separator_spec c : separator c = true <-> is_sep c.
  Proof.
    unfold separator, is_sep. rewrite !Bool.orb_true_iff, !Ascii.eqb_eq. tauto.
  Qed.
  Lemma separator_no c : separator c = false <-> ~ is_sep c.
  Proof. rewrite <- separator_spec. destruct (separator c); split; intros H; congruence || (try (intros X; discriminate)); contradiction H; reflexivity. Qed.
  Lemma tokens_through t : (forall c, In c t -> ~ is_sep c) -> forall s cur, tokens (t ++ s) cur = tokens s (cur ++ t).
  Proof.
    induction t as [|c t IH]; intros H s cur; cbn [app tokens]; [rewrite app_nil_r; reflexivity|].
    rewrite (proj2 (separator_no c) (H c (or_introl eq_refl))), IH by (intros x X; apply H; right; exact X). rewrite <- app_assoc. reflexivity.
  Qed.
  Lemma pieces_tokens s ts : pieces s ts -> tokens s [] = ts.
  Proof.
    induction 1 as [|c s ts S H IH|t s ts N F B H IH]; cbn [tokens].
    - reflexivity.
    - rewrite (proj2 (separator_spec c) S). exact IH.
    - rewrite (tokens_through t F). cbn [app]. destruct t as [|x t]; [contradiction|]. destruct B as [->|(c & r & -> & S)].
      + cbn in IH |- *. rewrite <- IH. reflexivity.
      + cbn [tokens] in IH |- *. rewrite (proj2 (separator_spec c) S) in IH |- *. cbn [flush app] in IH |- *. rewrite IH. reflexivity.
  Qed.
  Lemma tokens_pieces s : forall cur, (forall c, In c cur -> ~ is_sep c) -> pieces (cur ++ s) (tokens s cur).
  Proof.
    induction s as [|c s IH]; intros cur H; cbn [tokens].
    - destruct cur as [|x cur]; [constructor|]. apply pieces_tok; [discriminate|exact H|left; reflexivity|constructor].
    - destruct (separator c) eqn:E.
      + apply separator_spec in E. pose proof (IH [] (fun c X => match X with end)) as R. cbn [app] in R.
        destruct cur as [|x cur]; cbn [flush app]; [constructor; assumption|]. apply (pieces_tok (x :: cur)); [discriminate|exact H| |constructor; assumption].
        right. exists c, s. auto.
      + apply separator_no in E. replace (cur ++ c :: s) with ((cur ++ [c]) ++ s) by (rewrite <- app_assoc; reflexivity). apply IH.
        intros x X. apply in_app_or in X as [X|[<-|[]]]; auto.
  Qed.

  Lemma space_white c : is_space c = true <-> white c.
  Proof.
    unfold is_space, white. cbn [In]. rewrite Bool.orb_true_iff, Bool.andb_true_iff, Nat.eqb_eq, !Nat.leb_le. lia.
  Qed.
  Lemma trim_left_white a x : Forall white a -> trim_left (a ++ x) = trim_left x.
  Proof. induction 1 as [|c a W _ IH]; [reflexivity|]. cbn [app trim_left]. rewrite (proj2 (space_white c) W). exact IH. Qed.
  Lemma trim_left_not t x : t <> [] -> (forall c r, t = c :: r -> ~ white c) -> trim_left (t ++ x) = t ++ x.
  Proof.
    intros N H. destruct t as [|c t]; [contradiction|]. cbn [app trim_left]. destruct (is_space c) eqn:E; [|reflexivity].
    apply space_white in E. destruct (H c t eq_refl E).
  Qed.
  Lemma trim_left_split s : exists a, s = a ++ trim_left s /\ Forall white a /\ (forall c r, trim_left s = c :: r -> ~ white c).
  Proof.
    induction s as [|c s IH]; cbn [trim_left]; [exists []; split; [reflexivity|split; [constructor|discriminate]]|].
    destruct (is_space c) eqn:E.
    - destruct IH as (a & A & W & H). exists (c :: a). cbn [app]. rewrite <- A. split; [reflexivity|]. split; [constructor; [apply space_white; exact E|exact W]|exact H].
    - exists []. split; [reflexivity|]. split; [constructor|]. intros x r X. injection X as <- _. rewrite <- space_white. congruence.
  Qed.
  Lemma Forall_rev' (a : text) : Forall white a -> Forall white (rev a).
  Proof. rewrite !Forall_forall. intros H x X. apply H. apply in_rev. exact X. Qed.
  Lemma core_trim s t : core s t <-> trim s = t.
  Proof.
    split.
    - intros (a & b & -> & Wa & Wb & H1 & H2). unfold trim. rewrite !rev_app_distr, <- app_assoc, (trim_left_white (rev b)) by (apply Forall_rev'; exact Wb).
      destruct t as [|x t].
      + cbn [rev app]. rewrite <- (app_nil_r (rev a)), (trim_left_white (rev a)) by (apply Forall_rev'; exact Wa). reflexivity.
      + rewrite trim_left_not.
        * rewrite rev_app_distr, !rev_involutive, (trim_left_white a) by exact Wa. rewrite <- (app_nil_r (x :: t)). apply trim_left_not; [discriminate|exact H1].
        * intros E. apply (f_equal (@length ascii)) in E. rewrite rev_length in E. discriminate.
        * intros c r E. apply (H2 c (rev r)). apply (f_equal (@rev ascii)) in E. rewrite rev_involutive in E. exact E.
    - intros <-. unfold trim. destruct (trim_left_split (rev s)) as (b & Eb & Wb & Hb). destruct (trim_left_split (rev (trim_left (rev s)))) as (a & Ea & Wa & Ha).
      set (m := trim_left (rev s)) in *. set (t := trim_left (rev m)) in *. exists a, (rev b).
      split; [|split; [exact Wa|split; [apply Forall_rev'; exact Wb|split; [exact Ha|]]]].
      + rewrite <- (rev_involutive s), Eb, rev_app_distr, Ea, <- app_assoc. reflexivity.
      + intros c r E. destruct (rev t) as [|x l] eqn:X; [apply (f_equal (@rev ascii)) in X; rewrite rev_involutive in X; rewrite X in E; destruct r; discriminate|].
        rewrite E, rev_app_distr in X. cbn in X. injection X as <- <-. apply (Hb c (rev r ++ rev a)).
        rewrite <- (rev_involutive m), Ea, E, rev_app_distr, rev_app_distr. cbn. reflexivity.
  Qed.
  Lemma begins_spec p : forall s, starts_with p s = true <-> begins p s.
  Proof.
    unfold begins. induction p as [|a p IH]; intros s; cbn [starts_with app]; [split; [exists s; reflexivity|reflexivity]|].
    destruct s as [|b s]; [split; [discriminate|intros (r & H); discriminate]|]. rewrite Bool.andb_true_iff, Ascii.eqb_eq, IH. split.
    - intros [-> (r & ->)]. exists r. reflexivity.
    - intros (r & H). injection H as -> ->. eauto.
  Qed.
  Notation "'parse''" := (parse reproject read_point read_line read_multi).
  Lemma read_points_ok ts : forall l, read_points reproject read_point ts = Some l <->
    exists ps, l = map reproject ps /\ Forall2 (fun t p => exists u, core t u /\ read_point u = Some p) ts ps.
  Proof.
    induction ts as [|t ts IH]; intros l; cbn [read_points].
    - split; [intros H; injection H as <-; exists []; split; [reflexivity|constructor]|]. intros (ps & -> & F). inversion F. reflexivity.
    - split.
      + destruct (read_point (trim t)) as [p|] eqn:R; [|discriminate]. destruct (read_points reproject read_point ts) as [l'|]; [|discriminate].
        intros H. injection H as <-. destruct (proj1 (IH l') eq_refl) as (ps & -> & F). exists (p :: ps). split; [reflexivity|]. constructor; [|exact F].
        exists (trim t). split; [apply core_trim; reflexivity|exact R].
      + intros (ps & -> & F). inversion F as [|? p ? ps' (u & K & R) F']; subst. apply core_trim in K. subst u. rewrite R.
        rewrite (proj2 (IH (map reproject ps'))); [reflexivity|]. exists ps'. auto.
  Qed.
  Lemma parse_ok s ls : parse' s = Some ls <-> stands_for s ls.
  Proof.
    unfold parse. split.
    - destruct (starts_with ["P"; "O"; "I"; "N"; "T"] s) eqn:E1.
      { apply begins_spec in E1. destruct (read_points reproject read_point (tokens s [])) as [l|] eqn:R; [|discriminate]. intros H. injection H as <-.
        apply read_points_ok in R as (ps & -> & F). eapply points_text; [exact E1|apply (tokens_pieces s []); intros c []|exact F]. }
      destruct (starts_with ["L"; "I"; "N"; "E"; "S"; "T"; "R"; "I"; "N"; "G"] s) eqn:E2.
      { apply begins_spec in E2. destruct (read_line s) as [l|] eqn:R; [|discriminate]. intros H. injection H as <-. apply line_text; assumption. }
      destruct (starts_with ["M"; "U"; "L"; "T"; "I"; "L"; "I"; "N"; "E"; "S"; "T"; "R"; "I"; "N"; "G"] s) eqn:E3; [|discriminate].
      apply begins_spec in E3. destruct (read_multi s) as [l|] eqn:R; [|discriminate]. intros H. injection H as <-. apply multi_text; assumption.
    - intros H. destruct H as [s ts ps B Pc F|s l B R|s l B R].
      + rewrite (proj2 (begins_spec ["P"; "O"; "I"; "N"; "T"] s) B), (pieces_tokens s ts Pc).
        rewrite (proj2 (read_points_ok ts (map reproject ps))) by eauto. reflexivity.
      + destruct B as (r & ->). cbn [LINESTRING app starts_with Ascii.eqb Bool.eqb andb]. cbn [LINESTRING app] in R. rewrite R. reflexivity.
      + destruct B as (r & ->). cbn [MULTILINESTRING LINESTRING app starts_with Ascii.eqb Bool.eqb andb]. cbn [MULTILINESTRING LINESTRING app] in R. rewrite R. reflexivity.
  Qed.

  (** small letters become capital letters, everything else stays *)
  Definition capital (c d : ascii) : Prop :=
    (In c (map ascii_of_nat (seq 97 26)) /\ nat_of_ascii d + 32 = nat_of_ascii c)%nat \/ (~ In c (map ascii_of_nat (seq 97 26)) /\ d = c).
  Lemma upper_capital c : capital c (upper c).
  Proof. destruct c as [[|] [|] [|] [|] [|] [|] [|] [|]]; (left; split; [vm_compute; tauto|reflexivity]) || (right; split; [vm_compute; intuition congruence|reflexivity]). Qed.

  (** C71 (standard input): the lines up to the first blank one are read; the [k]-th of them gives, trimmed and in capital letters, the track with the
      number [k] if it stands for points, a line or several lines, and otherwise nothing. *)
  Theorem C71_input lines : exists n outs,
    (n = length lines \/ exists l, nth_error lines n = Some l /\ Forall white l) /\
    Forall2 (fun k (o : option (text * list (list P))) => exists l t u, nth_error lines k = Some l /\ ~ Forall white l /\ core l t /\ Forall2 capital t u /\
               match o with
               | Some (id, ls) => id = num k /\ stands_for u ls
               | None => forall ls, ~ stands_for u ls
               end) (seq 0 n) outs /\
    input_read num reproject read_point read_line read_multi lines 0 = somes outs.
  Proof.
    assert (G : forall lines c, exists n outs,
      (n = length lines \/ exists l, nth_error lines n = Some l /\ Forall white l) /\
      Forall2 (fun k (o : option (text * list (list P))) => exists l t u, nth_error lines k = Some l /\ ~ Forall white l /\ core l t /\ Forall2 capital t u /\
                 match o with
                 | Some (id, ls) => id = num (c + k) /\ stands_for u ls
                 | None => forall ls, ~ stands_for u ls
                 end) (seq 0 n) outs /\
      input_read num reproject read_point read_line read_multi lines c = somes outs).
    { clear lines. induction lines as [|l lines IH]; intros c; cbn [input_read].
      - exists 0%nat, []. split; [left; reflexivity|]. split; [constructor|reflexivity].
      - assert (Bl : Forall white l <-> trim l = []).
        { rewrite <- core_trim. split.
          - intros W. exists l, []. rewrite !app_nil_r. repeat split; try constructor; try discriminate; [exact W|]. intros x r X. destruct r; discriminate.
          - intros (a & b & -> & Wa & Wb & _). cbn. apply Forall_app. auto. }
        destruct (trim l) as [|x t] eqn:T.
        + exists 0%nat, []. split; [right; exists l; split; [reflexivity|apply Bl; reflexivity]|]. split; [constructor|reflexivity].
        + destruct (IH (c + 1)%nat) as (n & outs & A & F & E). set (s := x :: t) in *.
          assert (Cp : Forall2 capital s (map upper s)) by (clear; induction s; cbn; constructor; [apply upper_capital|assumption]).
          exists (S n), ((match parse' (map upper s) with Some ls => Some (num c, ls) | None => None end) :: outs). split; [|split].
          * destruct A as [->|A]; [left; reflexivity|right; exact A].
          * cbn [seq]. constructor.
            -- exists l, s, (map upper s). split; [reflexivity|]. split; [rewrite Bl; discriminate|]. split; [apply core_trim; exact T|]. split; [exact Cp|].
               destruct (parse' (map upper s)) as [ls|] eqn:Pr.
               ++ rewrite Nat.add_0_r. split; [reflexivity|apply parse_ok; exact Pr].
               ++ intros ls H. apply parse_ok in H. congruence.
            -- clear -F. rewrite <- seq_shift. revert outs F. generalize (seq 0 n) as ks. induction ks as [|k ks IHk]; intros outs F; inversion F as [|? o ? outs' H F']; subst; [constructor|].
               cbn [map]. constructor; [|apply IHk; exact F']. destruct H as (l' & t' & u & H1 & H2 & H3 & H4 & H5). exists l', t', u. split; [exact H1|]. split; [exact H2|].
               split; [exact H3|]. split; [exact H4|]. replace (c + S k)%nat with (c + 1 + k)%nat by lia. exact H5.
          * rewrite E. unfold s at 2. cbn [map] in *. destruct (parse' (upper x :: map upper t)) as [ls|] eqn:Pr; unfold s; cbn [map]; rewrite Pr; reflexivity. }
    exact (G lines 0%nat).
  Qed.
End Input.

(** *** witnesses *)
Local Open Scope nat_scope.
Definition text_eqb (a b : list nat) : bool := if list_eq_dec Nat.eq_dec a b then true else false.
Lemma text_eqb_spec a b : reflect (a = b) (text_eqb a b).
Proof. unfold text_eqb. destruct (list_eq_dec Nat.eq_dec a b); constructor; assumption. Qed.
Definition digits (n : nat) : list nat := [48 + n].
Definition at_ms (m : nat) : option timetext := Some (mkStamp None (Some m)).

Definition gpx_cfg : @gpx_settings nat := mkGs false false [].
Definition gpx_demo : list (option (@gpx nat nat)) :=
  [ Some (mkGpx [] [ Some (mkTrk [7; 7] [Some [Some (mkGp (at_ms 3000) 1); None; Some (mkGp (at_ms 2500) 2); Some (mkGp (at_ms 4900) 3)]; None; Some [Some (mkGp None 4)]]);
                     None; Some (mkTrk [] [Some [Some (mkGp None 5); Some (mkGp None 6)]]) ]);
    None;
    Some (mkGpx [9] [Some (mkTrk [] [])]); Some (mkGpx [] [Some (mkTrk [] [])]) ].
Example C71_gpx_demo : gpx_read text_eqb digits isort (fun p => p + 100) gpx_cfg gpx_demo =
  [([7; 7], [[102; 101; 103]; [104]]); ([48], [[105; 106]]); ([9], []); ([49], [])].
Proof. vm_compute. reflexivity. Qed.
Example C71_gpx_demo_line : line_is (fun p => p + 100) gpx_cfg [Some (mkGp (at_ms 3000) 1); None; Some (mkGp (at_ms 4500) 2)] [101; 102] /\
  Forall2 (fun p v => exists s m, gp_time p = Some s /\ s_millis s = Some m /\ v * 1000 <= m < v * 1000 + 1000)
    (somes [Some (mkGp (at_ms 3000) 1); None; Some (mkGp (at_ms 4500) 2)]) [3; 4].
Proof.
  split.
  - pose proof (segment_ok isort isort_ok (fun p => p + 100) gpx_cfg [Some (mkGp (at_ms 3000) 1); None; Some (mkGp (at_ms 4500) 2)]) as H.
    replace (segment_line _ _ _ _) with [101; 102] in H by (vm_compute; reflexivity). exact H.
  - constructor; [exists (mkStamp None (Some 3000)), 3000; repeat split; lia|]. constructor; [exists (mkStamp None (Some 4500)), 4500; repeat split; lia|constructor].
Qed.

(** ids need not be distinct: tracks without names share the name in the metadata of their file, and a number given to a nameless track may be the name of another *)
Theorem C71_gpx_ids_refuted : exists files : list (option (@gpx nat nat)),
  ~ NoDup (map fst (gpx_read text_eqb digits isort (fun p => p) gpx_cfg files)) /\ (forall g, In (Some g) files -> NoDup (map (fun t => option_map t_name t) (g_trks g))).
Proof.
  exists [Some (mkGpx [] [Some (mkTrk [48] []); Some (mkTrk [] [])])]. split.
  - vm_compute. intros N. inversion_clear N as [|? ? H _]. apply H. left; reflexivity.
  - intros g [H|[]]. injection H as <-. cbn. repeat constructor; cbn; intuition discriminate.
Qed.
(** a point without a time comes before points with times (in seconds since 1970), wherever it was recorded *)
Theorem C71_gpx_missing_time_refuted : exists (early late : @gpoint nat), gp_time late = None /\
  forall sort, sorts sort -> segment_line sort (fun p => p) gpx_cfg [Some early; Some late] = [gp_place late; gp_place early].
Proof.
  exists (mkGp (at_ms 3000) 1), (mkGp None 2). split; [reflexivity|]. intros sort S. unfold segment_line. destruct (S [(3, 1); (1, 2)]) as [A B].
  replace (fold_left _ _ []) with [(3, 1); (1, 2)] by (vm_compute; reflexivity).
  rewrite <- (order_unique [(1, 2); (3, 1)] (sort [(3, 1); (1, 2)])).
  - reflexivity.
  - cbn. constructor; [intros [X|[]]; discriminate|]. constructor; [intros []|constructor].
  - etransitivity; [apply perm_swap|exact A].
  - intros [|[|[|i]]] [|[|[|j]]] x y L X Y; cbn in X, Y; try discriminate; try lia. injection X as <-. injection Y as <-. apply Nat.leb_le. vm_compute. reflexivity.
  - exact B.
Qed.
(** the times are cut to whole seconds before sorting, and [std::sort] is not stable: points of the same second may change their order *)
Theorem C71_gpx_same_second_refuted : exists (sort : list (nat * nat) -> list (nat * nat)) m1 m2, sorts sort /\ m1 < m2 /\
  segment_line sort (fun p => p) gpx_cfg [Some (mkGp (at_ms m1) 1); Some (mkGp (at_ms m2) 2)] = [2; 1].
Proof. exists (fun l => isort (rev l)), 1200, 1700. split; [apply isort_rev_ok|]. split; [lia|]. vm_compute. reflexivity. Qed.

Definition gt_route : list (nat * bool) := [(1, true); (2, true); (3, true); (1, true); (1, false)].
Definition gt_lines : list (list nat) := [[10; 15; 20]; [20; 30]; [30; 10]; [10; 15; 20]; [20; 15; 10]].
Example C71_ground_truth_demo : Forall2 (travels sea_demo) gt_route gt_lines /\ (forall e, In e gt_lines -> e <> []) /\ attached gt_lines /\
  ground_truth_read shift (Some sea_demo) (Some gt_route) = Ok (Some [110; 115; 120; 130; 110; 115; 120; 115; 110]).
Proof.
  split; [|split; [intros e H; cbn in H; intuition (subst; discriminate)|split; [cbn; auto 10|vm_compute; reflexivity]]].
  assert (T : forall r k line tw e, nth_error sea_demo k = Some (mkSea (fst r) (fst r + 4) (if fst r =? 3 then 5 else fst r + 5) tw line) ->
     (snd r = true /\ e = line \/ snd r = false /\ tw = true /\ e = rev line) -> fst r = S k -> travels sea_demo r e).
  { intros [id d] k line tw e H D E. cbn [fst snd] in *. subst id. exists k, line, tw. split; [|exact D]. split.
    - apply (map_nth_error (fun x => (sr_id x, (sr_line x, sr_two_way x)))) in H. exact H.
    - intros j b L X. destruct k as [|[|[|k]]]; [lia| | |destruct k; discriminate H].
      + assert (j = 0) as -> by lia. discriminate X.
      + destruct j as [|[|j]]; [discriminate X|discriminate X|lia]. }
  unfold gt_route, gt_lines.
  constructor; [eapply (T _ 0); [reflexivity|cbn; auto|reflexivity]|]. constructor; [eapply (T _ 1); [reflexivity|cbn; auto|reflexivity]|].
  constructor; [eapply (T _ 2); [reflexivity|cbn; auto|reflexivity]|]. constructor; [eapply (T _ 0); [reflexivity|cbn; auto|reflexivity]|].
  constructor; [eapply (T _ 0); [reflexivity|cbn; auto|reflexivity]|constructor].
Qed.
Example C71_ground_truth_demo_rejected : ~ (exists e, travels sea_demo (2, false) e).
Proof.
  intros (e & k & line & tw & [F _] & [[X _]|(_ & -> & _)]); [discriminate|]. destruct k as [|[|[|k]]]; cbn in F; [discriminate..|destruct k; discriminate].
Qed.
(** [sea_place] of C70 places the three nodes of the demo at different places *)
Example C71_ground_truth_demo_places : exists place, (forall r id p, In r sea_demo -> places r id p -> p = place id) /\ (forall a b : nat, place a = place b -> a = b).
Proof.
  exists (fun id => if id =? 5 then 10 else if id =? 6 then 20 else if id =? 7 then 30 else id + 31). split.
  - intros r id p [<-|[<-|[<-|[]]]] [[<- X]|[<- X]]; cbn in X; injection X as <-; reflexivity.
  - intros a b. destruct (Nat.eqb_spec a 5), (Nat.eqb_spec b 5), (Nat.eqb_spec a 6), (Nat.eqb_spec b 6), (Nat.eqb_spec a 7), (Nat.eqb_spec b 7); lia.
Qed.
(** the first point of every line but the first is left out without a look at the point before it: if the lines are not attached, the track misses points *)
Theorem C71_ground_truth_gap_refuted : exists (rows : list (@sea_row nat)) rt es gt p, Forall2 (travels rows) rt es /\ (forall e, In e es -> e <> []) /\
  ground_truth_read (fun p => p) (Some rows) (Some rt) = Ok (Some gt) /\ In p (concat es) /\ ~ In p gt.
Proof.
  exists [mkSea 1 5 6 false [10; 20]; mkSea 2 7 8 false [30; 40]], [(1, true); (2, true)], [[10; 20]; [30; 40]], [10; 20; 40], 30.
  split; [|split; [intros e H; cbn in H; intuition (subst; discriminate)|split; [vm_compute; reflexivity|cbn; split; [auto|intuition discriminate]]]].
  constructor; [|constructor; [|constructor]].
  - exists 0, [10; 20], false. split; [split; [reflexivity|intros j b L; lia]|left; auto].
  - exists 1, [30; 40], false. split; [split; [reflexivity|]|left; auto]. intros j b L X. assert (j = 0) as -> by lia. discriminate.
Qed.
(** an empty line after the first row is skipped past its end *)
Theorem C71_ground_truth_empty_refuted : exists (rows : list (@sea_row nat)) rt, ground_truth_read (fun p => p) (Some rows) (Some rt) = UB.
Proof. exists [mkSea 1 5 6 false [10; 20]; mkSea 2 6 6 false []], [(1, true); (2, true)]. vm_compute. reflexivity. Qed.

Definition read_len (s : list ascii) : option nat := match s with [] => None | _ => Some (length s) end.
Definition demo_input : list (list ascii) :=
  [ [" "; "p"; "O"; "i"; "n"; "T"; "1"; ","; " "; "x"; ";"; "|"; "y"; "z"; " "]; ["?"]; ["l"; "i"; "n"; "e"; "S"; "T"; "R"; "I"; "N"; "G"; "1"]; [" "; " "]; ["P"; "O"; "I"; "N"; "T"] ]%char.
Example C71_input_demo :
  input_read (fun n => [ascii_of_nat (48 + n)]) (fun p => p + 100) read_len (fun s => Some (map (fun c => nat_of_ascii c) (skipn 10 s))) (fun _ => None) demo_input 0 =
  [(["0"]%char, [[106; 101; 102]]); (["2"]%char, [[149]])].
Proof. vm_compute. reflexivity. Qed.

Print Assumptions C71_gpx.
Print Assumptions C71_gpx_untimed.
Print Assumptions C71_gpx_in_order.
Print Assumptions C71_ground_truth.
Print Assumptions C71_ground_truth_rejects.
Print Assumptions C71_ground_truth_path.
Print Assumptions C71_input.
