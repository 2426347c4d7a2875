(** C72: what the CSV exporters of results write. *)
From Coq Require Import String Ascii Sorting.
From Verif Require Import Base ListAux Export.
Local Open Scope string_scope.

(** a text without a comma *)
Fixpoint no_comma (s : string) : Prop := match s with EmptyString => True | String c r => c <> ","%char /\ no_comma r end.

Lemma sapp_nil s : s ++ "" = s. Proof. induction s; cbn; congruence. Qed.
Lemma sapp_assoc (a b c : string) : (a ++ b) ++ c = a ++ b ++ c. Proof. induction a; cbn; congruence. Qed.

Lemma split_field n : no_comma n -> forall cur, split_commas n cur = [cur ++ n].
Proof.
  induction n as [|c n IH]; intros H cur; cbn.
  - now rewrite sapp_nil.
  - destruct H as [H1 H2]. destruct (Ascii.eqb c ","%char) eqn:E; [apply Ascii.eqb_eq in E; contradiction|].
    rewrite (IH H2), sapp_assoc. reflexivity.
Qed.
Lemma split_field_more n : no_comma n -> forall rest cur, split_commas (n ++ String ","%char rest) cur = (cur ++ n) :: split_commas rest "".
Proof.
  induction n as [|c n IH]; intros H rest cur.
  - cbn. now rewrite sapp_nil.
  - destruct H as [H1 H2]. cbn [append split_commas]. destruct (Ascii.eqb c ","%char) eqn:E; [apply Ascii.eqb_eq in E; contradiction|].
    rewrite (IH H2), sapp_assoc. reflexivity.
Qed.
Lemma split_concat names : names <> [] -> Forall no_comma names -> split_commas (String.concat "," names) "" = names.
Proof.
  induction names as [|n names IH]; intros H F; [congruence|]. inversion F; subst.
  destruct names as [|m names].
  - cbn. rewrite split_field; auto.
  - change (String.concat "," (n :: m :: names)) with (n ++ String ","%char (String.concat "," (m :: names))).
    rewrite split_field_more by assumption. f_equal. apply IH; [discriminate|assumption].
Qed.

Section ExportProps.
  Context {D : Type}.
  Variable zero : D.
  Variable show : D -> string.
  Variable show_nat : nat -> string.

  (** the values of a table of columns: the names of the columns with the texts of their fields *)
  Definition table R := list (string * (R -> string)).
  Definition known {R} (t : table R) (n : string) : Prop := In n (map fst t).
  (** the field [v] is the text of the column [n] for the result [r] *)
  Definition field_of {R} (t : table R) (r : R) (n v : string) : Prop := exists g, In (n, g) t /\ v = g r.

  Definition text_or (o : option D) : string := show (match o with Some d => d | None => zero end).
  Definition match_table : table (@match_result D) :=
    [("id", mr_id); ("aborted", fun r => if mr_aborted r then "yes" else "no"); ("duration", fun r => show (mr_duration r));
     ("track", mr_track); ("prepared", mr_prepared); ("match", mr_match);
     ("track_length", fun r => text_or (mr_track_length r)); ("prepared_length", fun r => text_or (mr_prepared_length r));
     ("match_length", fun r => text_or (mr_match_length r)); ("edge_ids", fun r => String.concat "," (map show_nat (mr_edge_ids r)))].

  (** the file: nothing without a result, otherwise the header and then the rows *)
  Definition written (names : list string) (rows : list (list string)) : list (list string) :=
    match rows with [] => [] | _ => names :: rows end.

  (** the columns of [names] that the table knows, in their order *)
  Inductive knowns {R} (t : table R) : list string -> list string -> Prop :=
  | kn_nil : knowns t [] []
  | kn_in : forall n ns ks, known t n -> knowns t ns ks -> knowns t (n :: ns) (n :: ks)
  | kn_out : forall n ns ks, ~ known t n -> knowns t ns ks -> knowns t (n :: ns) ks.

  Lemma knowns_all {R} (t : table R) ns : Forall (known t) ns -> knowns t ns ns.
  Proof. induction 1; constructor; auto. Qed.

  (** *** rows of the exporter in general *)
  Lemma write_started {X : Type} (names : list string) (row : X -> list string) (act : X -> bool) xs rows : Forall (fun x => act x = true) xs ->
    fold_left (fun f x => write_result names (act x) f (row x)) xs (mkFile true rows) = mkFile true (rows ++ map row xs)%list.
  Proof.
    intros F. revert rows. induction F as [|x xs H _ IH]; intros rows; cbn; [now rewrite app_nil_r|].
    rewrite H. unfold write_result; cbn. rewrite IH, <- app_assoc. reflexivity.
  Qed.
  Lemma write_done {X : Type} (names : list string) (row : X -> list string) (act : X -> bool) xs f : Forall (fun x => act x = false) xs ->
    f_rows (fold_left (fun f x => write_result names (act x) f (row x)) xs f) = f_rows f.
  Proof.
    intros F. revert f. induction F as [|x xs H _ IH]; intros f; cbn; [reflexivity|].
    rewrite H, IH. unfold write_result. destruct (f_header f); reflexivity.
  Qed.
  Lemma write_all {X : Type} (names : list string) (row : X -> list string) (act : X -> bool) good bad :
    Forall (fun x => act x = true) good -> Forall (fun x => act x = false) bad ->
    f_rows (fold_left (fun f x => write_result names (act x) f (row x)) (good ++ bad) new_file) = written names (map row good).
  Proof.
    intros G B. rewrite fold_left_app, write_done by assumption.
    destruct good as [|x good]; [reflexivity|]. inversion G; subst. cbn [fold_left].
    unfold write_result at 2. rewrite H1. cbn. rewrite (write_started names row act good [names; row x] H2). reflexivity.
  Qed.

  (** *** the match exporter *)
  Lemma join_ids_concat ids : join_ids show_nat ids = String.concat "," (map show_nat ids).
  Proof.
    unfold join_ids. destruct ids as [|i ids]; [reflexivity|].
    cbn [fold_left fst snd append map].
    assert (G : forall l s, fst (fold_left (fun (st : string * bool) i => (((if snd st then fst st else fst st ++ ",") ++ show_nat i)%string, false)) l (s, false))
              = match l with [] => s | _ => s ++ "," ++ String.concat "," (map show_nat l) end).
    { induction l as [|j l IH]; intros s; [reflexivity|]. cbn [fold_left fst snd]. rewrite IH.
      destruct l as [|k l]; cbn [map String.concat]; rewrite !sapp_assoc; reflexivity. }
    rewrite G. destruct ids as [|j ids]; reflexivity.
  Qed.

  Definition mvalue (r : @match_result D) (c : mcol) : string :=
    match c with
    | MId => mr_id r | MAborted => if mr_aborted r then "yes" else "no" | MDuration => show (mr_duration r) | MTrack => mr_track r
    | MPrepared => mr_prepared r | MMatch => mr_match r | MTrackLength => text_or (mr_track_length r) | MPreparedLength => text_or (mr_prepared_length r)
    | MMatchLength => text_or (mr_match_length r) | MEdgeIds => String.concat "," (map show_nat (mr_edge_ids r)) | MUnknown => ""
    end.
  Lemma match_columns n : known match_table n /\ match_column n <> MUnknown /\ (forall r v, v = mvalue r (match_column n) -> field_of match_table r n v)
    \/ ~ known match_table n /\ match_column n = MUnknown.
  Proof.
    unfold match_column.
    repeat (match goal with |- context [?a =? ?b] =>
      destruct (String.eqb_spec a b) as [->|?];
      [left; split; [cbn; tauto|split; [discriminate|intros r v ->; eexists; split; [cbn; eauto 12|reflexivity]]]|] end).
    right. split; [|reflexivity]. intros K. cbn in K. repeat (destruct K as [K|K]; [congruence|]). exact K.
  Qed.

  Definition m_inv (r : @match_result D) (t : @match_task D) : Prop :=
    mt_id t = mr_id r /\ mt_aborted t = mr_aborted r /\ mt_duration t = mr_duration r /\
    (mr_track_length r = None -> mt_track_length t = zero) /\ (mr_prepared_length r = None -> mt_prepared_length t = zero) /\
    (mr_match_length r = None -> mt_match_length t = zero) /\ (mr_edge_ids r = [] -> mt_edge_ids t = "").
  Definition m_good r t c : Prop := match_cell show t c = [mvalue r c].
  Lemma m_inv_fill r t c : m_inv r t -> m_inv r (match_fill show_nat r t c).
  Proof.
    intros (a & b & d & e & f & g & h). unfold m_inv.
    destruct c; cbn; auto 10; repeat split; auto;
      try (destruct (mr_track_length r) eqn:E1; cbn; auto; congruence);
      try (destruct (mr_prepared_length r) eqn:E2; cbn; auto; congruence);
      try (destruct (mr_match_length r) eqn:E3; cbn; auto; congruence);
      try (destruct (mr_edge_ids r) eqn:E4; cbn; auto; congruence).
  Qed.
  Lemma m_fill_good r t c : c <> MUnknown -> m_inv r t -> m_good r (match_fill show_nat r t c) c.
  Proof.
    intros N (a & b & d & e & f & g & h). unfold m_good.
    destruct c; cbn; rewrite ?a, ?b, ?d; try reflexivity; try congruence; unfold text_or.
    - destruct (mr_track_length r) eqn:E; cbn; [reflexivity|]. rewrite e; auto.
    - destruct (mr_prepared_length r) eqn:E; cbn; [reflexivity|]. rewrite f; auto.
    - destruct (mr_match_length r) eqn:E; cbn; [reflexivity|]. rewrite g; auto.
    - destruct (mr_edge_ids r) eqn:E; cbn [mt_edge_ids]; [rewrite h; auto|]. now rewrite join_ids_concat.
  Qed.
  Lemma m_good_fill r t c c' : c <> MUnknown -> m_inv r t -> m_good r t c -> m_good r (match_fill show_nat r t c') c.
  Proof.
    intros N I G. destruct c'; try exact G.
    all: pose proof (m_fill_good r t c N I) as F; unfold m_good in *; destruct c; try exact F; try exact G; cbn [match_fill] in *.
    all: try (destruct (mr_track_length r); exact G); try (destruct (mr_prepared_length r); exact G); try (destruct (mr_match_length r); exact G);
      try (destruct (mr_edge_ids r); exact G).
  Qed.
  Lemma m_fold r cols : forall t, m_inv r t -> forall c, c <> MUnknown -> In c cols \/ m_good r t c -> m_good r (fold_left (match_fill show_nat r) cols t) c.
  Proof.
    induction cols as [|d cols IH]; intros t I c N H; cbn.
    - destruct H as [[]|H]; exact H.
    - apply IH; [now apply m_inv_fill|exact N|].
      destruct H as [[->|H]|H]; [right; now apply m_fill_good|now left|right; now apply m_good_fill].
  Qed.
  Lemma match_row_ok names r ks : knowns match_table names ks ->
    Forall2 (field_of match_table r) ks (match_row show names (match_parse zero show_nat names true r)).
  Proof.
    intros K. unfold match_row.
    assert (G : forall c, c <> MUnknown -> In c (map match_column names) -> match_cell show (match_parse zero show_nat names true r) c = [mvalue r c]).
    { intros c N I. unfold match_parse. apply m_fold; [repeat split; reflexivity|exact N|now left]. }
    revert G. generalize (match_parse zero show_nat names true r). intros t.
    induction K as [|n ns ks H K IH|n ns ks H K IH]; intros G; cbn; [constructor| |].
    - destruct (match_columns n) as [(_ & N & V)|[N _]]; [|contradiction].
      rewrite (G _ N (or_introl eq_refl)). cbn. constructor; [now apply V|]. apply IH. intros c C I. apply G; [exact C|now right].
    - destruct (match_columns n) as [(N & _)|[_ N]]; [contradiction|]. rewrite N. cbn. apply IH. intros c C I. apply G; [exact C|now right].
  Qed.

  (** The match exporter fed with any results while the file can be written, and then possibly with more after that has failed: the
      file is empty without a result; otherwise it is one header with the names of the columns, as given, and then one row per
      result, in the order of the results.  A row has one field for every column that the exporter knows, in the order of the
      columns, with the value of this column. *)
  Theorem C72_match_columns : forall names ks good bad,
    names <> [] -> Forall no_comma names -> knowns match_table names ks ->
    Forall (fun x => snd (snd x) = false) bad ->
    exists rows, match_export zero show show_nat (String.concat "," names) (map (fun r => (r, (true, true))) good ++ bad)%list = written names rows /\
      Forall2 (fun r row => Forall2 (field_of match_table r) ks row) good rows.
  Proof.
    intros names ks good bad N C K B. unfold match_export. rewrite split_concat by assumption.
    rewrite (write_all names (fun x => match_row show names (match_parse zero show_nat names (fst (snd x)) (fst x))) (fun x => snd (snd x)));
      [|apply Forall_forall; intros x I; apply in_map_iff in I as (r & <- & _); reflexivity|assumption].
    rewrite map_map. cbn [fst snd]. eexists. split; [reflexivity|].
    clear B. induction good; constructor; auto. now apply match_row_ok.
  Qed.

  (** With columns the exporter knows, every field stands below its own name. *)
  Theorem C72_match : forall names good bad,
    names <> [] -> Forall (known match_table) names -> Forall (fun x => snd (snd x) = false) bad ->
    exists rows, match_export zero show show_nat (String.concat "," names) (map (fun r => (r, (true, true))) good ++ bad)%list = written names rows /\
      Forall2 (fun r row => Forall2 (field_of match_table r) names row) good rows.
  Proof.
    intros names good bad N K B. apply C72_match_columns; auto using knowns_all.
    eapply Forall_impl; [|exact K]. intros n I. unfold known in I. cbn in I.
    repeat (destruct I as [<-|I]; [cbn; repeat split; congruence|]). destruct I.
  Qed.

  (** *** the exporter of comparisons *)
  Context {Seg : Type}.
  Variable wkt : list Seg -> string.
  Definition compare_table : table (@compare_result D Seg) :=
    [("id", cr_id); ("duration", fun r => show (cr_duration r)); ("match", cr_match); ("ground_truth", cr_truth);
     ("match_length", fun r => text_or (cr_match_length r)); ("ground_truth_length", fun r => text_or (cr_truth_length r));
     ("correct_fraction", fun r => show (cr_correct_fraction r)); ("error_fraction", fun r => show (cr_error_fraction r));
     ("correct", fun r => show (cr_correct r)); ("error_added", fun r => show (cr_added r)); ("error_missed", fun r => show (cr_missed r));
     ("corrects", fun r => wkt (cr_corrects r)); ("error_adds", fun r => wkt (cr_adds r)); ("error_misses", fun r => wkt (cr_misses r))].
  Definition cvalue (r : @compare_result D Seg) (c : ccol) : string :=
    match c with
    | CId => cr_id r | CDuration => show (cr_duration r) | CMatch => cr_match r | CTruth => cr_truth r | CMatchLength => text_or (cr_match_length r)
    | CTruthLength => text_or (cr_truth_length r) | CCorrectFraction => show (cr_correct_fraction r) | CErrorFraction => show (cr_error_fraction r)
    | CCorrect => show (cr_correct r) | CErrorAdded => show (cr_added r) | CErrorMissed => show (cr_missed r) | CCorrects => wkt (cr_corrects r)
    | CErrorAdds => wkt (cr_adds r) | CErrorMisses => wkt (cr_misses r) | CUnknown => ""
    end.
  Lemma compare_columns n : known compare_table n /\ compare_column n <> CUnknown /\ (forall r v, v = cvalue r (compare_column n) -> field_of compare_table r n v)
    \/ ~ known compare_table n /\ compare_column n = CUnknown.
  Proof.
    unfold compare_column.
    repeat (match goal with |- context [?a =? ?b] =>
      destruct (String.eqb_spec a b) as [->|?];
      [left; split; [cbn; tauto|split; [discriminate|intros r v ->; eexists; split; [cbn; eauto 16|reflexivity]]]|] end).
    right. split; [|reflexivity]. intros K. cbn in K. repeat (destruct K as [K|K]; [congruence|]). exact K.
  Qed.
  Lemma compare_column_inj n m : compare_column n <> CUnknown -> compare_column n = compare_column m -> n = m.
  Proof.
    unfold compare_column. intros N E.
    repeat match type of N with context [n =? ?b] => destruct (String.eqb_spec n b) as [->|?] end; try (now elim N);
    repeat match type of E with context [m =? ?b] => destruct (String.eqb_spec m b) as [->|?]; try (discriminate || reflexivity) end.
  Qed.

  Definition c_fresh (t : @compare_task D Seg) (c : ccol) : Prop :=
    match c with
    | CMatchLength => ct_match_length t = zero | CTruthLength => ct_truth_length t = zero | CCorrects => fst (ct_corrects t) = []
    | CErrorAdds => fst (ct_adds t) = [] | CErrorMisses => fst (ct_misses t) = [] | _ => True
    end.
  Definition c_good r t c : Prop := compare_cell show r t c = [cvalue r c].
  Lemma c_fill_fresh r t c c' : c <> c' -> c_fresh t c -> c_fresh (compare_fill wkt r t c') c.
  Proof.
    intros N F. destruct c', c; try congruence; cbn in *; auto;
      try (destruct (cr_match_length r); exact F); try (destruct (cr_truth_length r); exact F).
  Qed.
  Lemma c_fill_good r t c : c <> CUnknown -> c_fresh t c -> c_good r (compare_fill wkt r t c) c.
  Proof.
    intros N F. unfold c_good. destruct c; cbn in *; try reflexivity; try congruence; unfold text_or; try (now rewrite F).
    - destruct (cr_match_length r); cbn; congruence.
    - destruct (cr_truth_length r); cbn; congruence.
  Qed.
  Lemma c_good_fill r t c c' : c <> c' -> c_good r t c -> c_good r (compare_fill wkt r t c') c.
  Proof.
    intros N F. unfold c_good in *. destruct c', c; try congruence; cbn in *; auto;
      try (destruct (cr_match_length r); exact F); try (destruct (cr_truth_length r); exact F).
  Qed.
  Lemma c_good_fold r cols : forall t c, ~ In c cols -> c_good r t c -> c_good r (fold_left (compare_fill wkt r) cols t) c.
  Proof.
    induction cols as [|d cols IH]; intros t c N G; cbn; [exact G|].
    apply IH; [intros I; apply N; now right|]. apply c_good_fill; [intros ->; apply N; now left|exact G].
  Qed.
  (** the columns of different names are different, apart from the unknown ones *)
  Lemma c_fold r names : NoDup names -> forall t, (forall n, In n names -> c_fresh t (compare_column n)) ->
    forall n, In n names -> compare_column n <> CUnknown -> c_good r (fold_left (compare_fill wkt r) (map compare_column names) t) (compare_column n).
  Proof.
    induction 1 as [|m names M ND IH]; intros t F n I N; [destruct I|]. cbn.
    destruct (string_dec n m) as [->|Ne].
    - apply c_good_fold; [|apply c_fill_good; [exact N|apply F; now left]].
      intros X. apply in_map_iff in X as (k & E & K). apply compare_column_inj in E; [subst; contradiction|congruence].
    - destruct I as [->|I]; [congruence|]. apply IH; [|exact I|exact N].
      intros k K. destruct (compare_columns k) as [(_ & U & _)|(_ & U)]; [|rewrite U; exact Logic.I].
      apply c_fill_fresh; [|apply F; now right].
      intros E. apply compare_column_inj in E; [subst; contradiction|exact U].
  Qed.
  Lemma compare_row_ok names r ks : NoDup names -> knowns compare_table names ks ->
    Forall2 (field_of compare_table r) ks (compare_row show names r (compare_parse zero wkt names true r)).
  Proof.
    intros ND K. unfold compare_row.
    assert (G : forall n, In n names -> compare_column n <> CUnknown ->
      compare_cell show r (compare_parse zero wkt names true r) (compare_column n) = [cvalue r (compare_column n)]).
    { intros n I N. unfold compare_parse. apply c_fold; auto. intros k _. destruct (compare_column k); exact Logic.I || reflexivity. }
    clear ND. revert G. generalize (compare_parse zero wkt names true r). intros t.
    induction K as [|n ns ks H K IH|n ns ks H K IH]; intros G; cbn; [constructor| |].
    - destruct (compare_columns n) as [(_ & N & V)|[N _]]; [|contradiction].
      rewrite (G n (or_introl eq_refl) N). cbn. constructor; [now apply V|]. apply IH. intros m I C. apply G; [now right|exact C].
    - destruct (compare_columns n) as [(N & _)|[_ N]]; [contradiction|]. rewrite N. cbn. apply IH. intros m I C. apply G; [now right|exact C].
  Qed.

  (** The same of the exporter of comparisons, as long as no column is asked for twice. *)
  Theorem C72_compare_columns : forall names ks good bad,
    names <> [] -> Forall no_comma names -> NoDup names -> knowns compare_table names ks ->
    Forall (fun x => snd (snd x) = false) bad ->
    exists rows, compare_export zero show wkt (String.concat "," names) (map (fun r => (r, (true, true))) good ++ bad)%list = written names rows /\
      Forall2 (fun r row => Forall2 (field_of compare_table r) ks row) good rows.
  Proof.
    intros names ks good bad N C ND K B. unfold compare_export. rewrite split_concat by assumption.
    rewrite (write_all names (fun x => compare_row show names (fst x) (compare_parse zero wkt names (fst (snd x)) (fst x))) (fun x => snd (snd x)));
      [|apply Forall_forall; intros x I; apply in_map_iff in I as (r & <- & _); reflexivity|assumption].
    rewrite map_map. cbn [fst snd]. eexists. split; [reflexivity|].
    clear B. induction good; constructor; auto. now apply compare_row_ok.
  Qed.
  Theorem C72_compare : forall names good bad,
    names <> [] -> NoDup names -> Forall (known compare_table) names -> Forall (fun x => snd (snd x) = false) bad ->
    exists rows, compare_export zero show wkt (String.concat "," names) (map (fun r => (r, (true, true))) good ++ bad)%list = written names rows /\
      Forall2 (fun r row => Forall2 (field_of compare_table r) names row) good rows.
  Proof.
    intros names good bad N ND K B. apply C72_compare_columns; auto using knowns_all.
    eapply Forall_impl; [|exact K]. intros n I. unfold known in I. cbn in I.
    repeat (destruct I as [<-|I]; [cbn; repeat split; congruence|]). destruct I.
  Qed.

  (** The exporter of tracks writes their ids and texts. *)
  Theorem C72_track : forall good bad, Forall (fun x => snd (snd x) = false) bad ->
    track_export (map (fun r => (r, (true, true))) good ++ bad)%list = written ["id"; "track"] (map (fun r => [fst r; snd r]) good).
  Proof.
    intros good bad B. unfold track_export. change (split_commas "id,track" "") with ["id"; "track"].
    rewrite (write_all ["id"; "track"] (fun x => track_row ["id"; "track"] (track_parse ["id"; "track"] (fst (snd x)) (fst x))) (fun x => snd (snd x)));
      [|apply Forall_forall; intros x I; apply in_map_iff in I as (r & <- & _); reflexivity|assumption].
    rewrite map_map. f_equal.
  Qed.

  (** A track that was read while the exporter was not yet active, and written when it was, has its own id and no text. *)
  Theorem C72_track_late : forall good bad, Forall (fun x => snd (snd x) = false) bad ->
    track_export (map (fun r => (fst r, (snd r, true))) good ++ bad)%list
    = written ["id"; "track"] (map (fun r => [fst (fst r); if snd r : bool then snd (fst r) else ""]) good).
  Proof.
    intros good bad B. unfold track_export. change (split_commas "id,track" "") with ["id"; "track"].
    rewrite (write_all ["id"; "track"] (fun x => track_row ["id"; "track"] (track_parse ["id"; "track"] (fst (snd x)) (fst x))) (fun x => snd (snd x)));
      [|apply Forall_forall; intros x I; apply in_map_iff in I as (r & <- & _); reflexivity|assumption].
    rewrite map_map. f_equal. apply map_ext. intros [[a b] [|]]; reflexivity.
  Qed.

  (** *** the exporter of candidates *)
  (** where an edge stands: environment, candidate and edge *)
  Definition edge_at (envs : list (list (list (@cand_edge D)))) (p : nat * nat * nat) (e : cand_edge) : Prop :=
    exists env cand, nth_error envs (fst (fst p)) = Some env /\ nth_error env (snd (fst p)) = Some cand /\ nth_error cand (snd p) = Some e.
  (** in the order of environments, then candidates, then edges *)
  Definition before (p q : nat * nat * nat) : Prop :=
    (fst (fst p) < fst (fst q) \/ fst (fst p) = fst (fst q) /\ (snd (fst p) < snd (fst q) \/ snd (fst p) = snd (fst q) /\ snd p < snd q))%nat.
  (** an edge of a result with the id of the track, the index and the edge, and whether the policy takes it *)
  Definition cand_table : table (string * (nat * nat * nat) * @cand_edge D * bool) :=
    [("id", fun x => fst (fst (fst x))); ("part_index", fun x => show_nat (fst (fst (snd (fst (fst x))))));
     ("set_index", fun x => show_nat (snd (fst (snd (fst (fst x)))))); ("candidate_index", fun x => show_nat (snd (snd (fst (fst x)))));
     ("projection", fun x => ce_projection (snd (fst x))); ("distance", fun x => show (ce_distance (snd (fst x))));
     ("from", fun x => match ce_from (snd (fst x)) with Some w => w | None => "" end);
     ("to", fun x => match ce_to (snd (fst x)) with Some w => w | None => "" end);
     ("edge_id", fun x => show_nat (ce_edge (snd (fst x)))); ("is_result", fun x => if (snd x : bool) then "1" else "0")].
  (** the policies take the edge at this place *)
  Definition taken (policies : list (list (nat * nat))) (p : nat * nat * nat) : Prop :=
    exists policy, nth_error policies (fst (fst p)) = Some policy /\ In (snd (fst p), snd p) policy.
  (** the rows of a result *)
  Definition cand_rows_of (ks : list string) (id : string) (envs : list (list (list (@cand_edge D)))) (policies : list (list (nat * nat))) (rows : list (list string)) : Prop :=
    exists places : list (nat * nat * nat), StronglySorted before places /\ (forall p, In p places <-> exists e, edge_at envs p e) /\
      Forall2 (fun p row => exists e (b : bool), edge_at envs p e /\ (b = true <-> taken policies p) /\ Forall2 (field_of cand_table (id, p, e, b)) ks row) places rows.

  Lemma ss_app {A} (R : A -> A -> Prop) l1 l2 : StronglySorted R l1 -> StronglySorted R l2 -> (forall x y, In x l1 -> In y l2 -> R x y) -> StronglySorted R (l1 ++ l2).
  Proof.
    intros S1 S2 H. induction S1 as [|a l S IH F]; cbn; [exact S2|]. constructor.
    - apply IH. intros x y X Y. apply H; [now right|exact Y].
    - apply Forall_app. split; [exact F|]. apply Forall_forall. intros y Y. apply H; [now left|exact Y].
  Qed.
  Lemma in_enum {A} (l : list A) i x : In (i, x) (enum l) <-> nth_error l i = Some x.
  Proof.
    unfold enum.
    assert (G : forall l k, In (i, x) (combine (seq k (length l)) l) <-> exists j, i = k + j /\ nth_error l j = Some x).
    { clear. induction l as [|a l IH]; intros k; cbn.
      - split; [tauto|intros ([|] & _ & H); discriminate].
      - rewrite IH. split.
        + intros [E|(j & -> & E)]; [injection E as <- <-; exists 0; now rewrite Nat.add_0_r|exists (S j); split; [lia|exact E]].
        + intros ([|j] & -> & E); [left; cbn in E; injection E as ->; now rewrite Nat.add_0_r|right; exists j; split; [lia|exact E]]. }
    rewrite G. split; [intros (j & -> & E); exact E|intros E; now exists i].
  Qed.
  Lemma enum_sorted {A B} (R : B -> B -> Prop) (f : nat * A -> list B) (l : list A) :
    (forall i x, In (i, x) (enum l) -> StronglySorted R (f (i, x))) ->
    (forall i x j y a b, (i < j)%nat -> In a (f (i, x)) -> In b (f (j, y)) -> R a b) ->
    StronglySorted R (flat_map f (enum l)).
  Proof.
    unfold enum. generalize 0 as k. induction l as [|a l IH]; intros k H1 H2; cbn; [constructor|]. apply ss_app.
    - apply H1. now left.
    - apply IH; [|exact H2]. intros i x I. apply H1. now right.
    - intros x y X Y. apply in_flat_map in Y as ([j z] & J & Y). apply (H2 k a j z); auto.
      apply in_combine_l, in_seq in J. lia.
  Qed.

  (** all edges with their places *)
  Definition spots (envs : list (list (list (@cand_edge D)))) : list (nat * nat * nat * cand_edge) :=
    flat_map (fun ie => flat_map (fun jc => map (fun ke => (fst ie, fst jc, fst ke, snd ke)) (enum (snd jc))) (enum (snd ie))) (enum envs).
  Lemma in_spots envs p e : In (p, e) (spots envs) <-> edge_at envs p e.
  Proof.
    destruct p as [[i j] k]. unfold spots, edge_at. cbn [fst snd]. rewrite in_flat_map. split.
    - intros ([i' env] & I & H). apply in_flat_map in H as ([j' cand] & J & H). apply in_map_iff in H as ([k' e'] & E & K).
      cbn [fst snd] in *. injection E as -> -> -> ->. apply in_enum in I, J, K. exists env, cand. auto.
    - intros (env & cand & I & J & K). exists (i, env). split; [now apply in_enum|]. apply in_flat_map. exists (j, cand).
      split; [now apply in_enum|]. apply in_map_iff. exists (k, e). split; [reflexivity|now apply in_enum].
  Qed.
  Lemma map_flat_map {A B C} (g : B -> C) (f : A -> list B) l : map g (flat_map f l) = flat_map (fun x => map g (f x)) l.
  Proof. induction l; cbn; [reflexivity|]. now rewrite map_app, IHl. Qed.
  Lemma spots_sorted envs : StronglySorted before (map fst (spots envs)).
  Proof.
    unfold spots. rewrite map_flat_map. apply enum_sorted.
    - intros i env _. rewrite map_flat_map. apply enum_sorted.
      + intros j cand _. rewrite map_map. cbn [fst snd].
        assert (E : map (fun ke : nat * @cand_edge D => (i, j, fst ke)) (enum cand) = flat_map (fun ke => [(i, j, fst ke)]) (enum cand))
          by (induction (enum cand); cbn; congruence).
        rewrite E. apply enum_sorted; [repeat constructor|].
        intros k x k' y a b L [<-|[]] [<-|[]]. right. cbn. auto.
      + intros j x j' y a b L A B. apply in_map_iff in A as (u & <- & A), B as (v & <- & B). apply in_map_iff in A as (? & <- & _), B as (? & <- & _). right. cbn. auto.
    - intros i x i' y a b L A B. apply in_map_iff in A as (u & <- & A), B as (v & <- & B).
      apply in_flat_map in A as (? & _ & A), B as (? & _ & B). apply in_map_iff in A as (? & <- & _), B as (? & <- & _). left. exact L.
  Qed.

  Lemma chosen_in policy j k : chosen_edge policy j k = true <-> In (j, k) policy.
  Proof.
    unfold chosen_edge.
    assert (G : forall l m, In k (fold_left (fun m x => fun j => if (j =? fst x)%nat then snd x :: m j else m j) l m j) <-> In k (m j) \/ In (j, k) l).
    { induction l as [|[a b] l IH]; intros m; cbn [fold_left In]; [tauto|]. rewrite IH. cbn [fst snd].
      destruct (Nat.eqb_spec j a) as [->|N]; cbn [In].
      - split; [intros [[->|H]|H]; auto|intros [H|[E|H]]; auto; injection E as ->; auto].
      - split; [intros [H|H]; auto|intros [H|[E|H]]; auto; congruence]. }
    rewrite existsb_exists. setoid_rewrite Nat.eqb_eq. split.
    - intros (x & H & <-). apply G in H as [[]|H]. exact H.
    - intros H. exists k. split; [|reflexivity]. apply G. now right.
  Qed.

  Definition dvalue (id : string) (i j k : nat) (e : @cand_edge D) (b : bool) (c : dcol) : string :=
    match c with
    | DId => id | DPart => show_nat i | DSet => show_nat j | DCandidate => show_nat k | DProjection => ce_projection e | DDistance => show (ce_distance e)
    | DFrom => match ce_from e with Some w => w | None => "" end | DTo => match ce_to e with Some w => w | None => "" end
    | DEdge => show_nat (ce_edge e) | DResult => if b then "1" else "0" | DUnknown => ""
    end.
  Lemma cand_columns n : known cand_table n /\ cand_column n <> DUnknown /\
      (forall id i j k e b v, v = dvalue id i j k e b (cand_column n) -> field_of cand_table (id, (i, j, k), e, b) n v) /\
      (cand_column n = DFrom -> n = "from") /\ (cand_column n = DTo -> n = "to")
    \/ ~ known cand_table n /\ cand_column n = DUnknown.
  Proof.
    unfold cand_column.
    repeat (match goal with |- context [?a =? ?b] =>
      destruct (String.eqb_spec a b) as [->|?];
      [left; split; [cbn; tauto|split; [discriminate|split; [intros id i j k e b' v ->; eexists; split; [cbn; eauto 16|reflexivity]|split; congruence]]]|] end).
    right. split; [|reflexivity]. intros K. cbn in K. repeat (destruct K as [K|K]; [congruence|]). exact K.
  Qed.

  Definition d_good id i j k e b t c : Prop := cand_cell show show_nat id t c = [dvalue id i j k e b c].
  Definition d_inv i j k (e : @cand_edge D) (t : @cand_result D) : Prop :=
    cd_part t = i /\ cd_set t = j /\ cd_cand t = k /\ cd_distance t = ce_distance e /\ cd_edge t = ce_edge e.
  Lemma d_fold id i j k e policy cols : (In DFrom cols -> ce_from e <> None) -> (In DTo cols -> ce_to e <> None) ->
    forall t, d_inv i j k e t -> exists t', foldO (cand_fill policy j k e) cols t = Ok t' /\ d_inv i j k e t' /\
      forall c, c <> DUnknown -> In c cols \/ d_good id i j k e (chosen_edge policy j k) t c -> d_good id i j k e (chosen_edge policy j k) t' c.
  Proof.
    induction cols as [|d cols IH]; intros F T t I.
    - exists t. split; [reflexivity|split; [exact I|]]. intros c _ [[]|H]; exact H.
    - assert (S : exists t1, cand_fill policy j k e t d = Ok t1 /\ d_inv i j k e t1 /\ (d <> DUnknown -> d_good id i j k e (chosen_edge policy j k) t1 d) /\
        forall c, d_good id i j k e (chosen_edge policy j k) t c -> d_good id i j k e (chosen_edge policy j k) t1 c).
      { destruct I as (I1 & I2 & I3 & I4 & I5).
        destruct d; cbn [cand_fill];
          try (eexists; split; [reflexivity|split; [repeat split; assumption|split; [intros N; unfold d_good; cbn; congruence|
            intros c G; unfold d_good in *; destruct c; cbn in *; congruence]]]).
        - destruct (ce_from e) as [w|] eqn:E; [|elim (F (or_introl eq_refl) eq_refl)]. cbn [derefO].
          eexists; split; [reflexivity|split; [repeat split; assumption|split; [intros _; unfold d_good; cbn; now rewrite E|
            intros c G; unfold d_good in *; destruct c; cbn in *; try rewrite E; congruence]]].
        - destruct (ce_to e) as [w|] eqn:E; [|elim (T (or_introl eq_refl) eq_refl)]. cbn [derefO].
          eexists; split; [reflexivity|split; [repeat split; assumption|split; [intros _; unfold d_good; cbn; now rewrite E|
            intros c G; unfold d_good in *; destruct c; cbn in *; try rewrite E; congruence]]]. }
      destruct S as (t1 & E & I1 & G1 & G2). cbn [foldO]. rewrite E. cbn [bindO].
      destruct (IH (fun H => F (or_intror H)) (fun H => T (or_intror H)) t1 I1) as (t' & E' & I' & G').
      exists t'. split; [exact E'|split; [exact I'|]]. intros c N H. apply G'; [exact N|].
      destruct H as [[->|H]|H]; auto.
  Qed.

  (** no pointer that is asked for is null *)
  Definition pointed (names : list string) (e : @cand_edge D) : Prop := (In "from" names -> ce_from e <> None) /\ (In "to" names -> ce_to e <> None).
  Lemma cand_make_ok names policy i j k e : pointed names e -> exists t, cand_make names policy i j k e = Ok t /\
    forall id ks, knowns cand_table names ks -> Forall2 (field_of cand_table (id, (i, j, k), e, chosen_edge policy j k)) ks (flat_map (cand_cell show show_nat id t) (map cand_column names)).
  Proof.
    intros [F T].
    assert (F' : In DFrom (map cand_column names) -> ce_from e <> None).
    { intros H. apply in_map_iff in H as (n & E & N). destruct (cand_columns n) as [(_ & _ & _ & X & _)|(_ & X)]; [|congruence].
      rewrite (X E) in N. auto. }
    assert (T' : In DTo (map cand_column names) -> ce_to e <> None).
    { intros H. apply in_map_iff in H as (n & E & N). destruct (cand_columns n) as [(_ & _ & _ & _ & X)|(_ & X)]; [|congruence].
      rewrite (X E) in N. auto. }
    set (t0 := mkCand i j k "" "" "" (ce_distance e) (ce_edge e) false).
    assert (I0 : d_inv i j k e t0) by (repeat split).
    destruct (d_fold "" i j k e policy _ F' T' t0 I0) as (t & E & _ & _).
    exists t. split; [exact E|]. intros id ks K.
    destruct (d_fold id i j k e policy _ F' T' t0 I0) as (t' & E' & _ & G). assert (t' = t) by congruence. subst t'.
    assert (G' : forall n, In n names -> cand_column n <> DUnknown -> d_good id i j k e (chosen_edge policy j k) t (cand_column n))
      by (intros n I N; apply G; [exact N|left; now apply in_map]).
    clear F T F' T' E E' G. revert G'. unfold d_good.
    induction K as [|n ns ks H K IH|n ns ks H K IH]; intros G; cbn; [constructor| |].
    - destruct (cand_columns n) as [(_ & N & V & _)|[N _]]; [|contradiction].
      rewrite (G n (or_introl eq_refl) N). cbn. constructor; [now apply V|]. apply IH. intros m I C. apply G; [now right|exact C].
    - destruct (cand_columns n) as [(N & _)|[_ N]]; [contradiction|]. rewrite N. cbn. apply IH. intros m I C. apply G; [now right|exact C].
  Qed.

  Lemma foldO_flat {A B} (F : list B -> A -> outcome (list B)) (P : A -> list B -> Prop) (l : list A) :
    (forall x, In x l -> exists bs, P x bs /\ forall acc, F acc x = Ok (acc ++ bs)%list) ->
    exists bss, Forall2 P l bss /\ forall acc, foldO F l acc = Ok (acc ++ concat bss)%list.
  Proof.
    induction l as [|x l IH]; intros H.
    - exists []. split; [constructor|]. intros acc. cbn. now rewrite app_nil_r.
    - destruct (H x (or_introl eq_refl)) as (bs & P1 & E1). destruct (IH (fun y Y => H y (or_intror Y))) as (bss & P2 & E2).
      exists (bs :: bss). split; [now constructor|]. intros acc. cbn. rewrite E1. cbn. now rewrite E2, app_assoc.
  Qed.
  Lemma forall2_flat {A B C} (R : B -> C -> Prop) (f : A -> list B) l css : Forall2 (fun x cs => Forall2 R (f x) cs) l css -> Forall2 R (flat_map f l) (concat css).
  Proof. induction 1; cbn; [constructor|]. now apply Forall2_app. Qed.

  (** the task of one environment *)
  Definition made names policies (s : nat * nat * nat * @cand_edge D) (t : @cand_result D) : Prop :=
    exists policy, nth_error policies (fst (fst (fst s))) = Some policy /\
      cand_make names policy (fst (fst (fst s))) (snd (fst (fst s))) (snd (fst s)) (snd s) = Ok t.
  Lemma env_parse names policy policies i (env : list (list (@cand_edge D))) :
    nth_error policies i = Some policy -> (forall cand e, In cand env -> In e cand -> pointed names e) ->
    exists ts, Forall2 (made names policies) (flat_map (fun jc => map (fun ke => (i, fst jc, fst ke, snd ke)) (enum (snd jc))) (enum env)) ts /\ forall acc,
      foldO (fun results jc =>
            foldO (fun results ke => bindO (cand_make names policy i (fst jc) (fst ke) (snd ke)) (fun _ => results) (fun t => Ok (results ++ [t])%list))
              (enum (snd jc)) results) (enum env) acc = Ok (acc ++ ts)%list.
  Proof.
    intros P H.
    destruct (foldO_flat (fun results jc => foldO (fun results ke => bindO (cand_make names policy i (fst jc) (fst ke) (snd ke)) (fun _ => results)
        (fun t => Ok (results ++ [t])%list)) (enum (snd jc)) results)
      (fun jc ts => Forall2 (made names policies) (map (fun ke => (i, fst jc, fst ke, snd ke)) (enum (snd jc))) ts) (enum env)) as (tss & F & E).
    - intros [j cand] J. apply in_enum, nth_error_In in J. cbn [fst snd].
      destruct (foldO_flat (fun results ke => bindO (cand_make names policy i j (fst ke) (snd ke)) (fun _ => results) (fun t => Ok (results ++ [t])%list))
        (fun ke ts => Forall2 (made names policies) [(i, j, fst ke, snd ke)] ts) (enum cand)) as (tss & F & E).
      + intros [k e] K. apply in_enum, nth_error_In in K. cbn [fst snd].
        destruct (cand_make_ok names policy i j k e (H _ _ J K)) as (t & E & _). exists [t]. split.
        * constructor; [|constructor]. exists policy. cbn. auto.
        * intros acc. now rewrite E.
      + exists (concat tss). split; [|exact E]. apply forall2_flat in F.
        assert (X : forall l : list (nat * @cand_edge D), flat_map (fun ke => [(i, j, fst ke, snd ke)]) l = map (fun ke => (i, j, fst ke, snd ke)) l)
          by (induction l; cbn; congruence).
        now rewrite X in F.
    - exists (concat tss). split; [|exact E]. now apply forall2_flat in F.
  Qed.

  Lemma cand_parse_ok names (envs : list (list (list (@cand_edge D)))) policies :
    (forall p e, edge_at envs p e -> pointed names e) -> length envs <= length policies ->
    exists ts, cand_parse names envs policies = Ok ts /\ Forall2 (made names policies) (spots envs) ts.
  Proof.
    intros H L. unfold cand_parse, spots.
    match goal with |- context [foldO ?F (enum envs) []] => destruct (foldO_flat F
      (fun ie ts => Forall2 (made names policies) (flat_map (fun jc => map (fun ke => (fst ie, fst jc, fst ke, snd ke)) (enum (snd jc))) (enum (snd ie))) ts) (enum envs)) as (tss & F2 & E) end.
    - intros [i env] I. apply in_enum in I. cbn [fst snd]. destruct (nth_error policies i) as [policy|] eqn:P.
      2:{ apply nth_error_None in P. assert (i < length envs) by (apply nth_error_Some; congruence). lia. }
      apply env_parse; [exact P|]. intros cand e C X. apply In_nth_error in C as [j C], X as [k X].
      apply (H (i, j, k)). exists env, cand. auto.
    - exists (concat tss). split; [apply E|]. now apply forall2_flat in F2.
  Qed.
  Lemma foldO_throw {A B} (F : A -> B -> outcome A) l1 x l2 acc acc1 acc2 : foldO F l1 acc = Ok acc1 -> F acc1 x = Throw acc2 ->
    foldO F (l1 ++ x :: l2)%list acc = Throw acc2.
  Proof.
    revert acc. induction l1 as [|y l1 IH]; intros acc; cbn; [intros E1 E2; injection E1 as ->; now rewrite E2|].
    destruct (F acc y); cbn; try discriminate. apply IH.
  Qed.
  Lemma cand_parse_throw names (envs : list (list (list (@cand_edge D)))) policies :
    (forall p e, edge_at envs p e -> pointed names e) -> length policies < length envs -> exists ts, cand_parse names envs policies = Throw ts.
  Proof.
    intros H L. unfold cand_parse.
    set (n := length policies) in *.
    destruct (nth_error envs n) as [env|] eqn:N; [|apply nth_error_None in N; lia].
    destruct (nth_error_split _ _ N) as (l1 & l2 & E & L1).
    assert (EN : enum envs = (enum l1 ++ (n, env) :: combine (seq (S n) (length l2)) l2)%list).
    { unfold enum. rewrite E, app_length, seq_app, L1. cbn [length seq].
      assert (C : forall (a b : list nat) (c d : list (list (list (@cand_edge D)))), length a = length c -> (combine (a ++ b) (c ++ d) = combine a c ++ combine b d)%list)
        by (induction a as [|? ? IH]; intros b [|? c] d X; cbn in *; try discriminate; [reflexivity|]; now rewrite IH by lia).
      rewrite C by (rewrite seq_length; auto). reflexivity. }
    rewrite EN.
    match goal with |- context [foldO ?F] => destruct (foldO_flat F
      (fun ie ts => True) (enum l1)) as (tss & _ & X) end.
    - intros [i env'] I. apply in_enum in I. cbn [fst snd]. destruct (nth_error policies i) as [policy|] eqn:P.
      2:{ apply nth_error_None in P. assert (i < length l1) by (apply nth_error_Some; congruence). unfold n in *. lia. }
      destruct (env_parse names policy policies i env') as (ts & _ & X).
      + exact P.
      + intros cand e C Y. apply In_nth_error in C as [j C], Y as [k Y].
        apply (H (i, j, k)). exists env', cand. cbn. split; [|auto]. rewrite E, nth_error_app1; [exact I|]. apply nth_error_Some. congruence.
      + exists ts. split; [exact Logic.I|exact X].
    - eexists. eapply foldO_throw; [apply X|]. cbn [fst snd]. assert (P : nth_error policies n = None) by (apply nth_error_None; unfold n; lia).
      rewrite P. reflexivity.
  Qed.

  Lemma cand_rows_ok names ks id envs policies ts : (forall p e, edge_at envs p e -> pointed names e) -> knowns cand_table names ks ->
    Forall2 (made names policies) (spots envs) ts -> cand_rows_of ks id envs policies (cand_rows show show_nat names id ts).
  Proof.
    intros H K F. exists (map fst (spots envs)). split; [apply spots_sorted|split].
    - intros p. rewrite in_map_iff. split; [intros ([p' e] & <- & I); exists e; now apply in_spots|intros (e & I); exists (p, e); split; [reflexivity|now apply in_spots]].
    - assert (S : forall s, In s (spots envs) -> edge_at envs (fst s) (snd s)) by (intros [p e] I; now apply in_spots).
      revert S. generalize (spots envs) F. clear F. intros l F. unfold cand_rows. induction F as [|[[[i j] k] e] t l ts (policy & P & M) F IH]; intros S; cbn [map]; constructor.
      + cbn [fst snd] in *. pose proof (S _ (or_introl eq_refl)) as At. cbn [fst snd] in At.
        exists e, (chosen_edge policy j k). split; [exact At|split].
        * rewrite chosen_in. unfold taken. cbn [fst snd]. split; [intros X; eauto|intros (q & Q & X); congruence].
        * destruct (cand_make_ok names policy i j k e (H _ _ At)) as (t' & E & G). assert (t' = t) by congruence. subst. now apply G.
      + apply IH. intros s I. apply S. now right.
  Qed.

  Lemma write_rows names rows f : f_header f = true -> fold_left (write_result names true) rows f = mkFile true (f_rows f ++ rows)%list.
  Proof.
    revert f. induction rows as [|r rows IH]; intros [h rs] H; cbn in *; subst; [now rewrite app_nil_r|].
    rewrite IH by reflexivity. cbn. now rewrite <- app_assoc.
  Qed.
  Lemma write_new names rows : f_rows (fold_left (write_result names true) rows new_file) = written names rows.
  Proof. destruct rows as [|r rows]; [reflexivity|]. cbn [fold_left]. rewrite write_rows by reflexivity. reflexivity. Qed.

  (** The exporter of candidates: without null pointers among those it is asked to follow, and with a policy for every environment
      of every result, the file has one header, if there is any row at all, and then for every result in order one row for every
      edge of every candidate of every environment, once each, in this order; a row has the values of its columns, and the column
      [is_result] is 1 exactly for the edges in the policy of their environment.  If a result has fewer policies than environments,
      the exporter throws. *)
  Theorem C72_candidates : forall names ks rs,
    names <> [] -> Forall no_comma names -> knowns cand_table names ks ->
    (forall r p e, In r rs -> edge_at (fst (snd r)) p e -> pointed names e) ->
    ((forall r, In r rs -> length (fst (snd r)) <= length (snd (snd r))) ->
      exists blocks, cand_export show show_nat (String.concat "," names) rs = Ok (written names (concat blocks)) /\
        Forall2 (fun r rows => cand_rows_of ks (fst r) (fst (snd r)) (snd (snd r)) rows) rs blocks) /\
    ((exists r, In r rs /\ length (snd (snd r)) < length (fst (snd r))) ->
      exists rows, cand_export show show_nat (String.concat "," names) rs = Throw rows).
  Proof.
    intros names ks rs N C K H. unfold cand_export. rewrite split_concat by assumption.
    set (F := fun f r => _).
    assert (G : forall good, (forall r, In r good -> In r rs) -> (forall r, In r good -> length (fst (snd r)) <= length (snd (snd r))) -> forall f,
      exists blocks, foldO F good f = Ok (fold_left (write_result names true) (concat blocks) f) /\
        Forall2 (fun r rows => cand_rows_of ks (fst r) (fst (snd r)) (snd (snd r)) rows) good blocks).
    { induction good as [|r good IH]; intros I L f; [exists []; split; [reflexivity|constructor]|].
      destruct (cand_parse_ok names (fst (snd r)) (snd (snd r))) as (ts & E & M); [intros p e; apply H, I; now left|apply L; now left|].
      destruct (IH (fun x X => I x (or_intror X)) (fun x X => L x (or_intror X)) (fold_left (write_result names true) (cand_rows show show_nat names (fst r) ts) f))
        as (blocks & E' & B).
      exists (cand_rows show show_nat names (fst r) ts :: blocks). split.
      - cbn [foldO]. unfold F at 1. rewrite E. cbn [bindO concat]. rewrite fold_left_app. exact E'.
      - constructor; [|exact B]. apply cand_rows_ok; auto. intros p e. apply H, I. now left. }
    split.
    - intros L. destruct (G rs (fun r X => X) L new_file) as (blocks & E & B). exists blocks. rewrite E. cbn [bindO]. rewrite write_new. auto.
    - intros S.
      assert (X : exists l1 r l2, rs = (l1 ++ r :: l2)%list /\ length (snd (snd r)) < length (fst (snd r)) /\ forall x, In x l1 -> length (fst (snd x)) <= length (snd (snd x))).
      { clear -S. induction rs as [|x rs IH]; [destruct S as (? & [] & _)|].
        destruct (le_lt_dec (length (fst (snd x))) (length (snd (snd x)))) as [Le|Lt].
        - destruct IH as (l1 & r & l2 & -> & R & A); [destruct S as (r & [->|I] & R); [lia|eauto]|].
          exists (x :: l1), r, l2. split; [reflexivity|split; [exact R|]]. intros y [<-|Y]; auto.
        - exists [], x, rs. split; [reflexivity|split; [exact Lt|intros y []]]. }
      destruct X as (l1 & r & l2 & E & R & A).
      destruct (G l1 (fun x X => eq_ind_r (fun l => In x l) (in_or_app _ _ _ (or_introl X)) E) A new_file) as (blocks & E1 & _).
      destruct (cand_parse_throw names (fst (snd r)) (snd (snd r))) as (ts & T); [intros p e; apply H; rewrite E; apply in_or_app; right; now left|exact R|].
      rewrite E. erewrite foldO_throw; [cbn [bindO]; eexists; reflexivity|exact E1|]. unfold F. rewrite T. reflexivity.
  Qed.
End ExportProps.

(** *** Examples *)
Definition digits (n : nat) : string := match n with 0 => "0" | 1 => "1" | 2 => "2" | 3 => "3" | 4 => "4" | 5 => "5" | 6 => "6" | 7 => "7" | 8 => "8" | 9 => "9" | _ => "many" end.
Definition demo_match : @match_result nat := mkMr "t1" "T" "P" "M" [4; 7] false 3 (Some 9) None (Some 8).
Definition demo_match2 : @match_result nat := mkMr "t2" "T2" "P2" "M2" [] true 5 None None None.

Example C72_match_example :
  match_export 0 digits digits "edge_ids,id,aborted,match,track_length,prepared_length" [(demo_match, (true, true)); (demo_match2, (true, true)); (demo_match, (true, false))] =
  [["edge_ids"; "id"; "aborted"; "match"; "track_length"; "prepared_length"];
   ["4,7"; "t1"; "no"; "M"; "9"; "0"]; [""; "t2"; "yes"; "M2"; "0"; "0"]] /\
  Forall (known (match_table 0 digits digits)) ["edge_ids"; "id"; "aborted"; "match"; "track_length"; "prepared_length"] /\
  Forall (fun x => snd (snd x) = false) [(demo_match, (true, false))].
Proof.
  split; [vm_compute; reflexivity|split].
  - repeat (constructor; [unfold known; cbn; tauto|]). constructor.
  - repeat constructor.
Qed.

(** A column with a name that the exporter does not know is in the header and in no row, so that the fields after it stand below
    names of other columns. *)
Theorem C72_unknown_column_refuted : exists columns (r : @match_result nat) row,
  match_export 0 digits digits columns [(r, (true, true))] = [["id"; "length"; "duration"; "match"]; row] /\
  nth_error row 1 = Some (digits (mr_duration r)) /\ nth_error row 2 = Some (mr_match r) /\ nth_error row 3 = None /\ mr_match r <> digits (mr_duration r).
Proof.
  exists "id,length,duration,match", demo_match. eexists. split; [vm_compute; reflexivity|]. repeat split; try reflexivity. discriminate.
Qed.
Theorem C72_blank_column_refuted : exists columns (r : @match_result nat), match_export 0 digits digits columns [(r, (true, true))] = [["id"; " match"]; [mr_id r]].
Proof. exists "id, match", demo_match. reflexivity. Qed.

Definition seg_text (l : list nat) : string := String.concat ";" (map digits l).
Definition demo_compare : @compare_result nat nat := mkCr "t1" "M" "G" [1; 2] [] [3] 1 (Some 4) None 5 6 7 8 9.
Example C72_compare_example :
  compare_export 0 digits seg_text "id,corrects,error_adds,error_misses,match_length,correct" [(demo_compare, (true, true))] =
  [["id"; "corrects"; "error_adds"; "error_misses"; "match_length"; "correct"]; ["t1"; "1;2"; ""; "3"; "4"; "7"]] /\
  NoDup ["id"; "corrects"; "error_adds"; "error_misses"; "match_length"; "correct"] /\
  Forall (known (compare_table 0 digits seg_text)) ["id"; "corrects"; "error_adds"; "error_misses"; "match_length"; "correct"].
Proof.
  split; [vm_compute; reflexivity|split].
  - repeat (constructor; [cbn; intuition congruence|]). constructor.
  - repeat (constructor; [unfold known; cbn; tauto|]). constructor.
Qed.
(** Asked for twice, the column of the correct segments has every segment twice, in both fields. *)
Theorem C72_repeated_column_refuted : exists columns (r : @compare_result nat nat), cr_corrects r = [1; 2] /\
  compare_export 0 digits seg_text columns [(r, (true, true))] = [["corrects"; "corrects"]; [seg_text [1; 2; 1; 2]; seg_text [1; 2; 1; 2]]].
Proof. exists "corrects,corrects", demo_compare. split; reflexivity. Qed.

Example C72_track_late_example : track_export [(("t1", "LINESTRING(1 2,3 4)"), (false, true)); (("t2", "POINT(0 0)"), (true, true))] = [["id"; "track"]; ["t1"; ""]; ["t2"; "POINT(0 0)"]].
Proof. reflexivity. Qed.
Example C72_track_example : track_export [(("t1", "LINESTRING(1 2,3 4)"), (true, true))] = [["id"; "track"]; ["t1"; "LINESTRING(1 2,3 4)"]] /\ track_export [] = [].
Proof. split; reflexivity. Qed.

Definition demo_envs : list (list (list (@cand_edge nat))) :=
  [[[mkCe "p" (Some "f") (Some "g") 1 7; mkCe "q" (Some "f") (Some "g") 2 8]; [mkCe "r" (Some "f") (Some "g") 3 9]]; [[mkCe "s" (Some "f") (Some "g") 4 7]]].
Example C72_candidates_example :
  cand_export digits digits "id,part_index,set_index,candidate_index,projection,edge_id,from,is_result" [("t1", (demo_envs, [[(0, 1); (1, 0)]; []]))] =
  Ok [["id"; "part_index"; "set_index"; "candidate_index"; "projection"; "edge_id"; "from"; "is_result"];
      ["t1"; "0"; "0"; "0"; "p"; "7"; "f"; "0"]; ["t1"; "0"; "0"; "1"; "q"; "8"; "f"; "1"]; ["t1"; "0"; "1"; "0"; "r"; "9"; "f"; "1"];
      ["t1"; "1"; "0"; "0"; "s"; "7"; "f"; "0"]] /\
  (forall p e, edge_at demo_envs p e -> pointed ["id"; "part_index"; "set_index"; "candidate_index"; "projection"; "edge_id"; "from"; "is_result"] e) /\
  length demo_envs <= length [[(0, 1); (1, 0)]; []] /\
  cand_export digits digits "id" [("t1", (demo_envs, [[(0, 1); (1, 0)]]))] = Throw [].
Proof.
  split; [vm_compute; reflexivity|split; [|split; [cbn; lia|vm_compute; reflexivity]]].
  intros p e H. apply in_spots in H. cbn in H. repeat (destruct H as [H|H]; [injection H as <- <-; split; discriminate|]). destruct H.
Qed.

Print Assumptions C72_match_columns.
Print Assumptions C72_match.
Print Assumptions C72_compare_columns.
Print Assumptions C72_compare.
Print Assumptions C72_track.
Print Assumptions C72_track_late.
Print Assumptions C72_candidates.
Print Assumptions C72_unknown_column_refuted.
Print Assumptions C72_blank_column_refuted.
Print Assumptions C72_repeated_column_refuted.
