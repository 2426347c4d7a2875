(** C92: from options to settings, and reading the text of rows with them. *)
From Coq Require Import ZArith QArith NArith Ascii String Lia Sorting.Sorted.
From Verif Require Import Base ListAux Srs Options OptionsProofs OptionsProps Csv CsvProofs CsvProps Utils Settings Work WorkProps.
Local Open Scope nat_scope.
Local Open Scope string_scope.
Local Open Scope list_scope.

(** ** Claims *)
(** the value of an option: given or by default; [blank] if it has none *)
Definition asked (m : vm) (n : string) (blank : value) : value := match m n with Empty => blank | Defaulted v | Given v => v end.
(** options that arrive as they are *)
Definition match_table : list (string * (match_settings -> value)) :=
  [("quiet", fun s => VB (s_quiet s)); ("export-edges", fun s => VB (s_export_edges s)); ("join-merges", fun s => VB (s_join_merges s));
   ("output", fun s => VS (s_output s)); ("filename", fun s => VS (s_filename s)); ("candidates", fun s => VS (s_export_candidates s)); ("console", fun s => VB (s_console s));
   ("max-time", fun s => VQ (s_max_time s)); ("filter-duplicates", fun s => VB (s_filter_duplicates s)); ("simplify-track", fun s => VB (s_simplify_track s));
   ("simplify-track-distance-tolerance", fun s => VQ (s_simplify_tolerance s)); ("median-merge", fun s => VB (s_median_merge s));
   ("median-merge-distance-tolerance", fun s => VQ (s_median_tolerance s)); ("adaptive-median-merge", fun s => VB (s_adaptive_median_merge s)); ("a-star", fun s => VB (s_a_star s));
   ("routing-max-distance-factor", fun s => VQ (s_routing_factor s)); ("candidate-adoption-siblings", fun s => VB (s_adoption_siblings s));
   ("candidate-adoption-nearby", fun s => VB (s_adoption_nearby s)); ("candidate-adoption-reverse", fun s => VB (s_adoption_reverse s)); ("radius", fun s => VQ (s_radius s));
   ("adaptive-radius", fun s => VB (s_adaptive_radius s)); ("skip-errors", fun s => VB (s_skip_errors s)); ("state-size", fun s => VZ (s_state_size s)); ("discount", fun s => VQ (s_discount s));
   ("mdp-distance-factor", fun s => VQ (s_mdp_distance s)); ("mdp-length-factor", fun s => VQ (s_mdp_length s)); ("mdp-azimuth-factor", fun s => VQ (s_mdp_azimuth s));
   ("mdp-direction-factor", fun s => VQ (s_mdp_direction s)); ("mdp-turn-factor", fun s => VQ (s_mdp_turn s));
   ("hmm-distance-factor", fun s => VQ (s_hmm_distance s)); ("hmm-length-factor", fun s => VQ (s_hmm_length s)); ("hmm-azimuth-factor", fun s => VQ (s_hmm_azimuth s));
   ("hmm-direction-factor", fun s => VQ (s_hmm_direction s)); ("hmm-turn-factor", fun s => VQ (s_hmm_turn s));
   ("threshold", fun s => VQ (s_threshold s)); ("learning-rate", fun s => VQ (s_learning_rate s)); ("epsilon", fun s => VQ (s_epsilon s));
   ("early-stop-factor", fun s => VQ (s_early_stop s)); ("max-episodes", fun s => VZ (s_episodes s))].
(** options that are corrected on the way *)
Definition corrected : list string := ["within-edge-turns"; "candidate-search"; "radius-upper-limit"; "radius-lower-limit"; "k-nearest"; "model"].
Definition compare_table : list (string * (compare_settings -> value)) :=
  [("quiet", fun s => VB (k_quiet s)); ("output", fun s => VS (k_output s)); ("filename", fun s => VS (k_filename s)); ("console", fun s => VB (k_console s));
   ("ignore-non-existent", fun s => VB (k_ignore s)); ("compare-simplify-distance-tolerance", fun s => VQ (k_simplify s));
   ("compare-simplify-reverse-tolerance", fun s => VQ (k_reverse s)); ("compare-adoption-distance-tolerance", fun s => VQ (k_adoption s));
   ("compare-split-distance-tolerance", fun s => VQ (k_split s)); ("compare-split-direction-tolerance", fun s => VQ (k_direction s))].
(** CSV options: about everything but the time, and about the time *)
Definition csv_table : list (string * (csv_settings -> value)) :=
  [("delimiter", fun s => VS (s_delimiter s)); ("grouped", fun s => VB (s_grouped s)); ("skip-lines", fun s => VZ (s_skip_lines s)); ("no-header", fun s => VB (s_no_header s));
   ("no-id", fun s => VB (s_no_id s)); ("no-id-whole-file", fun s => VB (s_no_id_whole_file s)); ("id", fun s => VL (s_ids s)); ("id-aggregator", fun s => VS (s_id_aggregator s));
   ("wkt", fun s => VB (s_wkt s)); ("x", fun s => VS (s_x s)); ("y", fun s => VS (s_y s)); ("geometry", fun s => VS (s_geometry s))].
Definition time_table : list (string * (csv_settings -> value)) :=
  [("time", fun s => VL (s_times s)); ("time-aggregator", fun s => VS (s_time_aggregator s)); ("time-format", fun s => VS (s_time_format s)); ("no-parse-time", fun s => VB (s_no_parse_time s))].

Section Known.
  Variables (ds : list desc) (md : mode) (cli : source) (config : string -> option source) (m : vm).
  Hypothesis names : NoDup (map d_name ds).
  Hypothesis with_config : has_config ds.
  Hypothesis parsed : parse ds md cli config = Ok m.

  Definition known (n : string) (k : kind) : Prop :=
    match find_desc ds n with Some d => d_kind d = k /\ match d_default d with Some v => kind_of v = k | None => True end | None => False end.
  Lemma asked_kind n k b : known n k -> kind_of b = k -> kind_of (asked m n b) = k.
  Proof.
    unfold known. destruct (find_desc ds n) as [d|] eqn:F; [|intros []]. intros [K D] B.
    pose proof (C78_kinds ds md cli config m n d names with_config parsed F) as H. unfold asked. destruct (m n); [exact B| |congruence].
    rewrite H in D. exact D.
  Qed.
  Lemma asked_flag n b : known n KB -> asked m n (VB b) = VB (match m n with Empty => b | _ => flag m n end).
  Proof. intros K. pose proof (asked_kind n KB (VB b) K eq_refl) as H. unfold asked, flag in *. destruct (m n) as [|v|v]; [reflexivity| |]; destruct v; try discriminate H; reflexivity. Qed.
  Lemma asked_str n : known n KS -> asked m n (VS "") = VS (str m n).
  Proof. intros K. pose proof (asked_kind n KS (VS "") K eq_refl) as H. unfold asked, str in *. destruct (m n) as [|v|v]; [reflexivity| |]; destruct v; try discriminate H; reflexivity. Qed.
  Lemma asked_strs n : known n KL -> asked m n (VL []) = VL (strs m n).
  Proof. intros K. pose proof (asked_kind n KL (VL []) K eq_refl) as H. unfold asked, strs in *. destruct (m n) as [|v|v]; [reflexivity| |]; destruct v; try discriminate H; reflexivity. Qed.
  Lemma asked_int n z : known n KZ -> asked m n (VZ z) = VZ (int m n z).
  Proof. intros K. pose proof (asked_kind n KZ (VZ z) K eq_refl) as H. unfold asked, int in *. destruct (m n) as [|v|v]; [reflexivity| |]; destruct v; try discriminate H; reflexivity. Qed.
  Lemma asked_num n : known n KQ -> asked m n (VQ 0) = VQ (num m n).
  Proof. intros K. pose proof (asked_kind n KQ (VQ 0) K eq_refl) as H. unfold asked, num in *. destruct (m n) as [|v|v]; [reflexivity| |]; destruct v; try discriminate H; reflexivity. Qed.
  Lemma asked_bool n : known n KB -> asked m n (VB false) = VB (flag m n).
  Proof. intros K. rewrite (asked_flag n false K). unfold flag. destruct (m n); reflexivity. Qed.
  (** an option with a default value has a value *)
  Lemma asked_some n d b b' : find_desc ds n = Some d -> d_default d <> None -> asked m n b = asked m n b'.
  Proof. intros F D. pose proof (C78_kinds ds md cli config m n d names with_config parsed F) as H. unfold asked. destruct (m n); congruence. Qed.
End Known.
Definition blank (k : kind) : value := match k with KB => VB false | KS => VS "" | KL => VL [] | KZ => VZ 0 | KQ => VQ 0 end.

Ltac arrive N C E :=
  match goal with |- VB ?x = _ => symmetry; apply (asked_bool _ _ _ _ _ N C E) | |- VS ?x = _ => symmetry; apply (asked_str _ _ _ _ _ N C E)
  | |- VL ?x = _ => symmetry; apply (asked_strs _ _ _ _ _ N C E) | |- VQ ?x = _ => symmetry; apply (asked_num _ _ _ _ _ N C E)
  | |- VZ (int ?m ?n ?z) = asked ?m ?n _ =>
      rewrite <- (asked_int _ _ _ _ _ N C E n z); [eapply (asked_some _ _ _ _ _ N C E); [reflexivity|discriminate]|] end; vm_compute; auto.

Ltac find_it := (left; reflexivity) + (right; find_it).
Section Arrive.
  Variables (is_directory : string -> bool) (latlong : Z -> option bool).
  Lemma match_names cores : NoDup (map d_name (options_match cores)) /\ has_config (options_match cores).
  Proof. apply (C78_names cores). cbn [In]. tauto. Qed.
  Lemma compare_names cores : NoDup (map d_name (options_compare cores)) /\ has_config (options_compare cores).
  Proof. apply (C78_names cores). cbn [In]. tauto. Qed.

  (** **** C92, matching: an option that is not corrected arrives at its own setting *)
  Theorem C92_match cores md cli config m c : parse (options_match cores) md cli config = Ok m -> match_correct is_directory latlong m = Some c ->
    forall n f, In (n, f) match_table -> f (match_settings_of m c) = asked m n (blank (kind_of (f (match_settings_of m c)))).
  Proof.
    intros E H n f I. destruct (match_names cores) as [N C]. assert (R : s_radius (match_settings_of m c) = num m "radius").
    { pose proof (C78_match _ (fun _ => true) _ m c H) as (_ & _ & _ & _ & _ & _ & _ & _ & _ & R & _). exact R. }
    unfold match_table in I. cbn [In] in I.
    repeat (destruct I as [I|I]; [apply pair_equal_spec in I; destruct I as [<- <-]; cbn [kind_of blank]; rewrite ?R;
      cbn [s_verbose s_quiet s_tracks s_export_edges s_export_edge_ids s_join_merges s_output s_filename s_export_candidates s_console s_filter_duplicates s_simplify_track
        s_median_merge s_adaptive_median_merge s_within_edge_turns s_a_star s_adoption_siblings s_adoption_nearby s_adoption_reverse s_adaptive_radius s_max_time s_routing_factor
        s_simplify_tolerance s_median_tolerance s_k_nearest s_search s_skip_errors s_state_size s_discount s_model s_mdp_distance s_mdp_length s_mdp_azimuth s_mdp_direction s_mdp_turn
        s_hmm_distance s_hmm_length s_hmm_azimuth s_hmm_direction s_hmm_turn s_threshold s_learning_rate s_epsilon s_early_stop s_episodes match_settings_of];
      arrive N C E|]). destruct I.
  Qed.
  (** the corrected ones: the radius lies between its limits; one candidate with next; search and model have the names that were given *)
  Theorem C92_match_corrected m c : match_correct is_directory latlong m = Some c ->
    let s := match_settings_of m c in
    s_verbose s = (flag m "verbose" && negb (flag m "quiet"))%bool
    /\ search_name (s_search s) = str m "candidate-search" /\ model_name (s_model s) = str m "model"
    /\ (s_radius_lower s <= s_radius s <= s_radius_upper s)%Q
    /\ (num m "radius-lower-limit" <= num m "radius" -> s_radius_lower s = num m "radius-lower-limit")%Q
    /\ (num m "radius" <= num m "radius-upper-limit" -> s_radius_upper s = num m "radius-upper-limit")%Q
    /\ (str m "candidate-search" = "next" -> s_k_nearest s = 1%Z) /\ (str m "candidate-search" <> "next" -> s_k_nearest s = int m "k-nearest" 0)
    /\ (s_within_edge_turns s = true <-> flag m "within-edge-turns" = true
         \/ (defaulted (m "within-edge-turns") = true /\ flag m "candidate-adoption-nearby" = false /\ flag m "candidate-adoption-siblings" = false /\ flag m "candidate-adoption-reverse" = false))
    /\ s_export_edge_ids s = export_edge_ids (str m "columns") /\ srs_transform_correct latlong m "tracks-" = Ok (s_tracks s).
  Proof.
    intros H. pose proof (C78_match _ (fun _ => true) _ m c H) as (V & _ & T & _ & _ & X & Se & Mo & K & R & B & L & U & _ & _ & W). cbv zeta.
    cbn [match_settings_of s_verbose s_search s_model s_radius s_radius_lower s_radius_upper s_k_nearest s_within_edge_turns s_export_edge_ids s_tracks].
    repeat match goal with |- _ /\ _ => split end; try assumption; try (apply B); try (apply W); try (intros Hn; rewrite K; destruct (string_dec _ _); [|contradiction]; reflexivity);
      try (intros Hn; rewrite K; destruct (string_dec _ _); [contradiction|]; reflexivity).
  Qed.
  (** nothing is left out: these are all options about matching *)
  Theorem C92_match_all : Permutation (map fst match_table ++ corrected)
    (["quiet"; "export-edges"; "join-merges"; "output"; "filename"; "candidates"; "console"] ++ map d_name options_matching).
  Proof.
    apply NoDup_Permutation; [apply nodup_names; vm_compute; reflexivity|apply nodup_names; vm_compute; reflexivity|].
    assert (D : forall a b, forallb (fun x => mem x b) a = true -> forall x, In x a -> In x b) by (intros a b F x I; rewrite forallb_forall in F; apply mem_In; auto).
    intros x. split; apply D; vm_compute; reflexivity.
  Qed.
  (** an option that nobody gives: the library uses its own default value, apart from the name of the output file *)
  Theorem C92_match_untouched cores md cli config m c : parse (options_match cores) md cli config = Ok m -> match_correct is_directory latlong m = Some c ->
    forall n f t, In (n, f) match_table -> n <> "filename" -> final (m n) = false -> f (match_settings_of m c) = f (match_defaults t).
  Proof.
    intros E H n f t I NF G. rewrite (C92_match _ _ _ _ _ _ E H n f I). destruct (match_names cores) as [N C].
    assert (D : exists d, find_desc (options_match cores) n = Some d /\ f (match_defaults t) = match d_default d with Some v => v | None => blank (kind_of (f (match_settings_of m c))) end).
    { unfold match_table in I. cbn [In] in I. repeat (destruct I as [I|I]; [apply pair_equal_spec in I; destruct I as [<- <-]; try congruence; (eexists; split; [vm_compute; reflexivity|reflexivity])|]). destruct I. }
    destruct D as (d & F & ->). pose proof (C78_kinds _ _ _ _ _ n d N C E F) as K. unfold asked. destruct (m n); [rewrite K; reflexivity|rewrite K; reflexivity|discriminate].
  Qed.

  Lemma untouched_var ds md cli config m n d v : NoDup (map d_name ds) -> has_config ds -> parse ds md cli config = Ok m -> find_desc ds n = Some d ->
    d_default d = Some v -> final (m n) = false -> m n = Defaulted v.
  Proof. intros N C E F D G. pose proof (C78_kinds ds md cli config m n d N C E F) as K. destruct (m n); [congruence|congruence|discriminate]. Qed.
  (** the same for the corrected ones, if nobody gives any of the options that the corrections look at *)
  Theorem C92_match_corrected_untouched cores md cli config m c t : parse (options_match cores) md cli config = Ok m -> match_correct is_directory latlong m = Some c ->
    (forall n, In n (corrected ++ ["verbose"; "columns"; "radius"; "candidate-adoption-siblings"; "candidate-adoption-nearby"; "candidate-adoption-reverse"]) -> final (m n) = false) ->
    let s := match_settings_of m c in let d := match_defaults t in
    s_verbose s = s_verbose d /\ s_export_edge_ids s = s_export_edge_ids d /\ s_within_edge_turns s = s_within_edge_turns d /\ s_radius s = s_radius d
    /\ s_radius_upper s = s_radius_upper d /\ s_radius_lower s = s_radius_lower d /\ s_k_nearest s = s_k_nearest d /\ s_search s = s_search d /\ s_model s = s_model d.
  Proof.
    intros E H G. destruct (match_names cores) as [N C].
    assert (D : forall n dn v, In n (corrected ++ ["verbose"; "columns"; "radius"; "candidate-adoption-siblings"; "candidate-adoption-nearby"; "candidate-adoption-reverse"]) ->
      find_desc (options_match cores) n = Some dn -> d_default dn = Some v -> m n = Defaulted v).
    { intros n dn v I F Dn. exact (untouched_var _ _ _ _ _ _ _ _ N C E F Dn (G n I)). }
    assert (V1 := D "verbose" _ _ ltac:(cbn; tauto) eq_refl eq_refl). assert (V2 := D "columns" _ _ ltac:(cbn; tauto) eq_refl eq_refl).
    assert (V3 := D "radius" _ _ ltac:(cbn; tauto) eq_refl eq_refl). assert (V4 := D "radius-upper-limit" _ _ ltac:(cbn; tauto) eq_refl eq_refl).
    assert (V5 := D "radius-lower-limit" _ _ ltac:(cbn; tauto) eq_refl eq_refl). assert (V6 := D "k-nearest" _ _ ltac:(cbn; tauto) eq_refl eq_refl).
    assert (V7 := D "candidate-search" _ _ ltac:(cbn; tauto) eq_refl eq_refl). assert (V8 := D "model" _ _ ltac:(cbn; tauto) eq_refl eq_refl).
    assert (V9 := D "within-edge-turns" _ _ ltac:(cbn; tauto) eq_refl eq_refl). assert (Va := D "candidate-adoption-siblings" _ _ ltac:(cbn; tauto) eq_refl eq_refl).
    assert (Vb := D "candidate-adoption-nearby" _ _ ltac:(cbn; tauto) eq_refl eq_refl).
    clear D. unfold match_correct, mode_correct in H. destruct (Nat.eqb (count m) 1); [|discriminate H]. destruct (is_directory (str m "input")); [|discriminate H].
    destruct (srs_correct latlong m "network-"); try discriminate H. destruct (files_correct m); [|discriminate H].
    destruct (tracks_correct m (strs m "tracks") (str m "tracks-file-type")); try discriminate H. destruct (srs_transform_correct latlong m "tracks-"); try discriminate H.
    destruct (_ && state_size_ok m)%bool; [|discriminate H]. injection H as <-. cbv zeta.
    unfold match_settings_of, within_correct, upper_correct, lower_correct, k_correct, flag, str, num, int.
    cbn [c_verbose c_edge_ids c_within c_radius c_upper c_lower c_k c_search c_model s_verbose s_export_edge_ids s_within_edge_turns s_radius s_radius_upper s_radius_lower s_k_nearest s_search s_model].
    rewrite ?V1, ?V2, ?V3, ?V4, ?V5, ?V6, ?V7, ?V8, ?V9, ?Va, ?Vb. repeat split; vm_compute; reflexivity.
  Qed.

  (** **** C92, comparing *)
  Theorem C92_compare cores md cli config m c : parse (options_compare cores) md cli config = Ok m -> compare_correct latlong m = Some c ->
    (forall n f, In (n, f) compare_table -> f (compare_settings_of m c) = asked m n (blank (kind_of (f (compare_settings_of m c)))))
    /\ (forall n f a b, In (n, f) compare_table -> n <> "filename" -> final (m n) = false -> f (compare_settings_of m c) = f (compare_defaults a b))
    /\ k_talk (compare_settings_of m c) = (flag m "verbose" && negb (flag m "quiet"))%bool
    /\ (forall a b, final (m "verbose") = false -> k_talk (compare_settings_of m c) = k_talk (compare_defaults a b))
    /\ srs_transform_correct latlong m "match-" = Ok (k_matches (compare_settings_of m c)) /\ srs_transform_correct latlong m "compare-" = Ok (k_ground_truth (compare_settings_of m c)).
  Proof.
    intros E H. destruct (compare_names cores) as [N C].
    assert (A : forall n f, In (n, f) compare_table -> f (compare_settings_of m c) = asked m n (blank (kind_of (f (compare_settings_of m c))))).
    { intros n f I. unfold compare_table in I. cbn [In] in I.
      repeat (destruct I as [I|I]; [apply pair_equal_spec in I; destruct I as [<- <-]; cbn [kind_of blank];
        cbn [k_quiet k_output k_filename k_console k_ignore k_simplify k_reverse k_adoption k_split k_direction compare_settings_of]; arrive N C E|]). destruct I. }
    split; [exact A|]. pose proof (C78_compare _ m c H) as (V & _ & S1 & _ & S2). split; [|cbn [compare_settings_of k_talk k_matches k_ground_truth]; split; [exact V|]; split; [|auto]; intros a b G; rewrite V; unfold flag at 1; rewrite (untouched_var _ _ _ _ _ "verbose" _ _ N C E eq_refl eq_refl G); reflexivity].
    intros n f a b I NF G. rewrite (A n f I).
    assert (D : exists d, find_desc (options_compare cores) n = Some d /\ f (compare_defaults a b) = match d_default d with Some v => v | None => blank (kind_of (f (compare_settings_of m c))) end).
    { unfold compare_table in I. cbn [In] in I. repeat (destruct I as [I|I]; [apply pair_equal_spec in I; destruct I as [<- <-]; try congruence; (eexists; split; [vm_compute; reflexivity|reflexivity])|]). destruct I. }
    destruct D as (d & F & ->). pose proof (C78_kinds _ _ _ _ _ n d N C E F) as K. unfold asked. destruct (m n); [rewrite K; reflexivity|rewrite K; reflexivity|discriminate].
  Qed.

  (** **** C92, CSV files: in matching all options arrive ... *)
  Lemma csv_arrives ds md cli config m p : NoDup (map d_name ds) -> has_config ds -> parse ds md cli config = Ok m ->
    (forall d, In d (options_csv_tracks p) -> find_desc ds (d_name d) = Some d) ->
    forall n f, In (n, f) (csv_table ++ time_table) -> f (csv_tracks_settings_of m p) = asked m (p ++ n)%string (blank (kind_of (f (csv_tracks_settings_of m p)))).
  Proof.
    intros N C E K n f I. unfold csv_table, time_table in I. cbn [In app] in I.
    assert (Kn : forall d, In d (options_csv_tracks p) -> d_default d <> None -> known ds (d_name d) (d_kind d)).
    { intros d Id D. unfold known. rewrite (K d Id). split; [reflexivity|]. unfold options_csv_tracks in Id. cbn [In] in Id. repeat (destruct Id as [<-|Id]; [cbn; auto|]). destruct Id. }
    unfold options_csv_tracks in K, Kn. cbn [In] in K, Kn.
    repeat (destruct I as [I|I]; [apply pair_equal_spec in I; destruct I as [<- <-]; cbn [kind_of blank];
      cbn [csv_tracks_settings_of csv_settings_of s_grouped s_no_header s_no_id s_no_id_whole_file s_wkt s_no_parse_time s_skip_lines s_delimiter s_id_aggregator s_x s_y s_geometry
        s_time_aggregator s_time_format s_ids s_times];
      match goal with |- VB ?x = _ => symmetry; apply (asked_bool _ _ _ _ _ N C E) | |- VS ?x = _ => symmetry; apply (asked_str _ _ _ _ _ N C E)
        | |- VL ?x = _ => symmetry; apply (asked_strs _ _ _ _ _ N C E) | |- VZ (int _ ?n ?z) = _ => symmetry; apply (asked_int _ _ _ _ _ N C E n z) end;
      match goal with |- known _ ?n ?k =>
        match goal with Kn : context [mkDesc n k ?df ?rq] |- _ => apply (Kn (mkDesc n k df rq)); [tauto|discriminate]
        | Kn : context [onoff n ?b] |- _ => apply (Kn (onoff n b)); [tauto|discriminate] | Kn : context [switch n] |- _ => apply (Kn (switch n)); [tauto|discriminate]
        | Kn : context [text n ?b] |- _ => apply (Kn (text n b)); [tauto|discriminate] | Kn : context [whole n ?b] |- _ => apply (Kn (whole n b)); [tauto|discriminate] end end|]).
    destruct I.
  Qed.
  Theorem C92_csv_match cores md cli config m : parse (options_match cores) md cli config = Ok m ->
    forall n f, In (n, f) (csv_table ++ time_table) -> f (csv_tracks_settings_of m "") = asked m n (blank (kind_of (f (csv_tracks_settings_of m "")))).
  Proof.
    intros E n f I. destruct (match_names cores) as [N C]. apply (csv_arrives _ _ _ _ _ "" N C E); [|exact I].
    intros d Hd. unfold options_csv_tracks in Hd. cbn [In] in Hd. repeat (destruct Hd as [<-|Hd]; [reflexivity|]). destruct Hd.
  Qed.
  (** ... in comparing those about the time do not *)
  Theorem C92_csv_compare cores md cli config m p : parse (options_compare cores) md cli config = Ok m -> p = "match-" \/ p = "compare-" ->
    (forall n f, In (n, f) csv_table -> f (csv_settings_of m p) = asked m (p ++ n)%string (blank (kind_of (f (csv_settings_of m p)))))
    /\ s_no_parse_time (csv_settings_of m p) = true /\ s_times (csv_settings_of m p) = ["time"] /\ s_time_aggregator (csv_settings_of m p) = "_".
  Proof.
    intros E P. destruct (compare_names cores) as [N C]. split; [|repeat split].
    intros n f I. assert (Q : f (csv_settings_of m p) = f (csv_tracks_settings_of m p)).
    { unfold csv_table in I. cbn [In] in I. repeat (destruct I as [I|I]; [apply pair_equal_spec in I; destruct I as [<- <-]; reflexivity|]). destruct I. }
    rewrite Q. apply (csv_arrives _ _ _ _ _ p N C E); [|apply in_or_app; auto].
    intros d Hd. unfold options_csv_tracks in Hd. cbn [In] in Hd. destruct P as [-> | ->]; (repeat (destruct Hd as [<-|Hd]; [reflexivity|])); destruct Hd.
  Qed.
  (** these are all options about CSV files, and their default values are those of the library *)
  Theorem C92_csv_all p : Permutation (map (fun e => p ++ fst e)%string (csv_table ++ time_table) ++ [(p ++ "selector")%string]) (map d_name (options_csv_tracks p))
    /\ forall n f, In (n, f) (csv_table ++ time_table) -> exists d, In d (options_csv_tracks p) /\ d_name d = (p ++ n)%string /\ d_default d = Some (f csv_defaults).
  Proof.
    split.
    - unfold csv_table, time_table, options_csv_tracks. cbn [map app fst d_name text onoff whole switch].
      match goal with |- Permutation ?a ?b => change (Permutation a b) end.
      do 12 (apply perm_skip). change (Permutation ([(p ++ "time")%string; (p ++ "time-aggregator")%string; (p ++ "time-format")%string; (p ++ "no-parse-time")%string] ++ [(p ++ "selector")%string])
        ([(p ++ "selector")%string] ++ [(p ++ "time")%string; (p ++ "time-aggregator")%string; (p ++ "time-format")%string; (p ++ "no-parse-time")%string])). apply Permutation_app_comm.
    - intros n f I. unfold csv_table, time_table in I. cbn [In app] in I. unfold options_csv_tracks. cbn [In].
      repeat (destruct I as [I|I]; [apply pair_equal_spec in I; destruct I as [<- <-]; once (eexists; split; [find_it|split; reflexivity])|]). destruct I.
  Qed.
End Arrive.

(** ** The text of rows *)
Section Ids.
  (** leading empty texts leave no trace *)
  Fixpoint skip_empty (l : list string) : list string := match l with "" :: r => skip_empty r | _ => l end.
  Definition join_ids (g : string) (l : list string) : string := fold_left (fun t c => (joined g t ++ c)%string) l "".

  Lemma sapp_assoc (a b c : string) : ((a ++ b) ++ c = a ++ (b ++ c))%string.
  Proof. induction a; cbn; congruence. Qed.
  Lemma sapp_nil (a : string) : (a ++ "" = a)%string.
  Proof. induction a; cbn; congruence. Qed.
  Lemma join_from g t l : t <> "" -> fold_left (fun t c => (joined g t ++ c)%string) l t = String.concat g (t :: l).
  Proof.
    revert t. induction l as [|c l IH]; intros t T; [reflexivity|]. cbn [fold_left].
    assert (J : (joined g t ++ c)%string = (t ++ g ++ c)%string) by (unfold joined; destruct (String.eqb_spec t ""); [contradiction|apply sapp_assoc]).
    rewrite J, IH by (destruct t; [contradiction|discriminate]). clear. destruct l as [|d l]; cbn [String.concat]; rewrite ?sapp_assoc; reflexivity.
  Qed.
  Lemma join_concat g l : join_ids g l = String.concat g (skip_empty l).
  Proof.
    unfold join_ids. induction l as [|c l IH]; [reflexivity|]. cbn [fold_left]. change (joined g "") with "". cbn [append].
    destruct c as [|a c]; [exact IH|]. rewrite join_from by discriminate. reflexivity.
  Qed.
  Lemma skip_empty_suffix l : exists k, l = repeat "" k ++ skip_empty l.
  Proof.
    induction l as [|c l [k IH]]; [exists 0; reflexivity|]. destruct c as [|a c]; [|exists 0; reflexivity]. exists (S k). cbn [skip_empty repeat app]. congruence.
  Qed.
  Lemma skip_empty_free c l : Forall (fun x => ~ has c x) l -> Forall (fun x => ~ has c x) (skip_empty l).
  Proof. destruct (skip_empty_suffix l) as [k E]. intros H. rewrite E in H. apply Forall_app in H. tauto. Qed.
  Lemma skip_empty_head l : forall r, skip_empty l <> "" :: r.
  Proof. induction l as [|c l IH]; intros r; [discriminate|]. destruct c; [apply IH|discriminate]. Qed.
  Lemma concat_empty c l : (forall r, l <> "" :: r) -> String.concat (String c "") l = "" -> l = [].
  Proof. destruct l as [|a l]; [auto|]. intros H. destruct a as [|x a]; [destruct (H l eq_refl)|]. destruct l; cbn; discriminate. Qed.
  (** the texts of several columns, joined by a character that occurs in none of them, can be told apart *)
  Lemma join_injective c l l' : Forall (fun x => ~ has c x) l -> Forall (fun x => ~ has c x) l' -> length l = length l' ->
    join_ids (String c "") l = join_ids (String c "") l' -> l = l'.
  Proof.
    intros F F' L E. rewrite !join_concat in E. destruct (skip_empty_suffix l) as [k K], (skip_empty_suffix l') as [k' K'].
    assert (S : skip_empty l = skip_empty l').
    { destruct (skip_empty l) as [|x r] eqn:X, (skip_empty l') as [|x' r'] eqn:X'; [reflexivity| | |].
      - symmetry in E. apply concat_empty in E; [discriminate|]. intros r0 H. rewrite H in X'. exact (skip_empty_head _ _ X').
      - apply concat_empty in E; [discriminate|]. intros r0 H. rewrite H in X. exact (skip_empty_head _ _ X).
      - rewrite <- (split_unique c (x :: r)), <- (split_unique c (x' :: r')), E by (try discriminate; rewrite <- ?X, <- ?X'; apply skip_empty_free; assumption). reflexivity. }
    rewrite K, K', S in L |- *. rewrite !app_length, !repeat_length in L. replace k' with k by lia. reflexivity.
  Qed.
End Ids.

Section TextRows.
  Context {P : Type}.
  Variable chrono : string -> string -> option Z.
  Variable wkt : string -> outcome (@geom P).
  Variable place : string -> string -> outcome P.
  Variable number : nat -> string.
  Variable sort : list (nat * P) -> list (nat * P).
  Variable order : list (string * list (nat * P)) -> list (string * list (nat * P)).
  Notation prow := (parse_row chrono wkt place).
  Notation pfiles := (parse_files chrono wkt place).

  Lemma id_fold s columns cells ids t id :
    foldO (fun t f => bindO (cell s columns cells f) (fun c => c) (fun c => Ok (joined (s_id_aggregator s) t ++ c)%string)) ids t = Ok id ->
    exists cs, Forall2 (fun f c => cell s columns cells f = Ok c) ids cs /\ id = fold_left (fun t c => (joined (s_id_aggregator s) t ++ c)%string) cs t.
  Proof.
    revert t. induction ids as [|f ids IH]; intros t; cbn [foldO]; [intros [= <-]; exists []; split; [constructor|reflexivity]|].
    destruct (cell s columns cells f) as [c| | |] eqn:E; try discriminate. cbn [bindO]. intros H. apply IH in H. destruct H as (cs & A & B).
    exists (c :: cs). split; [constructor; assumption|exact B].
  Qed.
  Lemma forall2_length {A B} (R : A -> B -> Prop) l l' : Forall2 R l l' -> length l = length l'.
  Proof. induction 1; cbn; congruence. Qed.

  (** **** C92: ids made of several columns: two rows have the same id exactly if they agree in all these columns, provided that the text
      between them is one character that does not occur in the cells *)
  Theorem C92_ids s a columns cells columns' cells' id id' : s_id_aggregator s = String a "" ->
    id_text s columns cells = Ok id -> id_text s columns' cells' = Ok id' ->
    (forall f c, In f (s_ids s) -> cell s columns cells f = Ok c \/ cell s columns' cells' f = Ok c -> ~ has a c) ->
    (id = id' <-> forall f, In f (s_ids s) -> cell s columns cells f = cell s columns' cells' f).
  Proof.
    intros A E E' F. unfold id_text in E, E'. apply id_fold in E, E'. destruct E as (cs & B & ->), E' as (cs' & B' & ->). rewrite A.
    assert (G : Forall (fun x => ~ has a x) cs /\ Forall (fun x => ~ has a x) cs').
    { split; apply Forall_forall; intros x I.
      - assert (exists f, In f (s_ids s) /\ cell s columns cells f = Ok x) as (f & If & Ef).
        { clear -B I. induction B; [destruct I|]. destruct I as [<-|I]; [eexists; split; [left; reflexivity|assumption]|]. destruct (IHB I) as (f & If & Ef). exists f. split; [right; exact If|exact Ef]. }
        apply (F f x If). auto.
      - assert (exists f, In f (s_ids s) /\ cell s columns' cells' f = Ok x) as (f & If & Ef).
        { clear -B' I. induction B'; [destruct I|]. destruct I as [<-|I]; [eexists; split; [left; reflexivity|assumption]|]. destruct (IHB' I) as (f & If & Ef). exists f. split; [right; exact If|exact Ef]. }
        apply (F f x If). auto. }
    split.
    - intros E. apply (join_injective a cs cs') in E; try tauto; [|rewrite <- (forall2_length _ _ _ B), <- (forall2_length _ _ _ B'); reflexivity].
      subst cs'. clear -B B'. intros f If. induction B as [|f0 c0 l l' Hc B IH]; [destruct If|]. inversion B'; subst. destruct If as [<-|If]; [congruence|auto].
    - intros E. assert (cs = cs') as ->; [|reflexivity]. clear -B B' E. revert cs' B'. induction B as [|f0 c0 l l' Hc B IH]; intros cs' B'; [inversion B'; reflexivity|].
      inversion B' as [|? c1 ? l1 Hc1 Hr]; subst. f_equal; [|apply IH; [intros; apply E; right; assumption|exact Hr]]. pose proof (E f0 (or_introl eq_refl)). congruence.
  Qed.

  (** **** C92: a row has an id only if all its columns are there; without ids they are not looked at *)
  Theorem C92_missing s columns i r cells f : s_no_id s = false -> In f (s_ids s) -> (forall c, cell s columns cells f <> Ok c) ->
    forall x, prow s columns i r cells <> Ok x.
  Proof.
    intros N I M x H. unfold parse_row in H. rewrite N in H. destruct (id_text s columns cells) as [id| | |] eqn:E; try discriminate H.
    unfold id_text in E. apply id_fold in E. destruct E as (cs & B & _). clear -B I M. induction B; [destruct I|]. destruct I as [<-|I]; [eapply M; eassumption|auto].
  Qed.

  (** **** C92: the columns of the time may be absent; if all are, the row has no time *)
  Theorem C92_no_time_columns s columns i r cells x : s_no_header s = false -> (forall f, In f (s_times s) -> ~ In f columns) ->
    prow s columns i r cells = Ok x -> r_time x = None.
  Proof.
    intros N M H. assert (T : time_text s columns cells = Ok "").
    { unfold time_text. rewrite N. cbn [andb]. revert M. generalize (s_times s) as ts. induction ts as [|f ts IH]; intros M; [reflexivity|]. cbn [foldO].
      destruct (mem f columns) eqn:E; [apply mem_In in E; destruct (M f (or_introl eq_refl) E)|]. cbn [bindO]. change (joined (s_time_aggregator s) "") with "". apply IH. intros g I. apply M. right. exact I. }
    unfold parse_row in H. destruct (if s_no_id s then _ else _); try discriminate H. cbn [bindO] in H. rewrite T in H. cbn in H.
    destruct (geometry_of wkt place s columns cells); try discriminate H. injection H as <-. reflexivity.
  Qed.

  (** **** C92: the cell of a field: by its number in files without header if the field is a number, else the one of the last column of this name;
      else the reading is given up *)
  Lemma index_of_spec name columns i found k : index_of name columns i found = Some k ->
    (found = Some k /\ ~ In name columns) \/ exists pre post, columns = pre ++ name :: post /\ ~ In name post /\ k = (i + N.of_nat (length pre))%N.
  Proof.
    revert i found. induction columns as [|c r IH]; intros i found; cbn [index_of]; [intros ->; left; split; [reflexivity|intros []]|].
    intros H. apply IH in H. destruct H as [[F N]|(pre & post & -> & N & ->)].
    - destruct (String.eqb_spec c name) as [->|D].
      + injection F as <-. right. exists [], r. cbn. split; [reflexivity|]. split; [exact N|lia].
      + left. split; [exact F|]. intros [E|E]; [contradiction|contradiction].
    - right. exists (c :: pre), post. cbn [app length]. split; [reflexivity|]. split; [exact N|lia].
  Qed.
  Lemma index_of_none name columns i found : index_of name columns i found = None -> found = None /\ ~ In name columns.
  Proof.
    revert i found. induction columns as [|c r IH]; intros i found; cbn [index_of]; [intros ->; split; [reflexivity|intros []]|].
    intros H. apply IH in H. destruct H as [F N]. destruct (String.eqb_spec c name) as [->|D]; [discriminate F|]. split; [exact F|]. intros [E|E]; contradiction.
  Qed.
  Lemma at_index_spec cells n c : at_index cells n = Ok c <-> nth_error cells (N.to_nat n) = Some c.
  Proof.
    unfold at_index. destruct (N.ltb_spec n (N.of_nat (length cells))).
    - destruct (nth_error cells (N.to_nat n)); split; congruence.
    - split; [discriminate|]. intros E. assert (N.to_nat n < length cells) by (apply nth_error_Some; congruence). lia.
  Qed.
  Theorem C92_cell s columns cells f c : cell s columns cells f = Ok c <->
    if (s_no_header s && is_num f)%bool then (digits f < 2 ^ 64)%N /\ nth_error cells (N.to_nat (digits f)) = Some c
    else exists pre post, columns = pre ++ f :: post /\ ~ In f post /\ nth_error cells (length pre) = Some c.
  Proof.
    unfold cell. destruct (s_no_header s && is_num f)%bool.
    - unfold stoul. destruct (N.ltb_spec (digits f) (2 ^ 64)); cbn [bindO]; [rewrite at_index_spec; tauto|]. split; [discriminate|]. intros [H1 _]. lia.
    - unfold at_name. destruct (index_of f columns 0 None) as [k|] eqn:E.
      + apply index_of_spec in E. destruct E as [[E _]|(pre & post & -> & N & ->)]; [discriminate E|]. rewrite at_index_spec. rewrite N.add_0_l, Nat2N.id. split.
        * intros H. exists pre, post. auto.
        * intros (pre' & post' & E & N' & H). assert (L : length pre' = length pre); [|rewrite <- L; exact H].
          clear -E N N'. revert pre E. induction pre' as [|a pre' IH]; intros [|b pre] E; cbn in *; [reflexivity| | |].
          -- injection E as _ E. subst post'. destruct N'. apply in_or_app. right. left. reflexivity.
          -- injection E as _ E. subst post. destruct N. apply in_or_app. right. left. reflexivity.
          -- injection E as _ E. f_equal. apply IH. exact E.
      + apply index_of_none in E. split; [discriminate|]. intros (pre & post & -> & _). destruct (proj2 E). apply in_or_app. right. left. reflexivity.
  Qed.
  (** numbers are decimal *)
  Theorem C92_digits : digits "" = 0%N /\ forall s d, d < 10 -> digits (s ++ String (ascii_of_nat (48 + d)) "")%string = (digits s * 10 + N.of_nat d)%N.
  Proof.
    split; [reflexivity|]. intros s d D. unfold digits. assert (L : forall a b, list_ascii_of_string (a ++ b)%string = list_ascii_of_string a ++ list_ascii_of_string b) by (induction a; intros; cbn; congruence).
    rewrite L, fold_left_app. cbn [list_ascii_of_string fold_left]. rewrite nat_ascii_embedding by lia. lia.
  Qed.
  (** **** C92: the time of a row: none without text; as a number if it is one and times are not parsed; else the whole seconds that the format reads, zero if it reads none *)
  Theorem C92_time s columns i r cells x t : prow s columns i r cells = Ok x -> time_text s columns cells = Ok t ->
    (t = "" -> r_time x = None)
    /\ (t <> "" -> s_no_parse_time s = true -> r_time x = if is_num t then Some (N.to_nat (digits t)) else None)
    /\ (t <> "" -> s_no_parse_time s = false -> match chrono t (s_time_format s) with
         | None => r_time x = Some 0
         | Some ms => (-1000 < ms)%Z /\ exists n, r_time x = Some n /\ (Z.of_nat n * 1000 <= Z.max 0 ms < (Z.of_nat n + 1) * 1000)%Z
         end).
  Proof.
    intros H T. unfold parse_row in H. destruct (if s_no_id _ then _ else _); try discriminate H. cbn [bindO] in H. rewrite T in H. cbn [bindO] in H.
    destruct (time_value chrono s t) as [v| | |] eqn:V; try discriminate H. cbn [bindO] in H.
    destruct (geometry_of wkt place _ columns cells); try discriminate H. cbn [bindO] in H. injection H as <-. cbn [r_time].
    unfold time_value in V. destruct (String.eqb_spec t "") as [->|Nt].
    - injection V as <-. split; [reflexivity|]. split; intros; congruence.
    - split; [intros; contradiction|]. split; intros _ NP; rewrite NP in V.
      + destruct (is_num t); [|injection V as <-; reflexivity]. unfold stoul in V. destruct (digits t <? 2 ^ 64)%N; [|discriminate V]. cbn [bindO] in V. injection V as <-. reflexivity.
      + unfold parse_time in V. destruct (chrono t (s_time_format s)) as [ms|]; [|cbn [bindO] in V; injection V as <-; reflexivity].
        destruct (Z.ltb_spec (ms ÷ 1000) 0) as [L|L]; [discriminate V|]. cbn [bindO] in V. injection V as <-.
        assert (ms > -1000)%Z.
        { destruct (Z_lt_le_dec (-1000) ms) as [A|A]; [lia|]. exfalso. pose proof (Z.quot_le_mono ms (-1000) 1000 ltac:(lia) A) as Q. change (-1000 ÷ 1000)%Z with (-1)%Z in Q. lia. }
        split; [lia|]. exists (Z.to_nat (ms ÷ 1000)). split; [reflexivity|]. rewrite Z2Nat.id by exact L. destruct (Z_lt_le_dec ms 0) as [A|A].
        * pose proof (Z.quot_le_mono ms 0 1000 ltac:(lia) ltac:(lia)) as Q. change (0 ÷ 1000)%Z with 0%Z in Q. lia.
        * rewrite Z.quot_div_nonneg by lia. pose proof (Z.div_mod ms 1000 ltac:(lia)). pose proof (Z.mod_pos_bound ms 1000 ltac:(lia)). lia.
  Qed.
  (** a time before 1970 violates an assertion of the program *)
  Theorem C92_before_1970 s columns i r cells t ms : (s_no_id s = true \/ exists id, id_text s columns cells = Ok id) ->
    time_text s columns cells = Ok t -> t <> "" -> s_no_parse_time s = false -> chrono t (s_time_format s) = Some ms -> (ms <= -1000)%Z -> prow s columns i r cells = UB.
  Proof.
    intros I T N NP C L. unfold parse_row. rewrite T.
    assert (V : time_value chrono s t = UB).
    { unfold time_value, parse_time. destruct (String.eqb_spec t ""); [contradiction|]. rewrite NP, C.
      pose proof (Z.quot_le_mono ms (-1000) 1000 ltac:(lia) L) as Q. change (-1000 ÷ 1000)%Z with (-1)%Z in Q. destruct (Z.ltb_spec (ms ÷ 1000) 0); [reflexivity|lia]. }
    destruct I as [I|[id I]]; [rewrite I|rewrite I; destruct (s_no_id s)]; cbn [bindO]; rewrite V; reflexivity.
  Qed.

  (** **** C92: the other parts of a row *)
  Theorem C92_row s columns i r cells x : prow s columns i r cells = Ok x ->
    r_file x = i /\ r_row x = r /\ (s_no_id s = false -> id_text s columns cells = Ok (r_text x))
    /\ (s_wkt s = true -> exists g, cell s columns cells (s_geometry s) = Ok g /\ wkt (upper g) = Ok (r_geom x))
    /\ (s_wkt s = false -> exists a b p, cell s columns cells (s_x s) = Ok a /\ cell s columns cells (s_y s) = Ok b /\ place a b = Ok p /\ r_geom x = Point p).
  Proof.
    intros H. unfold parse_row in H. destruct (if s_no_id s then _ else _) as [id| | |] eqn:I; try discriminate H. cbn [bindO] in H.
    destruct (time_text s columns cells) as [t| | |]; try discriminate H. cbn [bindO] in H. destruct (time_value chrono s t) as [v| | |]; try discriminate H. cbn [bindO] in H.
    destruct (geometry_of wkt place s columns cells) as [g| | |] eqn:G; try discriminate H. cbn [bindO] in H. injection H as <-. cbn [r_file r_row r_text r_geom].
    split; [reflexivity|]. split; [reflexivity|]. split; [intros N; rewrite N in I; exact I|]. unfold geometry_of in G. split; intros W; rewrite W in G.
    - destruct (cell s columns cells (s_geometry s)) as [y| | |]; try discriminate G. exists y. auto.
    - destruct (cell s columns cells (s_x s)) as [a| | |]; try discriminate G. cbn [bindO] in G. destruct (cell s columns cells (s_y s)) as [b| | |]; try discriminate G. cbn [bindO] in G.
      destruct (place a b) as [q| | |] eqn:Q; try discriminate G. cbn [bindO] in G. injection G as <-. exists a, b, q. auto.
  Qed.
  Theorem C92_upper : (forall n a, String.get n "abcdefghijklmnopqrstuvwxyz" = Some a -> String.get n "ABCDEFGHIJKLMNOPQRSTUVWXYZ" = Some (upper_char a))
    /\ (forall a, (forall n, String.get n "abcdefghijklmnopqrstuvwxyz" <> Some a) -> upper_char a = a)
    /\ (forall n s, String.get n (upper s) = option_map upper_char (String.get n s)).
  Proof.
    split; [|split].
    - intros n a H. do 26 (destruct n as [|n]; [injection H as <-; reflexivity|]). destruct n; discriminate H.
    - intros a H. unfold upper_char. destruct ((97 <=? nat_of_ascii a)%nat && (nat_of_ascii a <=? 122)%nat)%bool eqn:E; [|reflexivity]. exfalso.
      apply andb_true_iff in E. destruct E as [E1 E2]. apply Nat.leb_le in E1, E2. apply (H (nat_of_ascii a - 97)).
      rewrite <- (ascii_nat_embedding a) at 2. remember (nat_of_ascii a - 97) as k eqn:K. replace (nat_of_ascii a) with (97 + k) by lia. assert (k < 26) by lia. clear -H0.
      do 26 (destruct k as [|k]; [reflexivity|]). lia.
    - intros n s. revert n. induction s as [|a s IH]; intros [|n]; cbn; try reflexivity. apply IH.
  Qed.

  (** **** C92: which rows are read: those after the skipped ones of each file, numbered from zero; files that are not there count *)
  Theorem C92_rows s files rows : pfiles s 0 files = Ok rows ->
    forall x, In x rows <-> exists i f cells r, nth_error files i = Some (Some f) /\ nth_error (f_rows f) (Z.to_nat (s_skip_lines s) + r) = Some cells
                                                /\ prow s (f_columns f) i r cells = Ok x.
  Proof.
    assert (R : forall columns i k l v, parse_rows chrono wkt place s columns i k l = Ok v ->
      forall x, In x v <-> exists r cells, nth_error l r = Some cells /\ prow s columns i (k + r) cells = Ok x).
    { intros columns i k l. revert k. induction l as [|c l IH]; intros k v; cbn [parse_rows].
      - intros [= <-] x. split; [intros []|intros ([|r] & cells & E & _); discriminate E].
      - destruct (prow s columns i k c) as [y| | |] eqn:E; try discriminate. cbn [bindO]. destruct (parse_rows chrono wkt place s columns i (k + 1) l) as [w| | |] eqn:E2; try discriminate.
        cbn [bindO]. intros [= <-] x. cbn [In]. rewrite (IH (k + 1) w E2 x). split.
        + intros [<-|(r & cells & A & B)]; [exists 0, c; rewrite Nat.add_0_r; auto|]. exists (S r), cells. split; [exact A|]. replace (k + S r) with (k + 1 + r) by lia. exact B.
        + intros ([|r] & cells & A & B); [left; rewrite Nat.add_0_r in B; cbn in A; congruence|]. right. exists r, cells. split; [exact A|]. replace (k + 1 + r) with (k + S r) by lia. exact B. }
    assert (G : forall k v, pfiles s k files = Ok v -> forall x, In x v <-> exists i f cells r, nth_error files i = Some (Some f)
      /\ nth_error (f_rows f) (Z.to_nat (s_skip_lines s) + r) = Some cells /\ prow s (f_columns f) (k + i) r cells = Ok x).
    { induction files as [|f rest IH]; intros k v; cbn [parse_files].
      - intros [= <-] x. split; [intros []|intros ([|i] & f & cells & r & E & _); discriminate E].
      - destruct f as [f|].
        + destruct (parse_rows _ _ _ _ _ _ _ _) as [a| | |] eqn:E1; try discriminate. cbn [bindO]. destruct (parse_files _ _ _ s (k + 1) rest) as [b| | |] eqn:E2; try discriminate.
          cbn [bindO]. intros [= <-] x. rewrite in_app_iff, (R _ _ _ _ _ E1 x), (IH (k + 1) b E2 x). split.
          * intros [(r & cells & A & B)|(i & g & cells & r & A & B & C)].
            -- exists 0, f, cells, r. rewrite Nat.add_0_r. cbn [nth_error]. split; [reflexivity|]. split; [|exact B]. rewrite <- A. symmetry. apply nth_error_skipn.
            -- exists (S i), g, cells, r. split; [exact A|]. split; [exact B|]. replace (k + S i) with (k + 1 + i) by lia. exact C.
          * intros ([|i] & g & cells & r & A & B & C).
            -- left. cbn in A. injection A as <-. rewrite Nat.add_0_r in C. exists r, cells. split; [|exact C]. rewrite nth_error_skipn. exact B.
            -- right. exists i, g, cells, r. split; [exact A|]. split; [exact B|]. replace (k + 1 + i) with (k + S i) by lia. exact C.
        + intros H x. rewrite (IH (k + 1) v H x). split.
          * intros (i & g & cells & r & A & B & C). exists (S i), g, cells, r. split; [exact A|]. split; [exact B|]. replace (k + S i) with (k + 1 + i) by lia. exact C.
          * intros ([|i] & g & cells & r & A & B & C); [discriminate A|]. exists i, g, cells, r. split; [exact A|]. split; [exact B|]. replace (k + 1 + i) with (k + S i) by lia. exact C. }
    intros H x. exact (G 0 rows H x).
  Qed.

  (** **** C92: in comparing the options about the time have no effect on CSV files *)
  Theorem C92_compare_time_ignored p m m' files : (forall n, ~ In n ["time"; "time-aggregator"; "time-format"; "no-parse-time"] -> m (p ++ n)%string = m' (p ++ n)%string) ->
    compare_tracks chrono wkt place number sort order p m files = compare_tracks chrono wkt place number sort order p m' files.
  Proof.
    intros A. assert (B : forall n, negb (mem n ["time"; "time-aggregator"; "time-format"; "no-parse-time"]) = true -> m (p ++ n)%string = m' (p ++ n)%string).
    { intros n H. apply A. intros I. apply mem_In in I. rewrite I in H. discriminate H. }
    unfold compare_tracks. assert (csv_settings_of m p = csv_settings_of m' p) as ->.
    { unfold csv_settings_of, flag, int, str, strs. rewrite !B by reflexivity. reflexivity. }
    unfold strs. rewrite B by reflexivity. reflexivity.
  Qed.
  (** a row has a time there only by a number in a column of the name time *)
  Theorem C92_compare_time p m columns i r cells x n : prow (csv_settings_of m p) columns i r cells = Ok x -> r_time x = Some n ->
    In "time" columns /\ exists c, at_name columns cells "time" = Ok c /\ is_num c = true /\ n = N.to_nat (digits c) /\ (digits c < 2 ^ 64)%N.
  Proof.
    intros H T. unfold parse_row in H. destruct (if s_no_id _ then _ else _); try discriminate H. cbn [bindO] in H.
    destruct (time_text (csv_settings_of m p) columns cells) as [t| | |] eqn:E; try discriminate H. cbn [bindO] in H.
    destruct (time_value chrono (csv_settings_of m p) t) as [v| | |] eqn:V; try discriminate H. cbn [bindO] in H.
    destruct (geometry_of wkt place _ columns cells); try discriminate H. cbn [bindO] in H. injection H as <-. cbn [r_time] in T. subst v.
    unfold time_text in E. cbn [csv_settings_of s_times csv_defaults s_no_header s_time_aggregator foldO] in E.
    change (is_num "time") with false in E. rewrite andb_false_r in E. change (joined "_" "") with "" in E.
    unfold time_value in V. cbn [csv_settings_of s_no_parse_time] in V. destruct (mem "time" columns) eqn:M.
    - destruct (at_name columns cells "time") as [c| | |] eqn:C; try discriminate E. cbn [bindO append] in E. injection E as <-.
      destruct (String.eqb c ""); [discriminate V|]. destruct (is_num c) eqn:Nc; [|discriminate V]. unfold stoul in V.
      destruct (N.ltb_spec (digits c) (2 ^ 64)); [|discriminate V]. cbn [bindO] in V. injection V as <-. split; [apply mem_In; exact M|]. exists c. auto.
    - cbn [bindO] in E. injection E as <-. discriminate V.
  Qed.

  (** **** C92: only tracks that are selected are read *)
  Lemma read_selected cfg rows i ls : In (i, ls) (read String.eqb number sort order cfg rows) -> CsvProps.wanted cfg i.
  Proof.
    assert (SP : forall x y, reflect (x = y) (String.eqb x y)) by apply String.eqb_spec.
    assert (F : forall st, (forall e, In e (c_out st) -> CsvProps.wanted cfg (fst e)) -> forall e, In e (c_out (finish_import String.eqb sort order cfg st)) -> CsvProps.wanted cfg (fst e)).
    { intros st H e I. unfold finish_import in I. cbn [c_out] in I. apply in_app_or in I. destruct I as [I|I]; [auto|]. apply in_flat_map in I. destruct I as (g & _ & I).
      destruct (selected String.eqb cfg (fst g)) eqn:Sg; [|destruct I]. destruct I as [<-|[]]. apply (selected_wanted String.eqb SP). exact Sg. }
    intros I. assert (G : forall e, In e (read String.eqb number sort order cfg rows) -> CsvProps.wanted cfg (fst e)); [|exact (G _ I)]. clear I.
    unfold read. apply F. assert (H0 : forall e, In e (c_out (@csv_start string P)) -> CsvProps.wanted cfg (fst e)) by (intros e []). revert H0. generalize (@csv_start string P) as st.
    induction rows as [|r rows IH]; intros st H; [exact H|]. cbn [fold_left]. apply IH. unfold process_row.
    set (s1 := match c_current st with Some c => _ | None => st end).
    assert (H1 : forall e, In e (c_out s1) -> CsvProps.wanted cfg (fst e)).
    { unfold s1. destruct (c_current st) as [c|]; [|exact H]. destruct (grouped cfg && negb (String.eqb (row_id number cfg r) c))%bool; [apply F; exact H|exact H]. }
    clearbody s1. destruct (r_geom r); cbn [c_out]; [exact H1| |exact H1]. intros e E. apply in_app_or in E. destruct E as [E|E]; [auto|].
    destruct (selected String.eqb cfg (line_id number cfg r)) eqn:Sl; [|destruct E]. destruct E as [<-|[]]. apply (selected_wanted String.eqb SP). exact Sl.
  Qed.
  Theorem C92_selected m files ts i ls :
    (match_tracks chrono wkt place number sort order m files = Ok ts -> In (i, ls) ts -> strs m "selector" = [] \/ In i (strs m "selector"))
    /\ (forall p, compare_tracks chrono wkt place number sort order p m files = Ok ts -> In (i, ls) ts -> strs m (p ++ "selector")%string = [] \/ In i (strs m (p ++ "selector")%string)).
  Proof.
    split; [|intros p]; intros H I; unfold match_tracks, compare_tracks, read_files in H; destruct (pfiles _ 0 files) as [rows| | |]; try discriminate H; cbn [bindO] in H;
      injection H as <-; apply read_selected in I; exact I.
  Qed.

  (** *** the same files in matching and in comparing *)
  Hypothesis sort_ok : sorts sort.
  Hypothesis order_ok : forall l, Permutation l (order l).
  (** within each id the times come in ascending order, or there are none *)
  Definition ascending (l : list (option nat)) : Prop := (forall t, In t l -> t = None) \/ exists ts, l = map Some ts /\ StronglySorted lt ts.
  Definition same_but_time (a b : row string P) : Prop := r_file a = r_file b /\ r_row a = r_row b /\ r_text a = r_text b /\ r_geom a = r_geom b.

  Lemma parse_row_same s s' columns i r cells a b :
    (s_no_header s, s_no_id s, s_wkt s, s_id_aggregator s, s_x s, s_y s, s_geometry s, s_ids s) = (s_no_header s', s_no_id s', s_wkt s', s_id_aggregator s', s_x s', s_y s', s_geometry s', s_ids s') ->
    prow s columns i r cells = Ok a -> prow s' columns i r cells = Ok b -> same_but_time a b.
  Proof.
    intros [= E1 E2 E3 E4 E5 E6 E7 E8] A B.
    assert (C : forall f, cell s columns cells f = cell s' columns cells f) by (intros f; unfold cell; rewrite E1; reflexivity).
    assert (I : id_text s columns cells = id_text s' columns cells).
    { unfold id_text. rewrite E8, E4. generalize ""%string as t. generalize (s_ids s') as l. induction l as [|f l IH]; intros t; [reflexivity|]. cbn [foldO]. rewrite C.
      destruct (cell s' columns cells f); cbn [bindO]; [apply IH|reflexivity|reflexivity|reflexivity]. }
    assert (G : geometry_of wkt place s columns cells = geometry_of wkt place s' columns cells) by (unfold geometry_of; rewrite E3, E5, E6, E7, !C; reflexivity).
    unfold parse_row in A, B. rewrite I, E2, G in A. destruct (if s_no_id s' then _ else _) as [id| | |]; try discriminate A. cbn [bindO] in A, B.
    destruct (time_text s columns cells); try discriminate A. destruct (time_text s' columns cells); try discriminate B. cbn [bindO] in A, B.
    destruct (time_value chrono s _); try discriminate A. destruct (time_value chrono s' _); try discriminate B. cbn [bindO] in A, B.
    destruct (geometry_of wkt place s' columns cells); try discriminate A. cbn [bindO] in A, B. injection A as <-. injection B as <-. repeat split.
  Qed.
  Lemma parse_rows_same s s' columns i r l a b :
    (s_no_header s, s_no_id s, s_wkt s, s_id_aggregator s, s_x s, s_y s, s_geometry s, s_ids s) = (s_no_header s', s_no_id s', s_wkt s', s_id_aggregator s', s_x s', s_y s', s_geometry s', s_ids s') ->
    parse_rows chrono wkt place s columns i r l = Ok a -> parse_rows chrono wkt place s' columns i r l = Ok b -> Forall2 same_but_time a b.
  Proof.
    intros E. revert r a b. induction l as [|c l IH]; intros r a b; cbn [parse_rows]; [intros [= <-] [= <-]; constructor|].
    destruct (prow s columns i r c) as [x| | |] eqn:X; try discriminate. destruct (prow s' columns i r c) as [x'| | |] eqn:X'; try discriminate. cbn [bindO].
    destruct (parse_rows chrono wkt place s columns i (r + 1) l) as [y| | |] eqn:Y; try discriminate. destruct (parse_rows chrono wkt place s' columns i (r + 1) l) as [y'| | |] eqn:Y'; try discriminate.
    cbn [bindO]. intros [= <-] [= <-]. constructor; [eapply parse_row_same; eassumption|eapply IH; eassumption].
  Qed.
  Lemma parse_files_same s s' i files a b : s_skip_lines s = s_skip_lines s' ->
    (s_no_header s, s_no_id s, s_wkt s, s_id_aggregator s, s_x s, s_y s, s_geometry s, s_ids s) = (s_no_header s', s_no_id s', s_wkt s', s_id_aggregator s', s_x s', s_y s', s_geometry s', s_ids s') ->
    pfiles s i files = Ok a -> pfiles s' i files = Ok b -> Forall2 same_but_time a b.
  Proof.
    intros K E. revert i a b. induction files as [|f files IH]; intros i a b; cbn [parse_files]; [intros [= <-] [= <-]; constructor|].
    destruct f as [f|]; [|apply IH]. rewrite K.
    destruct (parse_rows chrono wkt place s _ _ _ _) as [x| | |] eqn:X; try discriminate. destruct (parse_rows chrono wkt place s' _ _ _ _) as [x'| | |] eqn:X'; try discriminate. cbn [bindO].
    destruct (pfiles s (i + 1) files) as [y| | |] eqn:Y; try discriminate. destruct (pfiles s' (i + 1) files) as [y'| | |] eqn:Y'; try discriminate.
    cbn [bindO]. intros [= <-] [= <-]. apply Forall2_app; [eapply parse_rows_same; eassumption|eapply IH; eassumption].
  Qed.

  Lemma stamp_snd (l : list (option nat * P)) k : map snd (stamp k l) = map snd l.
  Proof. revert k. induction l as [|[t p] l IH]; intros k; cbn; [reflexivity|]. rewrite IH. reflexivity. Qed.
  Lemma stamp_some (l : list (option nat * P)) ts k : map fst l = map Some ts -> map fst (stamp k l) = ts.
  Proof. revert ts k. induction l as [|[t p] l IH]; intros [|u ts] k; cbn; try discriminate; [reflexivity|]. intros [= -> H]. rewrite (IH ts _ H). reflexivity. Qed.
  Lemma sorted_by_time (l : list (nat * P)) : StronglySorted lt (map fst l) -> by_time l /\ NoDup (map fst l).
  Proof.
    induction l as [|x l IH]; intros H.
    - split; [intros i j a b _ A; destruct i; discriminate|constructor].
    - cbn in H. apply StronglySorted_inv in H. destruct H as [H F]. destruct (IH H) as [B N]. rewrite Forall_forall in F. split.
      + apply by_time_cons; [|exact B]. intros y Hy. apply Nat.lt_le_incl, F, in_map, Hy.
      + cbn. constructor; [|exact N]. intros I. apply F in I. lia.
  Qed.
  Lemma seq_sorted k n : StronglySorted lt (seq k n).
  Proof. revert k. induction n as [|n IH]; intros k; cbn; constructor; [apply IH|]. apply Forall_forall. intros x Hx. apply in_seq in Hx. lia. Qed.
  Lemma ascending_stamp (l : list (option nat * P)) : ascending (map fst l) -> StronglySorted lt (map fst (stamp 0 l)).
  Proof.
    intros [H|(ts & E & H)].
    - destruct (stamp_untimed l) with (k := 0) as [A _]; [intros e He; apply H, in_map, He|]. rewrite A. apply seq_sorted.
    - rewrite (stamp_some l ts 0 E). exact H.
  Qed.
  Lemma sort_ascending (l : list (option nat * P)) : ascending (map fst l) -> map snd (sort (stamp 0 l)) = map snd l.
  Proof.
    intros H. destruct (sorted_by_time (stamp 0 l) (ascending_stamp l H)) as [B N]. destruct (sort_ok (stamp 0 l)) as [Pm Bs].
    rewrite <- (order_unique (stamp 0 l) (sort (stamp 0 l)) N Pm B Bs). apply stamp_snd.
  Qed.
  Lemma rows_same cfg a b : Forall2 same_but_time a b ->
    line_tracks String.eqb number cfg a = line_tracks String.eqb number cfg b /\ point_ids number cfg a = point_ids number cfg b
    /\ forall i, map snd (points_of String.eqb number cfg i a) = map snd (points_of String.eqb number cfg i b).
  Proof.
    induction 1 as [|x y a b (S1 & S2 & S3 & S4) F (I1 & I2 & I3)]; [repeat split|].
    assert (R : row_id number cfg x = row_id number cfg y) by (unfold row_id; rewrite S1, S2, S3; reflexivity).
    assert (L : line_id number cfg x = line_id number cfg y) by (unfold line_id; rewrite R, S2; reflexivity).
    unfold line_tracks, point_ids, points_of in *. cbn [flat_map]. rewrite S4, R, L, I1, I2. split; [reflexivity|]. split; [reflexivity|].
    intros i. rewrite !map_app, I3. destruct (r_geom y); [|reflexivity|reflexivity]. destruct (String.eqb (row_id number cfg y) i); reflexivity.
  Qed.
  (** **** C92: settings that only differ in the time read the same tracks if, within each id, both find the times ascending (or none) *)
  Theorem C92_same_tracks s s' selectors files a b rows rows' : s_skip_lines s = s_skip_lines s' -> s_grouped s = false ->
    (s_no_header s, s_no_id s, s_wkt s, s_id_aggregator s, s_x s, s_y s, s_geometry s, s_ids s) = (s_no_header s', s_no_id s', s_wkt s', s_id_aggregator s', s_x s', s_y s', s_geometry s', s_ids s') ->
    s_no_id_whole_file s = s_no_id_whole_file s' -> s_grouped s' = false ->
    pfiles s 0 files = Ok rows -> pfiles s' 0 files = Ok rows' ->
    (forall i, ascending (map fst (points_of String.eqb number (grouping s selectors) i rows))) ->
    (forall i, ascending (map fst (points_of String.eqb number (grouping s' selectors) i rows'))) ->
    read_files chrono wkt place number sort order s selectors files = Ok a -> read_files chrono wkt place number sort order s' selectors files = Ok b ->
    Permutation a b.
  Proof.
    intros K G E W G' R R' A A' Ra Rb. unfold read_files in Ra, Rb. rewrite R in Ra. rewrite R' in Rb. cbn [bindO] in Ra, Rb. injection Ra as <-. injection Rb as <-.
    assert (grouping s selectors = grouping s' selectors) as C by (unfold grouping; injection E as _ -> _ _ _ _ _ _; rewrite W, G, G'; reflexivity).
    rewrite C in *. set (cfg := grouping s' selectors) in *. assert (Hg : grouped cfg = false) by exact G'.
    destruct (rows_same cfg rows rows' (parse_files_same s s' 0 files rows rows' K E R R')) as (L & I & S).
    assert (SP : forall x y, reflect (x = y) (String.eqb x y)) by apply String.eqb_spec.
    destruct (ungrouped_fold String.eqb SP number cfg sort order rows Hg csv_start [] eq_refl) as [U V].
    destruct (ungrouped_fold String.eqb SP number cfg sort order rows' Hg csv_start [] eq_refl) as [U' V'].
    unfold read, finish_import. cbn [c_out csv_start app] in *. rewrite U, V, U', V'.
    rewrite (flush String.eqb number cfg sort order order_ok rows), (flush String.eqb number cfg sort order order_ok rows'). rewrite L. apply Permutation_app_head.
    unfold point_tracks. rewrite I. match goal with |- Permutation ?u ?v => assert (u = v) as ->; [|apply Permutation_refl] end.
    apply map_ext. intros i. rewrite (sort_ascending _ (A i)), (sort_ascending _ (A' i)), S. reflexivity.
  Qed.
End TextRows.

(** ** Examples *)
Definition d_number (n : nat) : string := String (ascii_of_nat (48 + n)) "".
Definition d_chrono (t format : string) : option Z :=
  if String.eqb format "%R" then if String.eqb t "08:00" then Some 28800999%Z else if String.eqb t "09:00" then Some 32400000%Z else if String.eqb t "00:00" then Some 0%Z else None else None.
Definition d_wkt (t : string) : outcome (@geom (string * string)) := if String.eqb t "LINESTRING(0 0,1 1)" then Ok (Lines [[("0", "0"); ("1", "1")]]) else Throw Unreadable.
Definition d_place (x y : string) : outcome (string * string) := Ok (x, y).
Definition d_match (cli : source) (files : list (option file)) := match_tracks d_chrono d_wkt d_place d_number isort (fun l => l) (m_vm (on_console ++ cli)) files.
Definition both : source := [("compare", VB true); ("console", VB true); ("match-tracks", VL ["a.csv"]); ("compare-tracks", VL ["b.csv"])].
Definition d_compare (cli : source) (files : list (option file)) := compare_tracks d_chrono d_wkt d_place d_number isort (fun l => l) "compare-" (k_vm (both ++ cli)) files.
Definition day (l : list (string * string * string)) : list (option file) :=
  [Some (mkFile ["id"; "time"; "x"; "y"] (map (fun e => [fst (fst e); snd (fst e); snd e; snd e]) l))].

Example C92_match_example : let m := m_vm (on_console ++ [("mdp-turn-factor", VQ 2); ("radius", VQ 50); ("candidate-search", VS "next")]) in
  let c := get (match_correct always codes m) some_match in let s := match_settings_of m c in
  match_correct always codes m = Some c /\ s_mdp_turn s = 2%Q /\ s_hmm_turn s = (6 # 10)%Q /\ s_radius s = 50%Q /\ s_radius_lower s = 50%Q /\ s_radius_upper s = 10000%Q /\ s_k_nearest s = 1%Z
  /\ s_console s = true /\ s_filename s = "matches.csv" /\ final (m "mdp-turn-factor") = true /\ final (m "hmm-turn-factor") = false.
Proof. cbv zeta. split; [apply get_spec; vm_compute; reflexivity|]. repeat match goal with |- _ /\ _ => split end; vm_compute; reflexivity. Qed.
Example C92_compare_example : let m := k_vm (both ++ [("compare-split-direction-tolerance", VQ 45); ("compare-id", VL ["a"; "b"])]) in
  let c := get (compare_correct codes m) some_compare in let s := compare_settings_of m c in
  compare_correct codes m = Some c /\ k_direction s = 45%Q /\ k_split s = 1%Q /\ s_ids (csv_settings_of m "compare-") = ["a"; "b"] /\ s_ids (csv_settings_of m "match-") = ["id"].
Proof. cbv zeta. split; [apply get_spec; vm_compute; reflexivity|]. repeat match goal with |- _ /\ _ => split end; vm_compute; reflexivity. Qed.
Example C92_rows_example :
  d_match [("id", VL ["day"; "car"]); ("skip-lines", VZ 1)]
    [None; Some (mkFile ["day"; "car"; "x"; "y"] [["unit"; "unit"; "m"; "m"]; ["1"; "2"; "0"; "0"]; ["1"; "3"; "5"; "5"]; ["1"; "3"; "6"; "6"]])]
  = Ok [("1_2", [[("0", "0")]]); ("1_3", [[("5", "5"); ("6", "6")]])]
  /\ d_match [("no-header", VB true); ("wkt", VB true); ("id", VL ["1"]); ("geometry", VS "0")] [Some (mkFile [] [["LineString(0 0,1 1)"; "7"]])] = Ok [("7", [[("0", "0"); ("1", "1")]])]
  /\ d_match [("no-id", VB true); ("no-id-whole-file", VB true)] [None; Some (mkFile ["x"; "y"] [["0"; "1"]; ["2"; "3"]])] = Ok [("1", [[("0", "1"); ("2", "3")]])]
  /\ d_match [] [Some (mkFile ["name"; "x"; "y"] [["a"; "0"; "0"]])] = Throw [].
Proof. repeat split; vm_compute; reflexivity. Qed.
Example C92_same_example : d_match [("time-format", VS "%R"); ("grouped", VB false)] (day [("a", "08:00", "1"); ("b", "09:00", "3"); ("a", "09:00", "2")]) = Ok [("a", [[("1", "1"); ("2", "2")]]); ("b", [[("3", "3")]])]
  /\ d_compare [("compare-grouped", VB false)] (day [("a", "08:00", "1"); ("b", "09:00", "3"); ("a", "09:00", "2")]) = Ok [("a", [[("1", "1"); ("2", "2")]]); ("b", [[("3", "3")]])].
Proof. split; vm_compute; reflexivity. Qed.
Example C92_selected_example : d_match [("selector", VL ["b"])] (day [("a", "", "1"); ("b", "", "3")]) = Ok [("b", [[("3", "3")]])]
  /\ d_compare [("compare-selector", VL ["a"]); ("match-selector", VL ["b"])] (day [("a", "", "1"); ("b", "", "3")]) = Ok [("a", [[("1", "1")]])].
Proof. split; vm_compute; reflexivity. Qed.
Example C92_ids_example : let s := csv_tracks_settings_of (m_vm (on_console ++ [("id", VL ["day"; "car"])])) "" in
  s_id_aggregator s = "_" /\ id_text s ["day"; "car"] ["1"; ""] = Ok "1_" /\ id_text s ["day"; "car"] [""; "1"] = Ok "1" /\ id_text s ["day"; "car"] [""; ""] = Ok "".
Proof. cbv zeta. repeat split; vm_compute; reflexivity. Qed.

(** that the options about the time of the tracks to compare do what they say is false: matching orders the rows by time, comparing reads the same file with the
    same options in the order of its rows *)
Theorem C92_compare_time_refuted : exists files,
  process (options_match 4) MATCH (on_console ++ [("time-format", VS "%R")]) no_config = Ready (m_vm (on_console ++ [("time-format", VS "%R")]))
  /\ process (options_compare 4) COMPARE (both ++ [("compare-time-format", VS "%R")]) no_config = Ready (k_vm (both ++ [("compare-time-format", VS "%R")]))
  /\ d_match [("time-format", VS "%R")] files = Ok [("a", [[("1", "1"); ("2", "2")]])]
  /\ d_compare [("compare-time-format", VS "%R")] files = Ok [("a", [[("2", "2"); ("1", "1")]])].
Proof.
  exists (day [("a", "09:00", "2"); ("a", "08:00", "1")]). split; [apply ready_spec; vm_compute; reflexivity|]. split; [apply ready_spec; vm_compute; reflexivity|]. split; vm_compute; reflexivity.
Qed.
(** that rows with different columns have different ids is false if the character between them occurs in one, or if there is none *)
Theorem C92_ids_refuted :
  d_match [("id", VL ["day"; "car"])] [Some (mkFile ["day"; "car"; "x"; "y"] [["1"; "2_3"; "0"; "0"]; ["1_2"; "3"; "5"; "5"]])] = Ok [("1_2_3", [[("0", "0"); ("5", "5")]])]
  /\ d_match [("id", VL ["day"; "car"]); ("id-aggregator", VS "")] [Some (mkFile ["day"; "car"; "x"; "y"] [["1"; "23"; "0"; "0"]; ["12"; "3"; "5"; "5"]])] = Ok [("123", [[("0", "0"); ("5", "5")]])].
Proof. split; vm_compute; reflexivity. Qed.
(** that a track with unreadable times is refused or keeps its order is false: its times are all zero, and what is unreadable goes before what is not *)
Theorem C92_unreadable_refuted : d_match [("time-format", VS "%R")] (day [("a", "08:00", "1"); ("a", "9 am", "2"); ("a", "09:00", "3")]) = Ok [("a", [[("2", "2"); ("1", "1"); ("3", "3")]])]
  /\ (exists sort, sorts sort /\ match_tracks d_chrono d_wkt d_place d_number sort (fun l => l) (m_vm on_console) (day [("a", "08:00", "1"); ("a", "09:00", "2")]) = Ok [("a", [[("2", "2"); ("1", "1")]])]).
Proof. split; [vm_compute; reflexivity|]. exists (fun l => isort (rev l)). split; [apply isort_rev_ok|]. vm_compute; reflexivity. Qed.
(** that an absent column of the time is left out is false: the text between the columns stays, and a number is none any more *)
Theorem C92_absent_time_refuted : exists files,
  d_match [("no-parse-time", VB true)] files = Ok [("a", [[("1", "1"); ("2", "2")]])]
  /\ d_match [("no-parse-time", VB true); ("time", VL ["time"; "fraction"])] files = Ok [("a", [[("2", "2"); ("1", "1")]])].
Proof. exists (day [("a", "9", "2"); ("a", "8", "1")]). split; vm_compute; reflexivity. Qed.

Print Assumptions C92_match.
Print Assumptions C92_match_corrected.
Print Assumptions C92_match_all.
Print Assumptions C92_match_untouched.
Print Assumptions C92_compare.
Print Assumptions C92_csv_match.
Print Assumptions C92_csv_compare.
Print Assumptions C92_csv_all.
Print Assumptions C92_ids.
Print Assumptions C92_missing.
Print Assumptions C92_no_time_columns.
Print Assumptions C92_rows.
Print Assumptions C92_selected.
Print Assumptions C92_row.
Print Assumptions C92_upper.
Print Assumptions C92_cell.
Print Assumptions C92_digits.
Print Assumptions C92_time.
Print Assumptions C92_before_1970.
Print Assumptions C92_compare_time_ignored.
Print Assumptions C92_compare_time.
Print Assumptions C92_same_tracks.
Print Assumptions C92_compare_time_refuted.
Print Assumptions C92_ids_refuted.
Print Assumptions C92_unreadable_refuted.
Print Assumptions C92_absent_time_refuted.
Print Assumptions C92_match_corrected_untouched.
