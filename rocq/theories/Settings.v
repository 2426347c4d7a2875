(** Model of the way from the options to the settings of the library and of reading the text of CSV rows with them:
    /repo/src/app/src/app/settings.cpp 22-156, src/library/include/matching/settings.hpp 27-79, compare/settings.hpp 24-39, io/csv_settings.hpp 24-38;
    app/match.hpp 89-97 and app/src/app/compare.cpp 51-61, 73-82 (which settings a reader gets); io/track/csv_track_importer.hpp 68-214 up to the
    parsed row of Csv.v; src/io/csv_importer.cpp 31-51; src/io/importer.cpp 32-44, 102-114.

    Texts of cells are given: the CSV library splits the file at the delimiters and drops rows with another number of cells than the header.  Numbers of
    coordinates, WKT and formatted times are oracles.  An exception ends the reading; what was passed on before it is left out. *)
From Coq Require Import ZArith QArith NArith Ascii String.
From Verif Require Import Base Srs Options Csv Utils.
Local Open Scope nat_scope.
Local Open Scope string_scope.

(** *** settings *)
(** matching/settings.hpp 41-77 *)
Record match_settings := mkMs { s_verbose : bool; s_quiet : bool; s_tracks : srs_transform; s_export_edges : bool; s_export_edge_ids : bool; s_join_merges : bool;
  s_output : string; s_filename : string; s_export_candidates : string; s_console : bool;
  s_filter_duplicates : bool; s_simplify_track : bool; s_median_merge : bool; s_adaptive_median_merge : bool; s_within_edge_turns : bool; s_a_star : bool;
  s_adoption_siblings : bool; s_adoption_nearby : bool; s_adoption_reverse : bool; s_adaptive_radius : bool;
  s_max_time : Q; s_routing_factor : Q; s_simplify_tolerance : Q; s_median_tolerance : Q; s_radius : Q; s_radius_upper : Q; s_radius_lower : Q; s_k_nearest : Z;
  s_search : search; s_skip_errors : bool; s_state_size : Z; s_discount : Q; s_model : model;
  s_mdp_distance : Q; s_mdp_length : Q; s_mdp_azimuth : Q; s_mdp_direction : Q; s_mdp_turn : Q;
  s_hmm_distance : Q; s_hmm_length : Q; s_hmm_azimuth : Q; s_hmm_direction : Q; s_hmm_turn : Q;
  s_threshold : Q; s_learning_rate : Q; s_epsilon : Q; s_early_stop : Q; s_episodes : Z }.
(** the initial values of 41-77 *)
Definition match_defaults (t : srs_transform) : match_settings :=
  mkMs false false t false false true "" "" "" false true true true true false false true true false true
    0 5 5 10 200 10000 200 16 COMBINED true 2 (99 # 100) VALUE_ITERATION
    (8 # 10) (3 # 10) (5 # 10) (6 # 10) (5 # 10) (8 # 10) (1 # 10) (2 # 10) (8 # 10) (6 # 10) (1 # 1000) (9 # 10) (5 # 10) 1 1000000000.
(** settings.cpp 22-101; [c]: what the corrections of the options made of them (Options.v) *)
Definition match_settings_of (m : vm) (c : match_conf) : match_settings :=
  mkMs (c_verbose c) (flag m "quiet") (c_tracks c) (flag m "export-edges") (c_edge_ids c) (flag m "join-merges")
    (str m "output") (str m "filename") (str m "candidates") (flag m "console")
    (flag m "filter-duplicates") (flag m "simplify-track") (flag m "median-merge") (flag m "adaptive-median-merge") (c_within c) (flag m "a-star")
    (flag m "candidate-adoption-siblings") (flag m "candidate-adoption-nearby") (flag m "candidate-adoption-reverse") (flag m "adaptive-radius")
    (num m "max-time") (num m "routing-max-distance-factor") (num m "simplify-track-distance-tolerance") (num m "median-merge-distance-tolerance")
    (c_radius c) (c_upper c) (c_lower c) (c_k c)
    (c_search c) (flag m "skip-errors") (int m "state-size" 2) (num m "discount") (c_model c)
    (num m "mdp-distance-factor") (num m "mdp-length-factor") (num m "mdp-azimuth-factor") (num m "mdp-direction-factor") (num m "mdp-turn-factor")
    (num m "hmm-distance-factor") (num m "hmm-length-factor") (num m "hmm-azimuth-factor") (num m "hmm-direction-factor") (num m "hmm-turn-factor")
    (num m "threshold") (num m "learning-rate") (num m "epsilon") (num m "early-stop-factor") (int m "max-episodes" 1000000000).

(** compare/settings.hpp 26-37 *)
Record compare_settings := mkKs { k_quiet : bool; k_talk : bool; k_matches : srs_transform; k_ground_truth : srs_transform; k_output : string; k_filename : string;
  k_console : bool; k_ignore : bool; k_simplify : Q; k_reverse : Q; k_adoption : Q; k_split : Q; k_direction : Q }.
Definition compare_defaults (a b : srs_transform) : compare_settings :=
  mkKs false false a b "" "" false false (1 # 10) (1 # 10) (1 # 10) 1 90.
(** settings.cpp 103-124 *)
Definition compare_settings_of (m : vm) (c : compare_conf) : compare_settings :=
  mkKs (flag m "quiet") (k_verbose c) (k_match c) (k_compare c) (str m "output") (str m "filename") (flag m "console") (flag m "ignore-non-existent")
    (num m "compare-simplify-distance-tolerance") (num m "compare-simplify-reverse-tolerance") (num m "compare-adoption-distance-tolerance")
    (num m "compare-split-distance-tolerance") (num m "compare-split-direction-tolerance").

(** io/csv_settings.hpp 26-35 *)
Record csv_settings := mkCs { s_grouped : bool; s_no_header : bool; s_no_id : bool; s_no_id_whole_file : bool; s_wkt : bool; s_no_parse_time : bool; s_skip_lines : Z;
  s_delimiter : string; s_id_aggregator : string; s_x : string; s_y : string; s_geometry : string; s_time_aggregator : string; s_time_format : string;
  s_ids : list string; s_times : list string }.
Definition csv_defaults : csv_settings := mkCs true false false false false false 0 "," "_" "x" "y" "geometry" "_" "%FT%T%Oz" ["id"] ["time"].
(** settings.cpp 126-145: all but the time *)
Definition csv_settings_of (m : vm) (p : string) : csv_settings :=
  mkCs (flag m (p ++ "grouped")) (flag m (p ++ "no-header")) (flag m (p ++ "no-id")) (flag m (p ++ "no-id-whole-file")) (flag m (p ++ "wkt")) true (int m (p ++ "skip-lines") 0)
    (str m (p ++ "delimiter")) (str m (p ++ "id-aggregator")) (str m (p ++ "x")) (str m (p ++ "y")) (str m (p ++ "geometry"))
    (s_time_aggregator csv_defaults) (s_time_format csv_defaults) (strs m (p ++ "id")) (s_times csv_defaults).
(** settings.cpp 147-156 *)
Definition csv_tracks_settings_of (m : vm) (p : string) : csv_settings :=
  let s := csv_settings_of m p in
  mkCs (s_grouped s) (s_no_header s) (s_no_id s) (s_no_id_whole_file s) (s_wkt s) (flag m (p ++ "no-parse-time")) (s_skip_lines s)
    (s_delimiter s) (s_id_aggregator s) (s_x s) (s_y s) (s_geometry s) (str m (p ++ "time-aggregator")) (str m (p ++ "time-format")) (s_ids s) (strs m (p ++ "time")).

(** *** the text of rows *)
Section Text.
  Context {P : Type}.
  (** the milliseconds which a format reads from a text, WKT in capitals, a place from two coordinates *)
  Variable chrono : string -> string -> option Z.
  Variable wkt : string -> outcome (@geom P).
  Variable place : string -> string -> outcome P.
  (** [std::to_string], [std::sort] by time, iteration of the map of measurements: as in Csv.v *)
  Variable number : nat -> string.
  Variable sort : list (nat * P) -> list (nat * P).
  Variable order : list (string * list (nat * P)) -> list (string * list (nat * P)).

  (** a file that exists: names of the columns, rows of cells *)
  Record file := mkFile { f_columns : list string; f_rows : list (list string) }.

  Definition is_num (s : string) : bool := is_number (list_ascii_of_string s).
  (** [std::stoul] of digits, unlimited *)
  Definition digits (s : string) : N := fold_left (fun n c => (n * 10 + (N.of_nat (nat_of_ascii c) - 48))%N) (list_ascii_of_string s) 0%N.
  Definition stoul (s : string) : outcome N := if (digits s <? 2 ^ 64)%N then Ok (digits s) else Throw 0%N.
  (** [csv::CSVRow::operator[]]: by number, and by name (the last column of this name); both throw *)
  Definition at_index (cells : list string) (n : N) : outcome string :=
    if (n <? N.of_nat (length cells))%N then match nth_error cells (N.to_nat n) with Some c => Ok c | None => Throw "" end else Throw "".
  Fixpoint index_of (name : string) (columns : list string) (i : N) (found : option N) : option N :=
    match columns with [] => found | c :: r => index_of name r (i + 1)%N (if String.eqb c name then Some i else found) end.
  Definition at_name (columns cells : list string) (name : string) : outcome string :=
    match index_of name columns 0%N None with Some i => at_index cells i | None => Throw "" end.
  (** csv_track_importer.hpp 94-98, 113-114, 142-146, 191-200 *)
  Definition cell (s : csv_settings) (columns cells : list string) (field : string) : outcome string :=
    if s_no_header s && is_num field then bindO (stoul field) (fun _ => "") (fun n => at_index cells n) else at_name columns cells field.

  Definition joined (aggregator text : string) : string := if String.eqb text "" then text else text ++ aggregator.
  (** 90-99 *)
  Definition id_text (s : csv_settings) (columns cells : list string) : outcome string :=
    foldO (fun t f => bindO (cell s columns cells f) (fun c => c) (fun c => Ok (joined (s_id_aggregator s) t ++ c))) (s_ids s) "".
  (** 106-121 *)
  Definition time_text (s : csv_settings) (columns cells : list string) : outcome string :=
    foldO (fun t f =>
      let t := joined (s_time_aggregator s) t in
      if s_no_header s && is_num f then bindO (cell s columns cells f) (fun c => c) (fun c => Ok (t ++ c))
      else if mem f columns then bindO (at_name columns cells f) (fun c => c) (fun c => Ok (t ++ c)) else Ok t) (s_times s) "".
  (** importer.cpp 102-114: an unreadable text leaves zero, milliseconds are cut to seconds, a time before 1970 violates the assertion *)
  Definition parse_time (s : csv_settings) (t : string) : outcome nat :=
    match chrono t (s_time_format s) with
    | None => Ok 0
    | Some ms => let c := Z.quot ms 1000 in if (c <? 0)%Z then UB else Ok (Z.to_nat c)
    end.
  (** 123-138; [None]: the number of measurements of this id so far (Csv.v) *)
  Definition time_value (s : csv_settings) (t : string) : outcome (option nat) :=
    if String.eqb t "" then Ok None
    else if s_no_parse_time s then if is_num t then bindO (stoul t) (fun _ => None) (fun n => Ok (Some (N.to_nat n))) else Ok None
    else bindO (parse_time s t) (fun _ => None) (fun n => Ok (Some n)).
  (** [boost::to_upper] *)
  Definition upper_char (a : ascii) : ascii := let n := nat_of_ascii a in if (97 <=? n)%nat && (n <=? 122)%nat then ascii_of_nat (n - 32) else a.
  Fixpoint upper (s : string) : string := match s with EmptyString => "" | String a r => String (upper_char a) (upper r) end.
  (** 140-209 *)
  Definition geometry_of (s : csv_settings) (columns cells : list string) : outcome (@geom P) :=
    if s_wkt s then bindO (cell s columns cells (s_geometry s)) (fun _ => Unreadable) (fun g => wkt (upper g))
    else bindO (cell s columns cells (s_x s)) (fun _ => Unreadable) (fun x =>
         bindO (cell s columns cells (s_y s)) (fun _ => Unreadable) (fun y =>
         bindO (place x y) (fun p => Point p) (fun p => Ok (Point p)))).
  (** 68-214: what Csv.v gets; the columns of the id are not looked at without ids *)
  Definition parse_row (s : csv_settings) (columns : list string) (i r : nat) (cells : list string) : outcome (row string P) :=
    let bad := mkRow i r "" None Unreadable in
    bindO (if s_no_id s then Ok "" else id_text s columns cells) (fun _ => bad) (fun id =>
    bindO (time_text s columns cells) (fun _ => bad) (fun t =>
    bindO (time_value s t) (fun _ => bad) (fun v =>
    bindO (geometry_of s columns cells) (fun _ => bad) (fun g => Ok (mkRow i r id v g))))).

  Fixpoint parse_rows (s : csv_settings) (columns : list string) (i r : nat) (rows : list (list string)) : outcome (list (row string P)) :=
    match rows with
    | [] => Ok []
    | cells :: rest => bindO (parse_row s columns i r cells) (fun x => [x]) (fun x =>
                       bindO (parse_rows s columns i (r + 1) rest) (fun l => x :: l) (fun l => Ok (x :: l)))
    end.
  (** csv_importer.cpp 31-51; [None]: no file of this name *)
  Fixpoint parse_files (s : csv_settings) (i : nat) (files : list (option file)) : outcome (list (row string P)) :=
    match files with
    | [] => Ok []
    | None :: rest => parse_files s (i + 1) rest
    | Some f :: rest => bindO (parse_rows s (f_columns f) i 0 (skipn (Z.to_nat (s_skip_lines s)) (f_rows f))) (fun l => l) (fun l =>
                        bindO (parse_files s (i + 1) rest) (fun l' => (l ++ l')%list) (fun l' => Ok (l ++ l')%list))
    end.
  Definition grouping (s : csv_settings) (selectors : list string) : settings string := mkSet (s_no_id s) (s_no_id_whole_file s) (s_grouped s) selectors.
  Definition read_files (s : csv_settings) (selectors : list string) (files : list (option file)) : outcome (list (string * list (list P))) :=
    bindO (parse_files s 0 files) (fun _ => []) (fun rows => Ok (read String.eqb number sort order (grouping s selectors) rows)).
  (** match.hpp 89-97 *)
  Definition match_tracks (m : vm) (files : list (option file)) := read_files (csv_tracks_settings_of m "") (strs m "selector") files.
  (** compare.cpp 51-61, 73-82; [p]: "match-" or "compare-" *)
  Definition compare_tracks (p : string) (m : vm) (files : list (option file)) := read_files (csv_settings_of m p) (strs m (p ++ "selector")) files.
End Text.
