(** Model of the options: /repo/src/app/src/app/options.cpp 37-375 (corrections), 377-1351 (which options there are), 1353-1425 (reading them), and of
    src/app/settings.cpp 79-98.

    Turning the words of the command line or the lines of the configuration file into names with values is left to Boost and not modelled, the order
    and the rules for storing them are: [po::store] keeps what an earlier source gave, checks kinds, refuses a second occurrence of an option
    that is no list, and then fills in defaults; [vm[name]] of an unknown name is an empty value; [po::notify] refuses if a required option is
    missing.  Texts of help and messages are left out, and so are options without influence on the corrections in the result of these (they are in the
    lists of options).  Numbers are rationals.  Directories and the syntax of tag filters are oracles. *)
From Coq Require Import ZArith QArith Ascii String.
From Verif Require Import Base Srs.
Local Open Scope string_scope.

Inductive kind := KB | KS | KL | KZ | KQ.
Inductive value := VB (b : bool) | VS (s : string) | VL (l : list string) | VZ (z : Z) | VQ (q : Q).
Definition kind_of (v : value) : kind := match v with VB _ => KB | VS _ => KS | VL _ => KL | VZ _ => KZ | VQ _ => KQ end.
Definition kind_eqb (a b : kind) : bool := match a, b with KB, KB | KS, KS | KL, KL | KZ, KZ | KQ, KQ => true | _, _ => false end.

(** an option: name, kind, default value, required *)
Record desc := mkDesc { d_name : string; d_kind : kind; d_default : option value; d_required : bool }.
(** [po::variable_value] *)
Inductive var := Empty | Defaulted (v : value) | Given (v : value).
Definition vm := string -> var.
Definition is_empty (v : var) : bool := match v with Empty => true | _ => false end.
Definition defaulted (v : var) : bool := match v with Defaulted _ => true | _ => false end.
Definition final (v : var) : bool := match v with Given _ => true | _ => false end.
Definition set_var (m : vm) (n : string) (v : var) : vm := fun x => if String.eqb x n then v else m x.
(** the member that [notify] writes; it keeps its first value if there is none *)
Definition flag (m : vm) (n : string) : bool := match m n with Defaulted (VB b) | Given (VB b) => b | _ => false end.
Definition str (m : vm) (n : string) : string := match m n with Defaulted (VS s) | Given (VS s) => s | _ => "" end.
Definition strs (m : vm) (n : string) : list string := match m n with Defaulted (VL l) | Given (VL l) => l | _ => [] end.
Definition int (m : vm) (n : string) (z : Z) : Z := match m n with Defaulted (VZ z) | Given (VZ z) => z | _ => z end.
Definition num (m : vm) (n : string) : Q := match m n with Defaulted (VQ q) | Given (VQ q) => q | _ => 0%Q end.

(** *** which options there are *)
Definition switch n := mkDesc n KB (Some (VB false)) false.
Definition onoff n b := mkDesc n KB (Some (VB b)) false.
Definition text n s := mkDesc n KS (Some (VS s)) false.
Definition text0 n := mkDesc n KS None false.
Definition real n q := mkDesc n KQ (Some (VQ q)) false.
Definition whole n z := mkDesc n KZ (Some (VZ z)) false.
(** 377-395, 397-439 (always called without mode, 1252) *)
Definition options_mode : list desc :=
  [mkDesc "help" KB None false; mkDesc "version" KB None false; text "config" "options.conf"; switch "verbose"; switch "quiet";
   switch "prepare"; switch "match"; switch "server"; switch "compare"].
(** 526-536, 886-895; [cores]: [std::thread::hardware_concurrency] *)
Definition options_work (cores : Z) : list desc := options_mode ++ [switch "read-line"; switch "console"; whole "threads" cores].
(** 451-461 *)
Definition options_output (file : string) : list desc := [text0 "output"; text "filename" file].
(** 631-645, 647-664 *)
Definition options_srs (p : string) : list desc := [whole (p ++ "srs") 4326; text0 (p ++ "srs-type")].
Definition options_srs_transform (p : string) : list desc := options_srs p ++ [mkDesc (p ++ "transform-srs") KZ None false; text0 (p ++ "transform-srs-type")].
(** 674-686 *)
Definition options_files : list desc := [text "graph-file" "graph.bin"; text "tags-file" "tags.bin"; text "index-file" "index.bin"].
(** 823-849 *)
Definition options_memory : list desc :=
  [onoff "memory-mapping" true; onoff "memory-mapped-graph" true; onoff "memory-mapped-indices" true; onoff "memory-mapped-tags" true].
(** 897-927 *)
Definition options_tracks (p : string) : list desc := [mkDesc (p ++ "tracks") KL None false; text0 (p ++ "tracks-file-type")].
(** 929-979, 981-1009 *)
Definition options_csv_tracks (p : string) : list desc :=
  [text (p ++ "delimiter") ","; onoff (p ++ "grouped") true; whole (p ++ "skip-lines") 0; switch (p ++ "no-header"); switch (p ++ "no-id");
   switch (p ++ "no-id-whole-file"); mkDesc (p ++ "id") KL (Some (VL ["id"])) false; text (p ++ "id-aggregator") "_"; switch (p ++ "wkt");
   text (p ++ "x") "x"; text (p ++ "y") "y"; text (p ++ "geometry") "geometry"; mkDesc (p ++ "selector") KL None false;
   mkDesc (p ++ "time") KL (Some (VL ["time"])) false; text (p ++ "time-aggregator") "_"; text (p ++ "time-format") "%FT%T%Oz"; switch (p ++ "no-parse-time")].
(** 1011-1216 *)
Definition options_matching : list desc :=
  [real "max-time" 0; onoff "filter-duplicates" true; onoff "simplify-track" true; real "simplify-track-distance-tolerance" 5; onoff "median-merge" true;
   real "median-merge-distance-tolerance" 10; onoff "adaptive-median-merge" true; onoff "within-edge-turns" false; switch "a-star";
   real "routing-max-distance-factor" 5; onoff "candidate-adoption-siblings" true; onoff "candidate-adoption-nearby" true;
   onoff "candidate-adoption-reverse" false; text "candidate-search" "combined"; real "radius" 200; real "radius-upper-limit" 10000;
   real "radius-lower-limit" 200; onoff "adaptive-radius" true; whole "k-nearest" 16;
   text "model" "value-iteration"; onoff "skip-errors" true; whole "state-size" 2; real "discount" (99 # 100);
   real "mdp-distance-factor" (8 # 10); real "mdp-length-factor" (3 # 10); real "mdp-azimuth-factor" (5 # 10); real "mdp-direction-factor" (6 # 10);
   real "mdp-turn-factor" (5 # 10); real "hmm-distance-factor" (8 # 10); real "hmm-length-factor" (1 # 10); real "hmm-azimuth-factor" (2 # 10);
   real "hmm-direction-factor" (8 # 10); real "hmm-turn-factor" (6 # 10); real "threshold" (1 # 1000); real "learning-rate" (9 # 10);
   real "epsilon" (5 # 10); real "early-stop-factor" 1; whole "max-episodes" 1000000000].
(** 1259-1279, 538-579, 581-629, 666-672, 688-740, 768-821, 851-884 *)
Definition options_prepare : list desc :=
  options_mode ++ [mkDesc "file" KL None true; mkDesc "output" KS None true; text "format" "osm"; text "osm-profile" "car"; text "osm-query" "true";
    text "osm-filter" "true"; text "osm-oneway" "false"; text "osm-oneway-reverse" "false"] ++ options_srs_transform "" ++ options_files
  ++ [text "graph-import-file" "tmp_graph.bin"; text "tags-import-file" "tmp_tags.bin"; text "index-build-file" "tmp_index_build.bin";
      text "osm-vertices-file" "tmp_osm_vertices.bin"; text "osm-tags-file" "tmp_osm_tags.bin"; whole "initial-file-size" 134217728;
      text0 "export-nodes-csv-file"; text0 "export-edges-csv-file"; text0 "export-network-osm-file"; text "simplify" "all";
      onoff "remove-unconnected" false; onoff "remove-duplicate-nodes" false; onoff "remove-duplicate-edges" false] ++ options_memory
  ++ [onoff "memory-mapped-preparation" true; onoff "memory-mapped-graph-import" true; onoff "memory-mapped-tags-import" true;
      onoff "memory-mapped-index-build" true; onoff "memory-mapped-osm-vertices" true; onoff "memory-mapped-osm-tags" true].
(** 1293-1329, 441-449, 463-496, 742-766 *)
Definition options_match (cores : Z) : list desc :=
  options_work cores ++ [mkDesc "input" KS None true] ++ options_srs "network-" ++ options_files ++ options_memory ++ options_output "matches.csv"
  ++ [text "columns" "id,aborted,duration,track,prepared,match,track_length,prepared_length,match_length"; onoff "export-edges" false; onoff "join-merges" true]
  ++ options_tracks "" ++ options_srs_transform "tracks-" ++ options_csv_tracks ""
  ++ [text0 "candidates"; text "candidates-columns" "id,part_index,set_index,candidate_index,projection,distance,from,to,edge_id,is_result"]
  ++ options_matching.
(** 1331-1351, 498-524, 1218-1248 *)
Definition options_compare (cores : Z) : list desc :=
  options_work cores ++ options_output "comparison.csv"
  ++ [text "columns" "id,duration,match,ground_truth,match_length,ground_truth_length,correct_fraction,error_fraction,correct,error_added,error_missed,corrects,error_adds,error_misses"]
  ++ options_tracks "match-" ++ options_srs_transform "match-" ++ options_csv_tracks "match-" ++ options_tracks "compare-"
  ++ [switch "ignore-non-existent"; real "compare-simplify-distance-tolerance" (1 # 10); real "compare-simplify-reverse-tolerance" (1 # 10);
      real "compare-adoption-distance-tolerance" (1 # 10); real "compare-split-distance-tolerance" 1; real "compare-split-direction-tolerance" 90]
  ++ options_srs_transform "compare-" ++ options_csv_tracks "compare-".

(** *** reading them *)
Definition source := list (string * value).
Definition find_desc (ds : list desc) (n : string) : option desc := List.find (fun d => String.eqb (d_name d) n) ds.
(** [po::store], one occurrence; [old]: what was there before this source *)
Definition store_one (ds : list desc) (allow : bool) (old : vm) (m : vm) (e : string * value) : outcome vm :=
  match find_desc ds (fst e) with
  | None => if allow then Ok m else Throw m
  | Some d =>
      if final (old (fst e)) then Ok m
      else if negb (kind_eqb (d_kind d) (kind_of (snd e))) then Throw m
      else match m (fst e), snd e with
           | Given (VL l), VL l' => Ok (set_var m (fst e) (Given (VL (l ++ l'))))
           | Given _, _ => Throw m
           | _, v => Ok (set_var m (fst e) (Given v))
           end
  end.
Definition fill_default (m : vm) (d : desc) : vm :=
  match d_default d with Some v => if is_empty (m (d_name d)) then set_var m (d_name d) (Defaulted v) else m | None => m end.
Definition store (ds : list desc) (allow : bool) (src : source) (m : vm) : outcome vm :=
  bindO (foldO (store_one ds allow m) src m) (fun m' => m') (fun m' => Ok (fold_left fill_default ds m')).

Inductive mode := NONE | PREPARE | MATCH | SERVER | COMPARE.
Definition mode_eqb (a b : mode) : bool :=
  match a, b with NONE, NONE | PREPARE, PREPARE | MATCH, MATCH | SERVER, SERVER | COMPARE, COMPARE => true | _, _ => false end.
(** 1353-1360, 1362-1369: [config]: the configuration files that exist *)
Definition parse (ds : list desc) (md : mode) (cli : source) (config : string -> option source) : outcome vm :=
  let allow := mode_eqb md NONE in
  bindO (store ds allow cli (fun _ => Empty)) (fun m => m) (fun m =>
  match config (str m "config") with
  | Some src => store ds allow src m
  | None => if defaulted (m "config") then Ok m else Throw m
  end).
(** 1371-1382 *)
Definition show_help_checker (m : vm) (md : mode) : bool :=
  (mode_eqb md NONE && negb (flag m "prepare") && negb (flag m "match") && negb (flag m "server") && negb (flag m "compare"))
  || (mode_eqb md PREPARE && flag m "prepare") || (mode_eqb md MATCH && flag m "match") || (mode_eqb md SERVER && flag m "server")
  || (mode_eqb md COMPARE && flag m "compare").
(** 1405-1425; [process] returns false for all but [Ready] *)
Inductive processed := Ready (m : vm) | Helped | Versioned | Refused.
Definition missing (ds : list desc) (m : vm) : bool := existsb (fun d => d_required d && is_empty (m (d_name d))) ds.
Definition process (ds : list desc) (md : mode) (cli : source) (config : string -> option source) : processed :=
  match parse ds md cli config with
  | Ok m =>
      if negb (is_empty (m "help")) && show_help_checker m md then Helped
      else if negb (is_empty (m "version")) then Versioned
      else if missing ds m then Refused else Ready m
  | _ => Refused
  end.

(** *** corrections *)
Section Correct.
  Variable is_directory : string -> bool.
  Variable filter_pattern : string -> bool.
  Variable latlong : Z -> option bool.

  Fixpoint mem (s : string) (l : list string) : bool := match l with [] => false | x :: r => String.eqb s x || mem s r end.
  (** 45-68; [count]: the counter *)
  Definition count (m : vm) : nat :=
    (if flag m "prepare" then 1 else 0) + (if flag m "match" then 1 else 0) + (if flag m "server" then 1 else 0) + (if flag m "compare" then 1 else 0).
  Definition last_mode (m : vm) : mode :=
    if flag m "compare" then COMPARE else if flag m "server" then SERVER else if flag m "match" then MATCH else if flag m "prepare" then PREPARE else NONE.
  (** 39-43, 321-324: verbose, mode *)
  Definition mode_correct (m : vm) : outcome (bool * mode) :=
    let v := flag m "verbose" && negb (flag m "quiet") in
    if Nat.eqb (count m) 1 then Ok (v, last_mode m) else Throw (v, NONE).
  (** 76-91: [boost::split] *)
  Fixpoint split_on (c : ascii) (s : string) : list string :=
    match s with
    | EmptyString => [""]
    | String a r => if Ascii.eqb a c then "" :: split_on c r
                    else match split_on c r with x :: l => String a x :: l | [] => [String a ""] end
    end.
  Definition export_edge_ids (columns : string) : bool := mem "edge_ids" (split_on "," columns).
  (** 137-157 *)
  Definition files_correct (m : vm) : bool :=
    let g := str m "graph-file" in let i := str m "index-file" in let t := str m "tags-file" in
    negb (String.eqb g "") && negb (String.eqb i "") && negb (String.eqb t "")
    && Nat.eqb (length (nodup string_dec [g; i; t])) 3.
  (** 174-191: graph, indices, tags *)
  Definition memory_correct (m : vm) : bool * bool * bool :=
    let g := flag m "memory-mapped-graph" in let i := flag m "memory-mapped-indices" in let t := flag m "memory-mapped-tags" in
    if negb (defaulted (m "memory-mapping")) then
      let a := flag m "memory-mapping" in
      ((if defaulted (m "memory-mapped-graph") then a else g), (if defaulted (m "memory-mapped-indices") then a else i),
       (if defaulted (m "memory-mapped-tags") then a else t))
    else (g, i, t).
  (** 193-228: graph import, tags import, index build, OSM vertices, OSM tags *)
  Definition prepare_memory_correct (m : vm) : bool * bool * bool * bool * bool :=
    let all_manual := negb (defaulted (m "memory-mapping")) in
    let prep_manual := negb (defaulted (m "memory-mapped-preparation")) in
    let prep := if all_manual && negb prep_manual then flag m "memory-mapping" else flag m "memory-mapped-preparation" in
    let prep_manual := prep_manual || all_manual in
    let one n := if prep_manual && defaulted (m n) then prep else flag m n in
    (one "memory-mapped-graph-import", one "memory-mapped-tags-import", one "memory-mapped-index-build", one "memory-mapped-osm-vertices", one "memory-mapped-osm-tags").

  (** [std::filesystem::path::extension] *)
  Fixpoint after_last (c : ascii) (s acc : string) : string :=
    match s with EmptyString => acc | String a r => after_last c r (if Ascii.eqb a c then r else acc) end.
  Fixpoint from_last (c : ascii) (s acc : string) : string :=
    match s with EmptyString => acc | String a r => from_last c r (if Ascii.eqb a c then s else acc) end.
  Definition extension (file : string) : string :=
    let f := after_last "/" file file in
    if String.eqb f ".." then "" else match f with EmptyString => "" | String _ r => from_last "." r "" end.
  (** [boost::to_lower] *)
  Definition lower_char (a : ascii) : ascii := let n := nat_of_ascii a in if (65 <=? n)%nat && (n <=? 90)%nat then ascii_of_nat (n + 32) else a.
  Fixpoint lower (s : string) : string := match s with EmptyString => "" | String a r => String (lower_char a) (lower r) end.
  (** 238-247 *)
  Fixpoint detect (files : list string) (first ext : string) : outcome string :=
    match files with
    | [] => Ok ext
    | f :: r => let e := extension f in let first := if String.eqb first "" then e else first in
                if String.eqb e first then detect r first e else Throw e
    end.
  (** 249-251 *)
  Definition strip_dot (s : string) : string := match s with String "."%char r => r | _ => s end.
  Definition file_types : list string := ["csv"; "gpx"; "list"; "seattle"].
  (** 230-265 *)
  Definition tracks_correct (m : vm) (files : list string) (ext : string) : outcome string :=
    if negb (is_empty (m "read-line")) && negb (flag m "read-line") then
      match files with
      | [] => Throw ext
      | _ =>
          bindO (if is_empty (m "tracks-file-type") && is_empty (m "match-file-type") && is_empty (m "compare-file-type")
                 then bindO (detect files "" ext) (fun e => e) (fun e => Ok (strip_dot e)) else Ok ext)
            (fun e => e) (fun e => let e := lower e in if mem e file_types then Ok e else Throw e)
      end
    else Ok ext.

  (** 267-308: within edge turns, lower limit, upper limit, number of nearest *)
  Definition searches : list string := ["circle"; "nearest"; "combined"; "next"].
  Definition within_correct (m : vm) : bool :=
    if negb (flag m "candidate-adoption-nearby") && negb (flag m "candidate-adoption-siblings") && negb (flag m "candidate-adoption-reverse")
       && defaulted (m "within-edge-turns") then true else flag m "within-edge-turns".
  Definition Qltb (a b : Q) : bool := negb (Qle_bool b a).
  Definition upper_correct (m : vm) : Q := if Qltb (num m "radius-upper-limit") (num m "radius") then num m "radius" else num m "radius-upper-limit".
  Definition lower_correct (m : vm) : Q := if Qltb (num m "radius") (num m "radius-lower-limit") then num m "radius" else num m "radius-lower-limit".
  Definition k_correct (m : vm) : Z := if String.eqb (str m "candidate-search") "next" then 1%Z else int m "k-nearest" 0.
  (** 310-319; [state_size] is unsigned *)
  Definition models : list string := ["policy-iteration"; "value-iteration"; "q-learning"; "viterbi"].
  Definition state_size_ok (m : vm) : bool := ((2 <=? int m "state-size" 0) && (int m "state-size" 0 <=? 3))%Z.
  (** settings.cpp 79-98: an unknown name leaves the default, matching/settings.hpp 58, 63 *)
  Inductive search := CIRCLE | NEAREST | COMBINED | NEXT.
  Inductive model := POLICY_ITERATION | VALUE_ITERATION | Q_LEARNING | VITERBI.
  Definition search_of (s : string) : search :=
    if String.eqb s "circle" then CIRCLE else if String.eqb s "nearest" then NEAREST else if String.eqb s "combined" then COMBINED
    else if String.eqb s "next" then NEXT else COMBINED.
  Definition model_of (s : string) : model :=
    if String.eqb s "policy-iteration" then POLICY_ITERATION else if String.eqb s "value-iteration" then VALUE_ITERATION
    else if String.eqb s "q-learning" then Q_LEARNING else if String.eqb s "viterbi" then VITERBI else VALUE_ITERATION.

  (** 129-135 *)
  Definition srs_correct (m : vm) (p : string) : outcome srs := compute_srs latlong (int m (p ++ "srs") 0) (str m (p ++ "srs-type")).
  Definition srs_transform_correct (m : vm) (p : string) : outcome srs_transform :=
    compute_srs_transform latlong (int m (p ++ "srs") 0) (str m (p ++ "srs-type")) (int m (p ++ "transform-srs") (-1)) (str m (p ++ "transform-srs-type")).

  (** what matching works with *)
  Record match_conf := mkMatch { c_verbose : bool; c_network : srs; c_mapped : bool * bool * bool; c_edge_ids : bool; c_type : string; c_tracks : srs_transform;
    c_within : bool; c_lower : Q; c_radius : Q; c_upper : Q; c_k : Z; c_search : search; c_model : model }.
  (** 345-363; the order of the checks only decides which of several messages is shown *)
  Definition match_correct (m : vm) : option match_conf :=
    match mode_correct m with
    | Ok (v, _) =>
        if is_directory (str m "input") then
          match srs_correct m "network-" with
          | Ok n =>
              if files_correct m then
                match tracks_correct m (strs m "tracks") (str m "tracks-file-type") with
                | Ok ty =>
                    match srs_transform_correct m "tracks-" with
                    | Ok t =>
                        if mem (str m "candidate-search") searches && mem (str m "model") models && state_size_ok m
                        then Some (mkMatch v n (memory_correct m) (export_edge_ids (str m "columns")) ty t (within_correct m) (lower_correct m) (num m "radius")
                               (upper_correct m) (k_correct m) (search_of (str m "candidate-search")) (model_of (str m "model")))
                        else None
                    | _ => None
                    end
                | _ => None
                end
              else None
          | _ => None
          end
        else None
    | _ => None
    end.

  Record prepare_conf := mkPrepare { p_verbose : bool; p_format : string; p_srs : srs_transform; p_duplicate_nodes : bool; p_simplify : string;
    p_mapped : bool * bool * bool; p_temporary : bool * bool * bool * bool * bool }.
  Definition formats : list string := ["osm"; "arc-node"; "seattle"; "melbourne"; "giscup"].
  (** 100-127 *)
  Definition profile_correct (m : vm) : bool :=
    mem (str m "osm-profile") ["car"; "manual"]
    && (if String.eqb (str m "osm-profile") "manual"
        then filter_pattern (str m "osm-query") && filter_pattern (str m "osm-filter") && filter_pattern (str m "osm-oneway") && filter_pattern (str m "osm-oneway-reverse")
        else true).
  (** 159-172 *)
  Definition simplifications : list string := ["none"; "all"; "osm-aware"].
  Definition duplicate_nodes_correct (m : vm) : bool :=
    if String.eqb (str m "format") "seattle" && defaulted (m "remove-duplicate-nodes") then true else flag m "remove-duplicate-nodes".
  (** 326-336 *)
  Definition prepare_correct (m : vm) : option prepare_conf :=
    match mode_correct m with
    | Ok (v, _) =>
        if mem (str m "format") formats && profile_correct m then
          match srs_transform_correct m "" with
          | Ok t => if files_correct m && mem (str m "simplify") simplifications
                    then Some (mkPrepare v (str m "format") t (duplicate_nodes_correct m) (str m "simplify") (memory_correct m) (prepare_memory_correct m))
                    else None
          | _ => None
          end
        else None
    | _ => None
    end.

  Record compare_conf := mkCompare { k_verbose : bool; k_match_type : string; k_match : srs_transform; k_compare_type : string; k_compare : srs_transform }.
  (** 365-375 *)
  Definition compare_correct (m : vm) : option compare_conf :=
    match mode_correct m with
    | Ok (v, _) =>
        match tracks_correct m (strs m "match-tracks") (str m "match-tracks-file-type"), srs_transform_correct m "match-",
              tracks_correct m (strs m "compare-tracks") (str m "compare-tracks-file-type"), srs_transform_correct m "compare-" with
        | Ok a, Ok s, Ok b, Ok t => Some (mkCompare v a s b t)
        | _, _, _, _ => None
        end
    | _ => None
    end.
  (** app/compare.cpp 93-99 *)
  Definition compare_types_ok (c : compare_conf) : bool := mem (k_match_type c) ["csv"; "gpx"] && mem (k_compare_type c) ["csv"; "gpx"].
End Correct.
