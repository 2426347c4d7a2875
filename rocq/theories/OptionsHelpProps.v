(** The help that the project gives to its users (/repo/help.txt) and the options that the program has (C78).
    The tables are the names and the default values in the order of the help text. *)
From Coq Require Import String Ascii QArith.
From Verif Require Import Base Options OptionsProofs OptionsProps.
Local Open Scope string_scope.

(** an option without a value, with one, with one that has a default *)
Inductive doc := Switch | Value | Default (s : string).
(** help.txt 3-30 *)
Definition help_mode : list (string * doc) :=
  [("help", Switch); ("version", Switch); ("config", Default "options.conf"); ("verbose", Switch); ("quiet", Switch); ("prepare", Switch); ("match", Switch); ("server",
Switch); ("compare", Switch)].
(** help.txt 39-499 *)
Definition help_prepare : list (string * doc) :=
  [("help", Switch); ("version", Switch); ("config", Default "options.conf"); ("verbose", Switch); ("quiet", Switch); ("prepare", Switch); ("match", Switch); ("server",
Switch); ("compare", Switch); ("file", Value); ("output", Value); ("format", Default "osm"); ("osm-profile", Default "car"); ("osm-query", Default "true");
("osm-filter", Default "true"); ("osm-oneway", Default "false"); ("osm-oneway-reverse", Default "false"); ("srs", Default "4326"); ("srs-type", Value); ("transform-srs",
Value); ("transform-srs-type", Value); ("graph-file", Default "graph.bin"); ("tags-file", Default "tags.bin"); ("index-file", Default "index.bin"); ("graph-import-file",
Default "tmp_graph.bin"); ("tags-import-file", Default "tmp_tags.bin"); ("index-build-file", Default "tmp_index_build.bin"); ("osm-vertices-file", Default
"tmp_osm_vertices.bin"); ("osm-tags-file", Default "tmp_osm_tags.bin"); ("initial-file-size", Default "134217728"); ("export-nodes-csv-file", Value);
("export-edges-csv-file", Value); ("export-network-osm-file", Value); ("simplify", Default "all"); ("remove-unconnected", Default "off"); ("remove-duplicate-nodes",
Default "off"); ("remove-duplicate-edges", Default "off"); ("memory-mapping", Default "on"); ("memory-mapped-graph", Default "on"); ("memory-mapped-indices", Default
"on"); ("memory-mapped-tags", Default "on"); ("memory-mapped-preparation", Default "on"); ("memory-mapped-graph-import", Default "on"); ("memory-mapped-tags-import",
Default "on"); ("memory-mapped-index-build", Default "on"); ("memory-mapped-osm-vertices", Default "on"); ("memory-mapped-osm-tags", Default "on")].
(** help.txt 507-1150 *)
Definition help_match : list (string * doc) :=
  [("help", Switch); ("version", Switch); ("config", Default "options.conf"); ("verbose", Switch); ("quiet", Switch); ("prepare", Switch); ("match", Switch); ("server",
Switch); ("compare", Switch); ("read-line", Switch); ("console", Switch); ("threads", Default "128"); ("input", Value); ("network-srs", Default "4326");
("network-srs-type", Value); ("graph-file", Default "graph.bin"); ("tags-file", Default "tags.bin"); ("index-file", Default "index.bin"); ("memory-mapping", Default
"on"); ("memory-mapped-graph", Default "on"); ("memory-mapped-indices", Default "on"); ("memory-mapped-tags", Default "on"); ("output", Value); ("filename", Default
"matches.csv"); ("columns", Default "id,aborted,duration,track,prepared,match,track_length,prepared_length,match_length"); ("export-edges", Default "off");
("join-merges", Default "on"); ("tracks", Value); ("tracks-file-type", Value); ("tracks-srs", Default "4326"); ("tracks-srs-type", Value); ("tracks-transform-srs",
Value); ("tracks-transform-srs-type", Value); ("delimiter", Default ","); ("grouped", Default "yes"); ("skip-lines", Default "0"); ("no-header", Switch); ("no-id",
Switch); ("no-id-whole-file", Switch); ("id", Default "id"); ("id-aggregator", Default "_"); ("wkt", Switch); ("x", Default "x"); ("y", Default "y"); ("geometry",
Default "geometry"); ("selector", Value); ("time", Default "time"); ("time-aggregator", Default "_"); ("time-format", Default "%FT%T%Oz"); ("no-parse-time", Switch);
("candidates", Value); ("candidates-columns", Default "id,part_index,set_index,candidate_index,projection,distance,from,to,edge_id,is_result"); ("max-time", Default
"0.0"); ("filter-duplicates", Default "on"); ("simplify-track", Default "on"); ("simplify-track-distance-tolerance", Default "5.0"); ("median-merge", Default "on");
("median-merge-distance-tolerance", Default "10.0"); ("adaptive-median-merge", Default "on"); ("within-edge-turns", Default "off"); ("a-star", Switch);
("routing-max-distance-factor", Default "5.0"); ("candidate-adoption-siblings", Default "on"); ("candidate-adoption-nearby", Default "on");
("candidate-adoption-reverse", Default "off"); ("candidate-search", Default "combined"); ("radius", Default "200.0"); ("radius-upper-limit", Default "10000.0");
("radius-lower-limit", Default "200.0"); ("adaptive-radius", Default "on"); ("k-nearest", Default "16"); ("model", Default "value-iteration"); ("skip-errors", Default
"on"); ("state-size", Default "2"); ("discount", Default "0.99"); ("mdp-distance-factor", Default "0.8"); ("mdp-length-factor", Default "0.3"); ("mdp-azimuth-factor",
Default "0.5"); ("mdp-direction-factor", Default "0.6"); ("mdp-turn-factor", Default "0.5"); ("hmm-distance-factor", Default "0.8"); ("hmm-length-factor", Default
"0.1"); ("hmm-azimuth-factor", Default "0.2"); ("hmm-direction-factor", Default "0.8"); ("hmm-turn-factor", Default "0.6"); ("threshold", Default "1e-3");
("learning-rate", Default "0.9"); ("epsilon", Default "0.5"); ("early-stop-factor", Default "1.0"); ("max-episodes", Default "1000000000")].
(** help.txt 1161-1618 *)
Definition help_compare : list (string * doc) :=
  [("help", Switch); ("version", Switch); ("config", Default "options.conf"); ("verbose", Switch); ("quiet", Switch); ("prepare", Switch); ("match", Switch); ("server",
Switch); ("compare", Switch); ("read-line", Switch); ("console", Switch); ("threads", Default "128"); ("output", Value); ("filename", Default "comparison.csv");
("columns", Default
"id,duration,match,ground_truth,match_length,ground_truth_length,correct_fraction,error_fraction,correct,error_added,error_missed,corrects,error_adds,error_misses");
("match-tracks", Value); ("match-tracks-file-type", Value); ("match-srs", Default "4326"); ("match-srs-type", Value); ("match-transform-srs", Value);
("match-transform-srs-type", Value); ("match-delimiter", Default ","); ("match-grouped", Default "yes"); ("match-skip-lines", Default "0"); ("match-no-header", Switch);
("match-no-id", Switch); ("match-no-id-whole-file", Switch); ("match-id", Default "id"); ("match-id-aggregator", Default "_"); ("match-wkt", Switch); ("match-x", Default
"x"); ("match-y", Default "y"); ("match-geometry", Default "geometry"); ("match-selector", Value); ("match-time", Default "time"); ("match-time-aggregator", Default
"_"); ("match-time-format", Default "%FT%T%Oz"); ("match-no-parse-time", Switch); ("compare-tracks", Value); ("compare-tracks-file-type", Value); ("ignore-non-existent",
Switch); ("compare-simplify-distance-tolerance", Default "0.1"); ("compare-simplify-reverse-tolerance", Default "0.1"); ("compare-adoption-distance-tolerance", Default
"0.1"); ("compare-split-distance-tolerance", Default "1.0"); ("compare-split-direction-tolerance", Default "90.0"); ("compare-srs", Default "4326"); ("compare-srs-type",
Value); ("compare-transform-srs", Value); ("compare-transform-srs-type", Value); ("compare-delimiter", Default ","); ("compare-grouped", Default "yes");
("compare-skip-lines", Default "0"); ("compare-no-header", Switch); ("compare-no-id", Switch); ("compare-no-id-whole-file", Switch); ("compare-id", Default "id");
("compare-id-aggregator", Default "_"); ("compare-wkt", Switch); ("compare-x", Default "x"); ("compare-y", Default "y"); ("compare-geometry", Default "geometry");
("compare-selector", Value); ("compare-time", Default "time"); ("compare-time-aggregator", Default "_"); ("compare-time-format", Default "%FT%T%Oz");
("compare-no-parse-time", Switch)].

(** reading a number: digits, a fraction, a negative exponent *)
Fixpoint decimal (mantissa : Z) (places : option nat) (s : string) : option Q :=
  let value := match places with Some n => Qmake mantissa (Pos.pow 10 (Pos.of_nat n)) | None => inject_Z mantissa end in
  match s with
  | "" => Some (match places with Some 0%nat => inject_Z mantissa | _ => value end)
  | String c r =>
      let d := (Z.of_nat (nat_of_ascii c) - 48)%Z in
      if ((0 <=? d) && (d <=? 9))%Z then decimal (mantissa * 10 + d) (option_map S places) r
      else match c, places, r with
           | "."%char, None, _ => decimal mantissa (Some 0%nat) r
           | "e"%char, None, String "-" (String k "") => Some (Qmake mantissa (Pos.pow 10 (Pos.of_nat (nat_of_ascii k - 48))))
           | _, _, _ => None
           end
  end.
(** a value is the one that is written *)
Definition written (s : string) (v : value) : bool :=
  match v with
  | VS t => String.eqb s t
  | VL [t] => String.eqb s t
  | VL _ => false
  | VB b => mem s (if b then ["on"; "yes"] else ["off"; "no"])
  | VZ z => match decimal 0 None s with Some q => Qeq_bool q (inject_Z z) | None => false end
  | VQ q => match decimal 0 None s with Some q' => Qeq_bool q' q | None => false end
  end.
(** what an option has to be if nobody says anything about it *)
Definition documents (d : doc) (v : var) : bool :=
  match d, v with
  | Switch, Empty | Switch, Defaulted (VB false) | Value, Empty => true
  | Default s, Defaulted v => written s v
  | _, _ => false
  end.

(** 128: the number of threads of the machine where the help was written *)
Definition helps : list (list desc * list (string * doc)) :=
  [(options_mode, help_mode); (options_prepare, help_prepare); (options_match 128, help_match); (options_compare 128, help_compare)].

(** C78: the options that the program has are the ones of the help, in the same order, *)
Theorem C78_help_names ds table : In (ds, table) helps -> map d_name ds = map fst table.
Proof. intros [E|[E|[E|[E|[]]]]]; injection E as <- <-; vm_compute; reflexivity. Qed.
(** and an option that neither the command line nor the configuration file mentions has the value that the help promises. *)
Theorem C78_help ds table md cli config m n d : In (ds, table) helps -> parse ds md cli config = Ok m -> In (n, d) table ->
  given n cli = None -> given n (match config (config_name cli) with Some s => s | None => [] end) = None -> documents d (m n) = true.
Proof.
  intros H E I G1 G2.
  assert (P : NoDup (map d_name ds) /\ has_config ds).
  { apply (C78_names 128). cbn [In]. unfold helps in H. cbn [In] in H. destruct H as [H|[H|[H|[H|[]]]]]; injection H as <- <-; tauto. }
  rewrite (C78_sources _ _ _ _ _ (proj1 P) (proj2 P) E n), G1, G2.
  assert (T : forallb (fun x => documents (snd x) (match find_desc ds (fst x) with None => Empty | Some d => match d_default d with Some v => Defaulted v | None => Empty end end)) table = true).
  { destruct H as [H|[H|[H|[H|[]]]]]; injection H as <- <-; vm_compute; reflexivity. }
  rewrite forallb_forall in T. exact (T _ I).
Qed.
(** C78: prepare needs input files and an output folder, match needs a network, compare nothing. *)
Theorem C78_required cores m :
  (missing options_prepare m = true <-> m "file" = Empty \/ m "output" = Empty)
  /\ (missing (options_match cores) m = true <-> m "input" = Empty)
  /\ missing (options_compare cores) m = false.
Proof.
  assert (K : forall v, is_empty v = true <-> v = Empty) by (intros []; cbn; split; congruence).
  assert (M : forall ds, missing ds m = existsb (fun n => is_empty (m n)) (map d_name (filter d_required ds))).
  { intros ds. unfold missing. induction ds as [|d r IH]; [reflexivity|]. cbn [existsb filter]. rewrite IH. destruct (d_required d); reflexivity. }
  rewrite !M. change (map d_name (filter d_required options_prepare)) with ["file"; "output"].
  change (map d_name (filter d_required (options_match cores))) with ["input"]. change (map d_name (filter d_required (options_compare cores))) with (@nil string).
  cbn [existsb]. rewrite !orb_false_r, orb_true_iff, !K. tauto.
Qed.
(** the command line of a match that says as little as possible: the search radius is the documented one *)
Example C78_help_ex : exists m, parse (options_match 128) MATCH [("match", VB true); ("input", VS "network")] (fun _ => None) = Ok m
  /\ In ("radius", Default "200.0") help_match /\ documents (Default "200.0") (m "radius") = true /\ m "radius" = Defaulted (VQ 200) /\ missing (options_match 128) m = false.
Proof.
  destruct (parse (options_match 128) MATCH [("match", VB true); ("input", VS "network")] (fun _ => None)) as [m| | |] eqn:E; try (exfalso; revert E; vm_compute; discriminate).
  exists m. split; [reflexivity|]. assert (m "radius" = Defaulted (VQ 200) /\ m "input" = Given (VS "network")) as [R I].
  { destruct (C78_names 128 (options_match 128)) as [N C]; [cbn [In]; tauto|]. rewrite !(C78_sources _ _ _ _ _ N C E). split; vm_compute; reflexivity. }
  repeat split; [vm_compute; tauto|rewrite R; vm_compute; reflexivity|exact R|].
  destruct (missing (options_match 128) m) eqn:M; [|reflexivity]. apply (proj1 (proj2 (C78_required 128 m))) in M. congruence.
Qed.

Print Assumptions C78_help_names.
Print Assumptions C78_help.
Print Assumptions C78_required.
