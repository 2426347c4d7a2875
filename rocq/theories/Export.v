(** Model of the CSV exporters of results, under /repo/src/library/include/io/results/: csv_results_exporter.hpp 27-66,
    match/csv_match_exporter.hpp 33-206, match/csv_candidates_exporter.hpp 32-252, compare/csv_compare_exporter.hpp 25-238,
    track/csv_track_exporter.hpp 23-107.

    Texts of geometries (WKT) and of numbers ([std::to_string]) are given as functions; the writer of a row of texts (the csv
    library, with its quoting) is not modelled: the file is the list of rows given to it.  The results are executed in the order of
    one worker thread (see C26). *)
From Coq Require Import String Ascii.
From Verif Require Import Base.
Local Open Scope string_scope.

Section Export.
  (** [D]: numbers with a fraction *)
  Context {D : Type}.
  Variable zero : D.
  Variable show : D -> string.
  Variable show_nat : nat -> string.

  (** *** csv_results_exporter.hpp *)
  (** 36: [boost::split] at commas *)
  Fixpoint split_commas (s cur : string) : list string :=
    match s with
    | EmptyString => [cur]
    | String c r => if Ascii.eqb c ","%char then cur :: split_commas r "" else split_commas r (cur ++ String c "")
    end.
  (** 46-47, 60-67; state: [_header_written] and the rows in the file; [active]: [is_active()] at this moment *)
  Record file := mkFile { f_header : bool; f_rows : list (list string) }.
  Definition new_file : file := mkFile false [].
  Definition write_result (names : list string) (active : bool) (f : file) (row : list string) : file :=
    let f1 := if f_header f then f
              else mkFile true (if active then f_rows f ++ [names] else f_rows f)%list in
    if active then mkFile (f_header f1) (f_rows f1 ++ [row])%list else f1.

  (** *** csv_match_exporter.hpp *)
  Inductive mcol := MId | MAborted | MDuration | MTrack | MPrepared | MMatch | MTrackLength | MPreparedLength | MMatchLength | MEdgeIds | MUnknown.
  (** 132-159 *)
  Definition match_column (s : string) : mcol :=
    if s =? "id" then MId else if s =? "aborted" then MAborted else if s =? "duration" then MDuration
    else if s =? "track" then MTrack else if s =? "prepared" then MPrepared else if s =? "match" then MMatch
    else if s =? "track_length" then MTrackLength else if s =? "prepared_length" then MPreparedLength
    else if s =? "match_length" then MMatchLength else if s =? "edge_ids" then MEdgeIds else MUnknown.
  (** what the exporter takes from a match result; lengths are there or not ([has_length]) *)
  Record match_result := mkMr { mr_id : string; mr_track : string; mr_prepared : string; mr_match : string; mr_edge_ids : list nat;
    mr_aborted : bool; mr_duration : D; mr_track_length : option D; mr_prepared_length : option D; mr_match_length : option D }.
  (** 27-31 *)
  Record match_task := mkMt { mt_id : string; mt_track : string; mt_prepared : string; mt_match : string; mt_edge_ids : string;
    mt_aborted : bool; mt_duration : D; mt_track_length : D; mt_prepared_length : D; mt_match_length : D }.
  (** 81-93 *)
  Definition join_ids (ids : list nat) : string :=
    fst (fold_left (fun (st : string * bool) i => (((if snd st then fst st else fst st ++ ",") ++ show_nat i)%string, false)) ids ("", true)).
  Definition or_zero (o : option D) : D := match o with Some d => d | None => zero end.
  (** 58-98: one column *)
  Definition match_fill (r : match_result) (t : match_task) (c : mcol) : match_task :=
    match c with
    | MTrack => mkMt (mt_id t) (mr_track r) (mt_prepared t) (mt_match t) (mt_edge_ids t) (mt_aborted t) (mt_duration t) (mt_track_length t) (mt_prepared_length t) (mt_match_length t)
    | MPrepared => mkMt (mt_id t) (mt_track t) (mr_prepared r) (mt_match t) (mt_edge_ids t) (mt_aborted t) (mt_duration t) (mt_track_length t) (mt_prepared_length t) (mt_match_length t)
    | MMatch => mkMt (mt_id t) (mt_track t) (mt_prepared t) (mr_match r) (mt_edge_ids t) (mt_aborted t) (mt_duration t) (mt_track_length t) (mt_prepared_length t) (mt_match_length t)
    | MTrackLength => match mr_track_length r with
        | Some d => mkMt (mt_id t) (mt_track t) (mt_prepared t) (mt_match t) (mt_edge_ids t) (mt_aborted t) (mt_duration t) d (mt_prepared_length t) (mt_match_length t)
        | None => t end
    | MPreparedLength => match mr_prepared_length r with
        | Some d => mkMt (mt_id t) (mt_track t) (mt_prepared t) (mt_match t) (mt_edge_ids t) (mt_aborted t) (mt_duration t) (mt_track_length t) d (mt_match_length t)
        | None => t end
    | MMatchLength => match mr_match_length r with
        | Some d => mkMt (mt_id t) (mt_track t) (mt_prepared t) (mt_match t) (mt_edge_ids t) (mt_aborted t) (mt_duration t) (mt_track_length t) (mt_prepared_length t) d
        | None => t end
    | MEdgeIds => match mr_edge_ids r with
        | [] => t
        | ids => mkMt (mt_id t) (mt_track t) (mt_prepared t) (mt_match t) (join_ids ids) (mt_aborted t) (mt_duration t) (mt_track_length t) (mt_prepared_length t) (mt_match_length t)
        end
    | _ => t
    end.
  (** 48-108 *)
  Definition match_parse (names : list string) (active : bool) (r : match_result) : match_task :=
    let t := mkMt (mr_id r) "" "" "" "" (mr_aborted r) (mr_duration r) zero zero zero in
    if active then fold_left (match_fill r) (map match_column names) t else t.
  (** 161-203 *)
  Definition match_cell (t : match_task) (c : mcol) : list string :=
    match c with
    | MId => [mt_id t] | MAborted => [if mt_aborted t then "yes" else "no"] | MDuration => [show (mt_duration t)]
    | MTrack => [mt_track t] | MPrepared => [mt_prepared t] | MMatch => [mt_match t]
    | MTrackLength => [show (mt_track_length t)] | MPreparedLength => [show (mt_prepared_length t)]
    | MMatchLength => [show (mt_match_length t)] | MEdgeIds => [mt_edge_ids t] | MUnknown => []
    end.
  Definition match_row (names : list string) (t : match_task) : list string := flat_map (match_cell t) (map match_column names).
  (** the exporter fed with results; with every result the answers of [is_active()] when it is parsed and when it is written *)
  Definition match_export (columns : string) (rs : list (match_result * (bool * bool))) : list (list string) :=
    let names := split_commas columns "" in
    f_rows (fold_left (fun f x => write_result names (snd (snd x)) f (match_row names (match_parse names (fst (snd x)) (fst x)))) rs new_file).

  (** *** csv_compare_exporter.hpp *)
  Inductive ccol := CId | CDuration | CMatch | CTruth | CMatchLength | CTruthLength | CCorrectFraction | CErrorFraction | CCorrect | CErrorAdded
    | CErrorMissed | CCorrects | CErrorAdds | CErrorMisses | CUnknown.
  (** 144-179 *)
  Definition compare_column (s : string) : ccol :=
    if s =? "id" then CId else if s =? "duration" then CDuration else if s =? "match" then CMatch else if s =? "ground_truth" then CTruth
    else if s =? "match_length" then CMatchLength else if s =? "ground_truth_length" then CTruthLength
    else if s =? "correct_fraction" then CCorrectFraction else if s =? "error_fraction" then CErrorFraction else if s =? "correct" then CCorrect
    else if s =? "error_added" then CErrorAdded else if s =? "error_missed" then CErrorMissed else if s =? "corrects" then CCorrects
    else if s =? "error_adds" then CErrorAdds else if s =? "error_misses" then CErrorMisses else CUnknown.
  (** the texts of [corrects], [error_adds] and [error_misses] are functions of lists of segments *)
  Context {Seg : Type}.
  Variable wkt : list Seg -> string.
  Record compare_result := mkCr { cr_id : string; cr_match : string; cr_truth : string; cr_corrects : list Seg; cr_adds : list Seg; cr_misses : list Seg;
    cr_duration : D; cr_match_length : option D; cr_truth_length : option D; cr_correct_fraction : D; cr_error_fraction : D; cr_correct : D;
    cr_added : D; cr_missed : D }.
  (** the fields of the task (25-29) that depend on the columns *)
  Record compare_task := mkCt { ct_match : string; ct_truth : string; ct_match_length : D; ct_truth_length : D;
    ct_corrects : list Seg * string; ct_adds : list Seg * string; ct_misses : list Seg * string }.
  (** 60-95: the vectors [corrects], [error_adds], [error_misses] are appended to and then written as text *)
  Definition compare_fill (r : compare_result) (t : compare_task) (c : ccol) : compare_task :=
    match c with
    | CMatch => mkCt (cr_match r) (ct_truth t) (ct_match_length t) (ct_truth_length t) (ct_corrects t) (ct_adds t) (ct_misses t)
    | CTruth => mkCt (ct_match t) (cr_truth r) (ct_match_length t) (ct_truth_length t) (ct_corrects t) (ct_adds t) (ct_misses t)
    | CMatchLength => match cr_match_length r with
        | Some d => mkCt (ct_match t) (ct_truth t) d (ct_truth_length t) (ct_corrects t) (ct_adds t) (ct_misses t) | None => t end
    | CTruthLength => match cr_truth_length r with
        | Some d => mkCt (ct_match t) (ct_truth t) (ct_match_length t) d (ct_corrects t) (ct_adds t) (ct_misses t) | None => t end
    | CCorrects => let l := (fst (ct_corrects t) ++ cr_corrects r)%list in
        mkCt (ct_match t) (ct_truth t) (ct_match_length t) (ct_truth_length t) (l, wkt l) (ct_adds t) (ct_misses t)
    | CErrorAdds => let l := (fst (ct_adds t) ++ cr_adds r)%list in
        mkCt (ct_match t) (ct_truth t) (ct_match_length t) (ct_truth_length t) (ct_corrects t) (l, wkt l) (ct_misses t)
    | CErrorMisses => let l := (fst (ct_misses t) ++ cr_misses r)%list in
        mkCt (ct_match t) (ct_truth t) (ct_match_length t) (ct_truth_length t) (ct_corrects t) (ct_adds t) (l, wkt l)
    | _ => t
    end.
  (** 45-111 *)
  Definition compare_parse (names : list string) (active : bool) (r : compare_result) : compare_task :=
    let t := mkCt "" "" zero zero ([], "") ([], "") ([], "") in
    if active then fold_left (compare_fill r) (map compare_column names) t else t.
  (** 181-232 *)
  Definition compare_cell (r : compare_result) (t : compare_task) (c : ccol) : list string :=
    match c with
    | CId => [cr_id r] | CDuration => [show (cr_duration r)] | CMatch => [ct_match t] | CTruth => [ct_truth t]
    | CMatchLength => [show (ct_match_length t)] | CTruthLength => [show (ct_truth_length t)]
    | CCorrectFraction => [show (cr_correct_fraction r)] | CErrorFraction => [show (cr_error_fraction r)] | CCorrect => [show (cr_correct r)]
    | CErrorAdded => [show (cr_added r)] | CErrorMissed => [show (cr_missed r)]
    | CCorrects => [snd (ct_corrects t)] | CErrorAdds => [snd (ct_adds t)] | CErrorMisses => [snd (ct_misses t)] | CUnknown => []
    end.
  Definition compare_row (names : list string) (r : compare_result) (t : compare_task) : list string := flat_map (compare_cell r t) (map compare_column names).
  Definition compare_export (columns : string) (rs : list (compare_result * (bool * bool))) : list (list string) :=
    let names := split_commas columns "" in
    f_rows (fold_left (fun f x => write_result names (snd (snd x)) f (compare_row names (fst x) (compare_parse names (fst (snd x)) (fst x)))) rs new_file).

  (** *** csv_candidates_exporter.hpp *)
  (** a candidate edge as the exporter sees it; a candidate is the list of its edges, an environment the list of its candidates *)
  Record cand_edge := mkCe { ce_projection : string; ce_from : option string; ce_to : option string; ce_distance : D; ce_edge : nat }.
  Inductive dcol := DId | DPart | DSet | DCandidate | DProjection | DDistance | DFrom | DTo | DEdge | DResult | DUnknown.
  (** 160-187 *)
  Definition cand_column (s : string) : dcol :=
    if s =? "id" then DId else if s =? "part_index" then DPart else if s =? "set_index" then DSet else if s =? "candidate_index" then DCandidate
    else if s =? "projection" then DProjection else if s =? "distance" then DDistance else if s =? "from" then DFrom else if s =? "to" then DTo
    else if s =? "edge_id" then DEdge else if s =? "is_result" then DResult else DUnknown.
  (** 32-38; the index of the environment, the candidate and the edge *)
  Record cand_result := mkCand { cd_part : nat; cd_set : nat; cd_cand : nat; cd_projection : string; cd_from : string; cd_to : string;
    cd_distance : D; cd_edge : nat; cd_result : bool }.
  (** 81-84, 113-119: the policy as a map from candidates to sets of edges, asked for (j, k) *)
  Definition chosen_edge (policy : list (nat * nat)) (j k : nat) : bool :=
    let sets := fold_left (fun m x => fun j => if j =? fst x then snd x :: m j else m j)%nat policy (fun _ => []) in
    existsb (Nat.eqb k) (sets j).
  (** 98-134: one column after the other; [from] and [to] are pointers to lines *)
  Definition cand_fill (policy : list (nat * nat)) (j k : nat) (e : cand_edge) (t : cand_result) (c : dcol) : outcome cand_result :=
    match c with
    | DProjection => Ok (mkCand (cd_part t) (cd_set t) (cd_cand t) (ce_projection e) (cd_from t) (cd_to t) (cd_distance t) (cd_edge t) (cd_result t))
    | DFrom => derefO (ce_from e) (fun w =>
        Ok (mkCand (cd_part t) (cd_set t) (cd_cand t) (cd_projection t) w (cd_to t) (cd_distance t) (cd_edge t) (cd_result t)))
    | DTo => derefO (ce_to e) (fun w =>
        Ok (mkCand (cd_part t) (cd_set t) (cd_cand t) (cd_projection t) (cd_from t) w (cd_distance t) (cd_edge t) (cd_result t)))
    | DResult => Ok (mkCand (cd_part t) (cd_set t) (cd_cand t) (cd_projection t) (cd_from t) (cd_to t) (cd_distance t) (cd_edge t) (chosen_edge policy j k))
    | _ => Ok t
    end.
  Definition cand_make (names : list string) (policy : list (nat * nat)) (i j k : nat) (e : cand_edge) : outcome cand_result :=
    foldO (cand_fill policy j k e) (map cand_column names) (mkCand i j k "" "" "" (ce_distance e) (ce_edge e) false).
  Definition enum {A} (l : list A) : list (nat * A) := combine (seq 0 (length l)) l.
  (** 60-142; [at] of the policies throws *)
  Definition cand_parse (names : list string) (envs : list (list (list cand_edge))) (policies : list (list (nat * nat))) : outcome (list cand_result) :=
    foldO (fun results ie => match nth_error policies (fst ie) with
      | None => Throw results
      | Some policy =>
          foldO (fun results jc =>
            foldO (fun results ke => bindO (cand_make names policy (fst ie) (fst jc) (fst ke) (snd ke)) (fun _ => results) (fun t => Ok (results ++ [t])%list))
              (enum (snd jc)) results) (enum (snd ie)) results
      end) (enum envs) [].
  (** 189-240 *)
  Definition cand_cell (id : string) (t : cand_result) (c : dcol) : list string :=
    match c with
    | DId => [id] | DPart => [show_nat (cd_part t)] | DSet => [show_nat (cd_set t)] | DCandidate => [show_nat (cd_cand t)]
    | DProjection => [cd_projection t] | DDistance => [show (cd_distance t)] | DFrom => [cd_from t] | DTo => [cd_to t]
    | DEdge => [show_nat (cd_edge t)] | DResult => [if cd_result t then "1" else "0"] | DUnknown => []
    end.
  Definition cand_rows (names : list string) (id : string) (ts : list cand_result) : list (list string) :=
    map (fun t => flat_map (cand_cell id t) (map cand_column names)) ts.
  (** results (id, environments, policies), all while the file is writable; each is parsed before it is passed on to be written *)
  Definition cand_export (columns : string) (rs : list (string * (list (list (list cand_edge)) * list (list (nat * nat))))) : outcome (list (list string)) :=
    let names := split_commas columns "" in
    bindO (foldO (fun f r => bindO (cand_parse names (fst (snd r)) (snd (snd r))) (fun _ => f) (fun ts =>
                             Ok (fold_left (write_result names true) (cand_rows names (fst r) ts) f))) rs new_file)
          f_rows (fun f => Ok (f_rows f)).

  (** *** csv_track_exporter.hpp: the columns are always id and track *)
  Inductive tcol := TId | TTrack | TUnknown.
  Definition track_column (s : string) : tcol := if s =? "id" then TId else if s =? "track" then TTrack else TUnknown.
  Definition track_parse (names : list string) (active : bool) (r : string * string) : string * string :=
    if active then fold_left (fun t c => match c with TTrack => (fst t, snd r) | _ => t end) (map track_column names) (fst r, "") else (fst r, "").
  Definition track_row (names : list string) (t : string * string) : list string :=
    flat_map (fun c => match c with TId => [fst t] | TTrack => [snd t] | TUnknown => [] end) (map track_column names).
  Definition track_export (rs : list ((string * string) * (bool * bool))) : list (list string) :=
    let names := split_commas "id,track" "" in
    f_rows (fold_left (fun f x => write_result names (snd (snd x)) f (track_row names (track_parse names (fst (snd x)) (fst x)))) rs new_file).
End Export.
