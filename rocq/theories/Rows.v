(** Model of the rows and texts of nodes, edges, candidates, measurements and tracks, under /repo/src/library/include/: geometry/network/node.hpp 75-140,
    geometry/network/edge.hpp 81-146, geometry/network/network_base.hpp 112-146, matching/candidate/candidate.hpp 57-97,
    matching/candidate/candidate_edge.hpp 54-92, geometry/track/measurement.hpp 50-113, geometry/track/track.hpp 64-127,
    geometry/track/multi_track.hpp 96-155.

    Texts of geometries (WKT) and of numbers ([std::to_string]) are given as functions.  The writer of a row of texts (the csv library, with its quoting)
    is not modelled: a file is the list of rows given to it.  The views of a graph give its vertices and edges in order (C03, C04).  A moved or empty
    [std::shared_ptr] is [None], using it is undefined behaviour. *)
From Coq Require Import String Ascii.
From Verif Require Import Base.
Local Open Scope string_scope.

Section Rows.
  Context {D G P : Type}.                 (* numbers with a fraction, geometries, points *)
  Variable show : D -> string.
  Variable show_nat : nat -> string.
  Variable wkt : G -> string.
  Variable wkt_point : P -> string.
  Variable wkt_segment : P -> P -> string.
  (** tag_helper.hpp 207-217: [None]: throws std::invalid_argument *)
  Variable tag : nat -> option (string * string).

  (** node.hpp 89-111, edge.hpp 103-125 *)
  Definition tag_step (st : string * bool) (i : nat) : string * bool :=
    let s := if snd st then fst st else fst st ++ "," in
    (match tag i with Some (k, v) => s ++ "'" ++ k ++ "':'" ++ v ++ "'" | None => s end, false).
  Definition tags_text (tags : list nat) : string :=
    let s := match tags with [] => "" | _ => fst (fold_left tag_step tags ("[", true)) ++ "]" end in
    if (String.length s <=? 2)%nat then "" else s.

  (** node.hpp 79-115 *)
  Record node := mkNode { n_id : nat; n_point : G; n_tags : list nat }.
  Definition node_header : list string := ["id"; "geometry"; "tags"].
  Definition node_row (n : node) : list string := [show_nat (n_id n); wkt (n_point n); tags_text (n_tags n)].
  (** edge.hpp 81-129; the length is there or not *)
  Record edge := mkEdge { e_id : nat; e_line : G; e_length : option D; e_tags : list nat }.
  Definition edge_header : list string := ["id"; "geometry"; "length"; "tags"].
  Definition edge_row (e : edge) : list string :=
    [show_nat (e_id e); wkt (e_line e); match e_length e with Some d => show d | None => "NaN" end; tags_text (e_tags e)].
  (** the loop of every [str] *)
  Definition str_of (before : string) (fields : list string) : string :=
    fst (fold_left (fun st f => ((if snd st : bool then fst st else fst st ++ ",") ++ f, false)) fields (before ++ "(", true)) ++ ")".

  (** network_base.hpp 112-141 *)
  Definition save {A} (header : list string) (row : A -> list string) (l : list A) : list (list string) :=
    fst (fold_left (fun st x => ((if snd st : bool then (fst st ++ [header])%list else fst st) ++ [row x], false)%list) l ([], true)).
  Definition save_nodes (l : list node) : list (list string) := save node_header node_row l.
  Definition save_edges (l : list edge) : list (list string) := save edge_header edge_row l.

  (** candidate_edge.hpp 54-70 *)
  Record cand_edge := mkCand { c_point : P; c_distance : D; c_from : option G; c_to : option G }.
  Definition cand_edge_header : list string := ["distance"; "projection"; "from"; "to"].
  Definition cand_edge_row (c : cand_edge) : outcome (list string) :=
    match c_from c, c_to c with
    | Some f, Some t => Ok [show (c_distance c); wkt_point (c_point c); wkt f; wkt t]
    | _, _ => UB
    end.
  (** candidate.hpp 57-81; [point]: of the track, checked ([at]) *)
  Definition cand_header : list string := ["index"; "projection"; "distance"; "projection_point"; "from"; "to"].
  Fixpoint cand_rows_from (i : nat) (point : P) (l : list cand_edge) (acc : list (list string)) : outcome (list (list string)) :=
    match l with
    | [] => Ok acc
    | c :: l =>
        match cand_edge_row c with
        | Ok r => cand_rows_from (S i) point l (acc ++ [show_nat i :: wkt_segment point (c_point c)  :: r])%list
        | _ => UB
        end
    end.
  Definition cand_rows (track : option (list P)) (index : nat) (l : list cand_edge) : outcome (list (list string)) :=
    match l with
    | [] => Ok []
    | _ =>
        match track with
        | None => UB
        | Some t => match nth_error t index with Some p => cand_rows_from 0 p l [] | None => Throw [] end
        end
    end.
  (** candidate.hpp 83-97 *)
  Definition newline : string := String (ascii_of_nat 10) "".
  Definition cand_str (rows : list (list string)) : string :=
    fold_left (fun s r => s ++ str_of "Candidate" r ++ newline) rows "".

  (** measurement.hpp 50-105 *)
  Record measurement := mkMeas { m_time : nat; m_point : P }.
  Definition meas_header : list string := ["timestamp"; "geometry"].
  Definition meas_row (m : measurement) : list string := [show_nat (m_time m); wkt_point (m_point m)].
  Definition meas_eq (a b : measurement) : bool := (m_time a =? m_time b)%nat.
  Definition meas_lt (a b : measurement) : bool := (m_time a <? m_time b)%nat.
  Definition meas_le (a b : measurement) : bool := negb (meas_lt b a).
  Definition meas_gt (a b : measurement) : bool := meas_lt b a.
  Definition meas_ge (a b : measurement) : bool := negb (meas_lt a b).

  (** track.hpp 64-113 *)
  Record track := mkTrack { t_id : string; t_line : list P }.
  Variable wkt_line : list P -> string.
  Definition track_header : list string := ["id"; "geometry"; "measurements"].
  Definition track_row (t : track) : list string := [t_id t; wkt_line (t_line t)].
  (** 100-111: the second of a pair is read without a check *)
  Fixpoint create_line {X} (point : X -> X -> P) (l : list X) : outcome (list P) :=
    match l with
    | [] => Ok []
    | [_] => UB
    | x :: y :: l => match create_line point l with Ok r => Ok (point x y :: r) | _ => UB end
    end.
  Definition create_track {X} (point : X -> X -> P) (l : list X) : outcome track :=
    match create_line point l with Ok r => Ok (mkTrack "" r) | _ => UB end.

  (** multi_track.hpp 96-122 *)
  Record multi_track := mkMulti { mt_id : string; mt_lines : list (list P) }.
  Variable wkt_multi : list (list P) -> string.
  Definition multi_header : list string := ["id"; "geometry"].
  Definition multi_row (t : multi_track) : list string := [mt_id t; wkt_multi (mt_lines t)].
  Definition get_track (t : multi_track) (i : nat) : outcome track :=
    match nth_error (mt_lines t) i with Some l => Ok (mkTrack (mt_id t) l) | None => Throw (mkTrack "" []) end.
  (** multi_rich_line.hpp [sizes]: the number of points of all lines *)
  Definition sizes (t : multi_track) : nat := fold_left (fun n l => n + List.length l) (mt_lines t) 0.
  (** track.hpp 115-126, multi_track.hpp 139-151: the comparisons given to [std::sort] *)
  Definition track_before (ascending : bool) (a b : track) : bool :=
    if ascending then (List.length (t_line a) <? List.length (t_line b))%nat else (List.length (t_line b) <? List.length (t_line a))%nat.
  Definition multi_before (ascending : bool) (a b : multi_track) : bool :=
    if ascending then (sizes a <? sizes b)%nat else (sizes b <? sizes a)%nat.
End Rows.
