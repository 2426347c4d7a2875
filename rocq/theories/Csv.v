(** Model of the CSV track importer, /repo/src/library/include/io/track/csv_track_importer.hpp 68-238 with the driver
    /repo/src/library/src/io/csv_importer.cpp 27-54.

    Rows arrive parsed: the id text, the time if one is given and readable (line 122-133: a numeric or formatted
    time; text that is no number counts as absent when times are not parsed), and the geometry.  Parsing of numbers,
    times and WKT, reprojection and the srs dispatch are not modelled. *)
From Verif Require Import Base.

Section Csv.
  Context {Id P : Type}.
  Variable ideq : Id -> Id -> bool.
  (** [std::to_string] of a file or row number *)
  Variable num : nat -> Id.
  (** [std::sort] of measurements (time, point) by time (measurement.hpp 95-97; not stable) and the iteration order of
      the unordered map *)
  Variable sort : list (nat * P) -> list (nat * P).
  Variable order : list (Id * list (nat * P)) -> list (Id * list (nat * P)).

  (** what a row holds: a point, one or several lines (forwarded at once), something unreadable *)
  Inductive geom := Point (p : P) | Lines (l : list (list P)) | Unreadable.
  Record row := mkRow { r_file : nat; r_row : nat; r_text : Id; r_time : option nat; r_geom : geom }.

  (** csv_settings as far as grouping is concerned, and the selectors (empty: everything) *)
  Record settings := mkSet { no_id : bool; no_id_whole_file : bool; grouped : bool; selectors : list Id }.
  Variable cfg : settings.

  (** members 241-243 and the tracks passed to the forwarder so far *)
  Record csv := mkCsv { c_current : option Id; c_meas : list (Id * list (nat * P)); c_out : list (Id * list (list P)) }.
  Definition csv_start : csv := mkCsv None [] [].

  Definition selected (i : Id) : bool := match selectors cfg with [] => true | s => existsb (ideq i) s end.

  (** 83-100 *)
  Definition row_id (r : row) : Id :=
    if no_id cfg then if no_id_whole_file cfg then num (r_file r) else num (r_row r) else r_text r.
  (** 161-163, 170-172, 179-181 *)
  Definition line_id (r : row) : Id := if no_id cfg then num (r_row r) else row_id r.
  (** the value of [id] at the end of the function (211) *)
  Definition last_id (r : row) : Id := match r_geom r with Lines _ => line_id r | _ => row_id r end.

  Definition find_meas (i : Id) (m : list (Id * list (nat * P))) : option (list (nat * P)) :=
    option_map snd (find (fun e => ideq (fst e) i) m).
  (** 152-159, 202-208: append to the vector of [i], creating it if absent *)
  Fixpoint append_meas (i : Id) (x : nat * P) (m : list (Id * list (nat * P))) : list (Id * list (nat * P)) :=
    match m with
    | [] => [(i, [x])]
    | (j, l) :: r => if ideq j i then (j, l ++ [x]) :: r else (j, l) :: append_meas i x r
    end.

  (** 216-238 *)
  Definition finish_import (s : csv) : csv :=
    mkCsv (c_current s) []
      (c_out s ++ flat_map (fun e => if selected (fst e) then [(fst e, [map snd (sort (snd e))])] else []) (order (c_meas s))).

  (** 68-214 *)
  Definition process_row (s : csv) (r : row) : csv :=
    let id := row_id r in
    let s1 := match c_current s with
              | Some c => if grouped cfg && negb (ideq id c) then finish_import s else s             (* 102-104 *)
              | None => s
              end in
    let timestamp := match r_time r with                                                             (* 106-138 *)
                     | Some t => t
                     | None => match find_meas id (c_meas s1) with Some l => length l | None => 0 end
                     end in
    match r_geom r with
    | Point p => mkCsv (Some id) (append_meas id (timestamp, p) (c_meas s1)) (c_out s1)              (* 148-159, 189-209 *)
    | Lines ls => mkCsv (Some (line_id r)) (c_meas s1)
                        (c_out s1 ++ if selected (line_id r) then [(line_id r, ls)] else [])         (* 160-184 *)
    | Unreadable => mkCsv (Some id) (c_meas s1) (c_out s1)                                           (* 185-188 *)
    end.

  (** csv_importer.cpp 27-54 *)
  Definition read (rows : list row) : list (Id * list (list P)) :=
    c_out (finish_import (fold_left process_row rows csv_start)).
End Csv.
Arguments row Id P : clear implicits.
Arguments settings Id : clear implicits.
