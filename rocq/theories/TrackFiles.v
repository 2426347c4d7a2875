(** Model of the track importers besides CSV (Csv.v) and edge lists (EdgesList.v), under /repo/src/library/include/io/track/:
    gpx_track_importer.hpp 53-182, seattle_ground_truth_importer.hpp 45-144 and input_importer.hpp 47-122.

    Files are given parsed: the gpx library, [std::stod], [std::stoul], WKT and time formats are not modelled, apart from what
    the importers make of a missing or unreadable time and of the text of a line from standard input. *)
From Coq Require Import Ascii.
From Verif Require Import Base NetFiles Utils.

Section Gpx.
  (** texts are lists of characters [C]; [num] is [std::to_string] *)
  Context {C P : Type}.
  Variable texteq : list C -> list C -> bool.
  Variable num : nat -> list C.
  (** [std::sort] by time (measurement.hpp 95-97) *)
  Variable sort : list (nat * P) -> list (nat * P).
  Variable reproject : P -> P.

  (** a non-empty time text: its value if it is a number ([is_number], [std::stoul]), and the milliseconds which the time format
      reads from it, if it does *)
  Record timetext := mkStamp { s_number : option nat; s_millis : option nat }.
  (** a track point: no stamp for an empty time text *)
  Record gpoint := mkGp { gp_time : option timetext; gp_place : P }.
  (** [None]: a null pointer in the lists of the gpx library *)
  Record trk := mkTrk { t_name : list C; t_segs : list (option (list (option gpoint))) }.
  Record gpx := mkGpx { g_metadata : list C; g_trks : list (option trk) }.
  Record gpx_settings := mkGs { gs_no_id : bool; gs_no_parse_time : bool; gs_selectors : list (list C) }.
  Variable cfg : gpx_settings.

  (** importer.cpp 102-114 ([parse_time]): an unreadable text leaves the time point as it was made, at zero;
      milliseconds are cut to seconds *)
  Definition parse_time (s : timetext) : nat := match s_millis s with Some m => m / 1000 | None => 0 end.
  (** 157-168; [n]: number of measurements before *)
  Definition point_stamp (n : nat) (t : option timetext) : nat :=
    match t with
    | None => n
    | Some s => if gs_no_parse_time cfg then match s_number s with Some k => k | None => n end else parse_time s
    end.
  (** 155-176 *)
  Definition measure (ms : list (nat * P)) (p : option gpoint) : list (nat * P) :=
    match p with
    | None => ms
    | Some p => ms ++ [(point_stamp (length ms) (gp_time p), reproject (gp_place p))]
    end.
  (** 138-181 *)
  Definition segment_line (seg : list (option gpoint)) : list P := map snd (sort (fold_left measure seg [])).
  (** 104-110 *)
  Definition track_lines (t : trk) : list (list P) :=
    flat_map (fun s => match s with Some seg => [segment_line seg] | None => [] end) (t_segs t).

  (** 112-126: the id and [_counter] afterwards *)
  Definition track_id (meta : list C) (t : trk) (counter : nat) : list C * nat :=
    if gs_no_id cfg then (num counter, counter + 1)
    else match t_name t with
         | _ :: _ => (t_name t, counter)
         | [] => match meta with
                 | _ :: _ => (meta, counter)
                 | [] => (num counter, counter + 1)
                 end
         end.
  Definition chosen (id : list C) : bool :=
    match gs_selectors cfg with [] => true | s => existsb (texteq id) s end.
  (** 100-132; state: [_counter] and the tracks passed on *)
  Definition track_step (meta : list C) (s : nat * list (list C * list (list P))) (t : option trk) : nat * list (list C * list (list P)) :=
    match t with
    | None => s
    | Some t => let '(id, counter) := track_id meta t (fst s) in
                (counter, if chosen id then snd s ++ [(id, track_lines t)] else snd s)
    end.
  (** 54-80, 93-134; [None]: a file which does not exist, cannot be opened or is not understood *)
  Definition gpx_read (files : list (option gpx)) : list (list C * list (list P)) :=
    snd (fold_left (fun s f => match f with
                               | None => s
                               | Some g => fold_left (track_step (g_metadata g)) (g_trks g) s
                               end) files (0, [])).
End Gpx.

Section GroundTruth.
  Context {P : Type}.
  Variable reproject : P -> P.

  (** 123-131: [std::copy] of the edge without its first point unless it is the first one; [std::next] of the begin of an empty
      edge is undefined *)
  Definition append_edge (gt e : list P) : outcome (list P) :=
    match gt with
    | [] => Ok e
    | _ => match e with [] => UB | _ :: r => Ok (gt ++ r) end
    end.
  (** 112-137; rows (edge id, from_to_to) *)
  Definition route_row (lines : list (nat * (list P * bool))) (gt : list P) (r : nat * bool) : outcome (list P) :=
    match find_id lines (fst r) with
    | None => Throw gt
    | Some (edge, two_way) =>
      if snd r then append_edge gt edge
      else if two_way then append_edge gt (rev edge)
      else Throw gt
    end.
  (** 74-97 *)
  Definition edge_lines (rows : list (@sea_row P)) : list (nat * (list P * bool)) :=
    fold_left (fun m r => emplace_id m (sr_id r) (sr_line r, sr_two_way r)) rows [].
  (** 62-140: the track passed on, if both files exist ([None]: a missing file) *)
  Definition ground_truth_read (network : option (list (@sea_row P))) (route : option (list (nat * bool))) : outcome (option (list P)) :=
    match network, route with
    | Some rows, Some rt => bindO (foldO (route_row (edge_lines rows)) rt []) (fun _ => None) (fun gt => Ok (Some (map reproject gt)))
    | _, _ => Ok None
    end.
End GroundTruth.

Section Input.
  Context {P : Type}.
  Variable num : nat -> list ascii.
  Variable reproject : P -> P.
  Notation text := (list ascii).
  (** [boost::geometry::read_wkt]; [None]: it throws *)
  Variable read_point : text -> option P.
  Variable read_line : text -> option (list P).
  Variable read_multi : text -> option (list (list P)).

  (** [boost::trim] and [boost::to_upper] in the C locale *)
  Definition is_space (c : ascii) : bool := (nat_of_ascii c =? 32) || ((9 <=? nat_of_ascii c) && (nat_of_ascii c <=? 13)).
  Fixpoint trim_left (s : text) : text := match s with c :: r => if is_space c then trim_left r else s | [] => [] end.
  Definition trim (s : text) : text := trim_left (rev (trim_left (rev s))).
  Definition upper (c : ascii) : ascii :=
    if (97 <=? nat_of_ascii c) && (nat_of_ascii c <=? 122) then ascii_of_nat (nat_of_ascii c - 32) else c.
  Fixpoint starts_with (p s : text) : bool :=
    match p, s with
    | [], _ => true
    | a :: p, b :: s => Ascii.eqb a b && starts_with p s
    | _, [] => false
    end.
  (** 76: [boost::char_separator] drops the separators and empty tokens; [cur]: the token being read *)
  Definition separator (c : ascii) : bool := Ascii.eqb c "," || Ascii.eqb c ";" || Ascii.eqb c "|".
  Definition flush (cur : text) : list text := match cur with [] => [] | _ => [cur] end.
  Fixpoint tokens (s cur : text) : list text :=
    match s with
    | [] => flush cur
    | c :: r => if separator c then flush cur ++ tokens r [] else tokens r (cur ++ [c])
    end.

  (** 92-101: an exception of [read_wkt] leaves the function *)
  Fixpoint read_points (ts : list text) : option (list P) :=
    match ts with
    | [] => Some []
    | t :: r => match read_point (trim t), read_points r with
                | Some p, Some l => Some (reproject p :: l)
                | _, _ => None
                end
    end.
  (** 79-122; [None]: left by an exception before anything is passed on *)
  Definition parse (s : text) : option (list (list P)) :=
    if starts_with ["P"; "O"; "I"; "N"; "T"]%char s then option_map (fun l => [l]) (read_points (tokens s []))
    else if starts_with ["L"; "I"; "N"; "E"; "S"; "T"; "R"; "I"; "N"; "G"]%char s then option_map (fun l => [map reproject l]) (read_line s)
    else if starts_with ["M"; "U"; "L"; "T"; "I"; "L"; "I"; "N"; "E"; "S"; "T"; "R"; "I"; "N"; "G"]%char s
         then option_map (map (map reproject)) (read_multi s)
    else None.
  (** 47-67, over the lines of the standard input; [counter] is the member [_counter] *)
  Fixpoint input_read (lines : list text) (counter : nat) : list (text * list (list P)) :=
    match lines with
    | [] => []
    | l :: r => match trim l with
                | [] => []                                                                (* 51-53 *)
                | s => (match parse (map upper s) with Some ls => [(num counter, ls)] | None => [] end) ++ input_read r (counter + 1)
                end
    end.
End Input.
