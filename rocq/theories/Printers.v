(** Model of what is printed about tracks, matches and comparisons, /repo/src/library/include/io/results/results_output_printer.hpp 27-57,
    compare/compare_output_printer.hpp 22-200, match/match_output_printer.hpp 22-110 and track/track_output_printer.hpp 22-90.

    Amounts (durations, lengths, fractions) are rational numbers, [Inf] is infinity: rounding, overflow and NaN are not modelled.  The format
    of numbers is not modelled: a line is the record of the values in it.  WKT texts are the given strings. *)
From Coq Require Import QArith String Ascii.
From Verif Require Import Base Compare.
Local Open Scope nat_scope.

(** results_output_printer.hpp 36-42 *)
Record flags := mkFlags { console : bool; verbose : bool }.
Definition active (f : flags) : bool := console f || verbose f.

(** ** A printer: what it does for a task and at its end
    [T]: the task, [S]: its sums, [L]: a line about one task, [E]: the line at the end *)
Inductive printed (L E : Type) := Text (s : string) | Line (l : L) | Total (e : E).
Arguments Text {L E}. Arguments Line {L E}. Arguments Total {L E}.
Section Printer.
  Context {T S L E : Type}.
  (** print_result 50-54: an empty text is not printed *)
  Definition print_text (f : flags) (s : string) : list (printed L E) :=
    if active f && negb (s =? "")%string then [Text s] else [].
  Variable text : T -> string.         (* parse_task with a console *)
  Variable add : S -> T -> S.          (* the sums, including the counter *)
  Variable line : S -> T -> L.         (* the line, after the sums were increased *)
  Variable counter : S -> nat.
  Variable total : S -> E.
  (** execute and parse_task *)
  Definition execute (f : flags) (s : S) (t : T) : S * list (printed L E) :=
    if active f then
      if console f then (s, print_text f (text t))
      else let s' := add s t in (s', [Line (line s' t)])
    else (s, []).
  (** the destructor and parse_aggregated_result *)
  Definition finish (f : flags) (s : S) : list (printed L E) :=
    if active f then if 0 <? counter s then [Total (total s)] else [] else [].
  Fixpoint execute_all (f : flags) (s : S) (l : list T) : S * list (printed L E) :=
    match l with
    | [] => (s, [])
    | t :: r => let '(s1, o1) := execute f s t in let '(s2, o2) := execute_all f s1 r in (s2, o1 ++ o2)
    end.
  (** all tasks in the order of the queue, then the end *)
  Definition report (f : flags) (s : S) (l : list T) : list (printed L E) :=
    let '(s', o) := execute_all f s l in o ++ finish f s'.
End Printer.

Definition fadd (a b : fraction) : fraction := match a, b with Fin x, Fin y => Fin (x + y)%Q | _, _ => Inf end.
Definition fdiv (a : fraction) (n : nat) : fraction := match a with Fin x => Fin (x / inject_Z (Z.of_nat n))%Q | Inf => Inf end.

(** ** Comparisons, compare_output_printer.hpp *)
Section Compares.
  Context {Sg : Type}.
  Variable wkt : Sg -> string.
  Record ctask := mkCTask {
    c_id : string; c_corrects : string; c_adds : string; c_misses : string; c_match_points : nat; c_truth_points : nat;
    c_duration : Q; c_match_length : Q; c_truth_length : Q; c_correct_fraction : fraction; c_error_fraction : fraction;
    c_correct : Q; c_added : Q; c_missed : Q }.
  (** a compare_result: the id, the points and the lengths ([None]: has_length() is false) of both, the duration, the comparison *)
  Record cresult := mkCResult {
    r_id : string; r_match_points : nat; r_truth_points : nat; r_match_length : option Q; r_truth_length : option Q; r_duration : Q;
    r_comparison : comparison Sg }.
  Local Open Scope string_scope.
  (** 49-51, 52-54, 55-57 *)
  Definition texts (l : list Sg) : string := fold_left (fun s x => s ++ wkt x ++ String "010"%char "") l "".
  (** 42-80 *)
  Definition parse_compare (f : flags) (r : cresult) : ctask :=
    let c := r_comparison r in
    let shown := active f && console f in
    let counted := active f && negb (console f) in
    mkCTask (r_id r)
      (if shown then texts (corrects c) else "") (if shown then texts (error_adds c) else "") (if shown then texts (error_misses c) else "")
      (if counted then r_match_points r else 0%nat) (if counted then r_truth_points r else 0%nat) (r_duration r)
      (if counted then value (r_match_length r) else 0%Q) (if counted then value (r_truth_length r) else 0%Q)
      (correct_fraction c) (error_fraction c) (correct c) (error_added c) (error_missed c).
  (** 95-97 *)
  Definition compare_text (t : ctask) : string :=
    let nl := String "010"%char "" in
    "Comparison '" ++ c_id t ++ "':" ++ nl ++ "Corrects:" ++ nl ++ c_corrects t ++ "Error Adds:" ++ nl ++ c_adds t
      ++ "Error Misses:" ++ c_misses t ++ nl.
  Local Close Scope string_scope.

  (** results_output_printer.hpp 47-48, compare_output_printer.hpp 87-90 *)
  Record csums := mkCSums {
    s_count : nat; s_duration : Q; s_truth_points : nat; s_match_points : nat; s_match_length : Q; s_truth_length : Q;
    s_correct_fraction : fraction; s_error_fraction : fraction; s_correct : Q; s_added : Q; s_missed : Q }.
  Definition csums0 : csums := mkCSums 0 0 0 0 0 0 (Fin 0) (Fin 0) 0 0 0.
  (** 99-108, 115 *)
  Definition add_compare (s : csums) (t : ctask) : csums :=
    mkCSums (S (s_count s)) (s_duration s + c_duration t) (s_truth_points s + c_truth_points t) (s_match_points s + c_match_points t)
      (s_match_length s + c_match_length t) (s_truth_length s + c_truth_length t)
      (fadd (s_correct_fraction s) (c_correct_fraction t)) (fadd (s_error_fraction s) (c_error_fraction t))
      (s_correct s + c_correct t) (s_added s + c_added t) (s_missed s + c_missed t).
  (** 110-119 *)
  Record cline := mkCLine {
    l_number : nat; l_id : string; l_duration : Q; l_truth_points : nat; l_match_points : nat; l_correct_fraction : fraction;
    l_error_fraction : fraction; l_correct : Q; l_added : Q; l_missed : Q }.
  Definition compare_line (s : csums) (t : ctask) : cline :=
    mkCLine (s_count s) (c_id t) (c_duration t) (c_truth_points t) (c_match_points t) (c_correct_fraction t) (c_error_fraction t)
      (c_correct t) (c_added t) (c_missed t).
  (** 125-157 [_compute_weighted_errors] *)
  Definition weighted_error (s : csums) : fraction :=
    if negb (Qeq_bool (s_added s) 0) || negb (Qeq_bool (s_missed s) 0) then
      if negb (Qle_bool (s_truth_length s) 0) then Fin ((s_added s + s_missed s) / s_truth_length s)%Q else Inf
    else Fin 0%Q.
  Definition weighted_correct (s : csums) : Q :=
    if is_zero (weighted_error s) then 1%Q
    else
      let f := if negb (Qle_bool (s_truth_length s) 0) && negb (Qle_bool (s_match_length s) 0)
               then (s_correct s / max_q (s_match_length s) (s_truth_length s))%Q
               else if Qeq_bool (s_truth_length s) 0 && Qeq_bool (s_match_length s) 0 then 1%Q else 0%Q in
      min_q 1%Q (max_q 0%Q f).
  (** 159-181 *)
  Record ctotal := mkCTotal {
    t_count : nat; t_duration : Q; t_truth_points : nat; t_match_points : nat; t_truth_length : Q; t_match_length : Q;
    t_mean_correct : fraction; t_weighted_correct : Q; t_mean_error : fraction; t_weighted_error : fraction;
    t_correct : Q; t_added : Q; t_missed : Q }.
  Definition compare_total (s : csums) : ctotal :=
    mkCTotal (s_count s) (s_duration s) (s_truth_points s) (s_match_points s) (s_truth_length s) (s_match_length s)
      (fdiv (s_correct_fraction s) (s_count s)) (weighted_correct s) (fdiv (s_error_fraction s) (s_count s)) (weighted_error s)
      (s_correct s) (s_added s) (s_missed s).
  (** comparator.cpp 28-79: every result is parsed and passed, then the printer is stopped and destroyed *)
  Definition compare_report (f : flags) (l : list cresult) : list (printed cline ctotal) :=
    report compare_text add_compare compare_line s_count compare_total f csums0 (map (parse_compare f) l).
End Compares.

(** ** Matches, match_output_printer.hpp *)
Record mtask := mkMTask {
  m_id : string; m_text : string; m_track_points : nat; m_prepared_points : nat; m_edges : nat; m_combinations : nat; m_aborted : bool;
  m_duration : Q }.
(** a match_result; an environment by its numbers of edges and states *)
Record mresult := mkMResult {
  n_id : string; n_wkt : string; n_track_points : nat; n_prepared_points : nat; n_environments : list (nat * nat); n_aborted : bool;
  n_duration : Q }.
(** 43-69 *)
Definition parse_match (f : flags) (r : mresult) : mtask :=
  let shown := active f && console f in
  let counted := active f && negb (console f) in
  let '(edges, combinations) := fold_left (fun s e => (fst s + fst e, snd s + snd e)) (n_environments r) (0, 0) in
  mkMTask (n_id r) (if shown then n_wkt r else ""%string) (if counted then n_track_points r else 0) (if counted then n_prepared_points r else 0)
    (if counted then edges else 0) (if counted then combinations else 0) (n_aborted r) (n_duration r).
Record msums := mkMSums {
  u_count : nat; u_duration : Q; u_track_points : nat; u_prepared_points : nat; u_candidates : nat; u_combinations : nat }.
Definition msums0 : msums := mkMSums 0 0 0 0 0 0.
(** 83-87, 92 *)
Definition add_match (s : msums) (t : mtask) : msums :=
  mkMSums (S (u_count s)) (u_duration s + m_duration t) (u_track_points s + m_track_points t) (u_prepared_points s + m_prepared_points t)
    (u_candidates s + m_edges t) (u_combinations s + m_combinations t).
(** 89-93: the number, the id, aborted or done, the duration, and the points, candidates and combinations *)
Record mline := mkMLine {
  ml_number : nat; ml_id : string; ml_aborted : bool; ml_duration : Q; ml_track_points : nat; ml_prepared_points : nat; ml_candidates : nat;
  ml_combinations : nat }.
Definition match_line (s : msums) (t : mtask) : mline :=
  mkMLine (u_count s) (m_id t) (m_aborted t) (m_duration t) (m_track_points t) (m_prepared_points t) (m_edges t) (m_combinations t).
(** 99-110 *)
Definition match_report (f : flags) (l : list mresult) : list (printed mline msums) :=
  report m_text add_match match_line u_count (fun s => s) f msums0 (map (parse_match f) l).

(** ** Tracks, track_output_printer.hpp *)
Record ttask := mkTTask { tt_id : string; tt_text : string; tt_points : nat }.
(** a multi track: its id, its text and its number of points *)
Record tresult := mkTResult { tr_id : string; tr_wkt : string; tr_points : nat }.
(** 41-55 *)
Definition parse_track (f : flags) (r : tresult) : ttask :=
  mkTTask (tr_id r) (if active f && console f then tr_wkt r else ""%string) (if active f && negb (console f) then tr_points r else 0).
(** the count and the points *)
Definition add_track (s : nat * nat) (t : ttask) : nat * nat := (S (fst s), snd s + tt_points t).
Definition track_line (s : nat * nat) (t : ttask) : nat * string * nat := (fst s, tt_id t, tt_points t).
Definition track_report (f : flags) (l : list tresult) : list (printed (nat * string * nat) (nat * nat)) :=
  report tt_text add_track track_line fst (fun s => s) f (0, 0) (map (parse_track f) l).
