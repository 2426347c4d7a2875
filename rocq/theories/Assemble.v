(** From chosen candidates to the reported route and edge ids: [src/library/include/matching/algorithm/route.hpp] 161-384,
    [fitting_edge] of [geometry/network/network.hpp] 185-212 and the loop over the parts of a track in [matching/matcher.hpp] 131-165.

    Routes are those of [Route.v]. The shortest route between the ends of two edges ([route], modelled in [Router.v]), the part of a
    line between two positions ([geometry::substring], modelled in [Substring.v]), the answers of the spatial index and the angles are
    oracles. Candidates are the lists of their edges; indexing a vector outside of its range is [UB]. *)
From Coq Require Import NArith.
From Verif Require Import Base RichLine Route.

Section Assemble.
  Context {P L A : Type}.
  Variable eqp : P -> P -> bool.
  Variable zeroL : L.
  Variable addL : L -> L -> L.
  Variable leL : L -> L -> bool.
  Variable dist : P -> P -> L.
  Variable opposite : P * P -> P * P -> bool.

  (** matching/types/candidate_edge: the edge, the projected point, the parts of the edge before ([from]) and after it ([to]) *)
  Record cedge := mkCE { ce_edge : nat; ce_point : P; ce_from : list P; ce_to : list P }.

  (** [route(candidates, …)]: it depends only on the two edges *)
  Variable route_between : nat -> nat -> @route P.
  Variable edge_line : nat -> list P.
  Variable substring : list P -> L -> L -> P -> P -> list P.

  Notation len l := (plain_length eqp dist addL zeroL l).

  (** route.hpp 179-198: both on the same edge, the first before the second one; the lengths if the substring is taken *)
  Definition along (cf ct : cedge) : option (L * L) :=
    if ce_edge cf =? ce_edge ct then
      match len (ce_to cf), len (ce_from ct), len (edge_line (ce_edge cf)) with
      | Ok s, Ok e, Ok w =>
          if leL w (addL s e) then
            match len (ce_from cf), len (ce_from ct) with
            | Ok x, Ok y => if leL x y then Some (x, y) else None
            | _, _ => None
            end
          else None
      | _, _, _ => None
      end
    else None.

  (** route.hpp 235-242: merge exceptions are turned into an invalid route *)
  Definition caught (x : outcome (@route P)) : outcome (@route P) := match x with Throw _ => Ok (flagged true) | y => y end.

  (** route.hpp 203-233: joining the three routes. Of [trim_merge] only [sub_route] raises, [std::out_of_range], which is not caught. *)
  Definition three (fuel : nat) (turns : bool) (start mid stop : @route P) : outcome (@route P) :=
    if turns then
      bindO (trim_merge eqp opposite fuel start mid) (fun x => x) (fun start_return =>
      if negb (invalid start_return) then
        bindO (trim_merge eqp opposite fuel start_return stop) (fun x => x) (fun end_return =>
        if negb (invalid end_return) then Ok end_return
        else caught (merge eqp [start_return; stop] false true))
      else
        bindO (trim_merge eqp opposite fuel mid stop) (fun x => x) (fun end_return =>
        if negb (invalid end_return) then caught (merge eqp [start; end_return] false true)
        else caught (merge eqp [start; mid; stop] false true)))
    else caught (merge eqp [start; mid; stop] false true).

  (** route.hpp 161-248: [candidate_route] *)
  Definition candidate_route (fuel : nat) (turns : bool) (cf ct : cedge) : outcome (@route P) :=
    if eqp (ce_point cf) (ce_point ct) then Ok (flagged false)
    else match along cf ct with
         | Some (x, y) => Ok (of_lines [substring (edge_line (ce_edge cf)) x y (ce_point cf) (ce_point ct)])
         | None =>
             let mid := route_between (ce_edge cf) (ce_edge ct) in
             if negb (invalid mid) then three fuel turns (of_lines [ce_to cf]) mid (of_lines [ce_from ct])
             else Ok (flagged true)
         end.

  (** the entries of a policy are a candidate and an edge of it, [candidates[from].edges[source]] *)
  Definition policy_between (cands : list (list cedge)) (fuel : nat) (turns : bool) (f t : nat * nat) : outcome (@route P) :=
    derefO (nth_error cands (fst f)) (fun es => derefO (nth_error es (snd f)) (fun cf =>
    derefO (nth_error cands (fst t)) (fun es' => derefO (nth_error es' (snd t)) (fun ct => candidate_route fuel turns cf ct)))).

  (** ** [candidates_route], 250-303 *)
  (** the route between two entries of the policy *)
  Variable between : nat * nat -> nat * nat -> outcome (@route P).
  (** network.hpp 171-183: whether the point is an end of the segment nearest to it *)
  Variable in_edges : P -> bool.

  (** route.hpp 277-293: the previous route and the new one, joined if the previous one ends inside of an edge *)
  Definition join_last (routes : list (@route P)) (r : @route P) : list (@route P) * @route P :=
    match rev routes with
    | prev :: rest =>
        if negb (invalid r) && negb (match lines r with [] => true | _ => false end)
           && negb (invalid prev) && negb (match lines prev with [] => true | _ => false end) then
          match back (last (lines prev) []) with
          | Some p => if in_edges p then (routes, r)
                      else let (prev', r') := join eqp opposite prev r true in (rev rest ++ [prev'], r')
          | None => (routes, r)
          end
        else (routes, r)
    | [] => (routes, r)
    end.

  (** route.hpp 257-300: the loop; the list is the policy from position [i] on *)
  Fixpoint route_loop (join_merges : bool) (policy : list (nat * nat)) (skipped : bool) (routes : list (@route P)) : outcome (list (@route P)) :=
    match policy with
    | f :: ((t :: rest) as next) =>
        if fst f =? fst t then route_loop join_merges rest true routes
        else
          bindO (between f t) (fun _ => routes) (fun r =>
          let (routes1, r1) := if join_merges && negb skipped then join_last routes r else (routes, r) in
          if negb (invalid r1) && has_length eqp zeroL addL dist r1 then route_loop join_merges next false (routes1 ++ [r1])
          else route_loop join_merges next skipped routes1)
    | _ => Ok routes
    end.
  Definition candidates_route (join_merges : bool) (policy : list (nat * nat)) : outcome (@route P) :=
    bindO (route_loop join_merges policy false []) (fun _ => flagged true) (fun rs => merge eqp rs false false).

  (** ** [edges_list], 305-334 *)
  Variable azi : P * P -> A.
  Variable diff : A -> A -> A.            (* fabs(angle_diff(a, b)) *)
  Variable ltA : A -> A -> bool.
  Variable straight : A.                  (* 180 degrees *)
  Variable hits : P * P -> list ((P * P) * nat).   (* query_segments(intersects(segment)): segments with their edges *)

  Definition eqs (s t : P * P) : bool := eqp (fst s) (fst t) && eqp (snd s) (snd t).
  (** network.hpp 185-212: [fitting_edge] *)
  Definition fit_step (s : P * P) (best : A * option nat) (h : (P * P) * nat) : A * option nat :=
    let d := diff (azi s) (azi (fst h)) in
    if match snd best with None => true | Some _ => false end || eqs s (fst h) || ltA d (fst best) then (d, Some (snd h)) else best.
  Definition fitting_edge (s : P * P) : option nat := snd (fold_left (fit_step s) (hits s) (straight, None)).

  Definition add_edge (es : list nat) (e : nat) : list nat :=
    match rev es with b :: _ => if b =? e then es else es ++ [e] | [] => es ++ [e] end.
  Definition segment_edge (es : list nat) (s : P * P) : list nat :=
    if negb (eqp (fst s) (snd s)) then match fitting_edge s with Some e => add_edge es e | None => es end else es.
  Definition edges_list (r : @route P) : outcome (list nat) :=
    bindO (get_multi_rich_line eqp r) (fun _ => []) (fun ls => Ok (fold_left (fun es l => fold_left segment_edge (segments l) es) ls [])).

  (** 336-346: [export_edges_route] *)
  Definition export_edges_route (es : list nat) : @route P := of_lines (map edge_line es).

  (** 348-365: [edge_ids] *)
  Variable edge_id : nat -> N.
  Definition edge_ids (es : list nat) : list N :=
    fold_left (fun ids e => match rev ids with b :: _ => if N.eqb b (edge_id e) then ids else ids ++ [edge_id e] | [] => ids ++ [edge_id e] end) es [].

  (** matcher.hpp 131-165: the ids of the parts of a track one after the other *)
  Definition match_ids (parts : list (@route P)) : outcome (list N) :=
    foldO (fun ids r => bindO (edges_list r) (fun _ => ids) (fun es => Ok (ids ++ edge_ids es))) parts [].
End Assemble.

(** 367-384: [candidates_policy]; a candidate is its list of edges *)
Definition candidates_policy {E} (cands : list (list E)) (policy : list (nat * nat)) : outcome (list (list E)) :=
  foldO (fun acc p => derefO (nth_error cands (fst p)) (fun es =>
         match es with [] => Ok acc | _ => derefO (nth_error es (snd p)) (fun e => Ok (acc ++ [[e]])) end)) policy [].
