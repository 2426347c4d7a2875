(** The search radius of the candidate search: matching/algorithm/candidate_search.hpp 84-146
    (under src/library/include/).

    Radii and distances are rational numbers (the radius is only compared and doubled, which is exact for floating
    point numbers below the largest one).  The spatial index is a parameter. *)
From Coq Require Import QArith Qminmax.
From Verif Require Import Base ListAux.
Local Open Scope nat_scope.

Section Radius.
  Context {E : Type}.
  (** [query_segments_unique(intersects(buffer_box(point, radius)))], [query_segments_unique(nearest(point, k))]
      and [geometry::distance(point, edge_line)] *)
  Variable box : Q -> list E.
  Variable nearest : list E.
  Variable dist : E -> Q.

  Inductive mode := Circle | Nearest | Combined | Next.

  (** the settings and the lengths of the segments before and after the point ([None]: there is no segment, or it has
      no length and the infinity returned for it never is the minimum) *)
  Record settings : Type := mkSettings {
    radius : Q; lower : Q; upper : Q; adaptive : bool; search : mode; before : option Q; after : option Q }.

  Definition Qltb (a b : Q) : bool := negb (Qle_bool b a).
  (** std::min returns its first argument unless the second is smaller *)
  Definition minQ (a b : Q) : Q := if Qltb b a then b else a.
  Definition min_opt (a : Q) (o : option Q) : Q := match o with None => a | Some b => minQ a b end.

  (** candidate_search.hpp 104-120: the radius used in this round *)
  Definition clamp (s : settings) (adapt : bool) (current : Q) : Q :=
    let c := if adapt then
               let c := min_opt (min_opt current (before s)) (after s) in
               if Qltb c (lower s) then lower s else c
             else current in
    minQ c (upper s).

  Definition queries (s : settings) : bool := match search s with Circle => true | _ => false end.

  (** candidate_search.hpp 100-146: [while (not found)] *)
  Fixpoint radius_loop (fuel : nat) (s : settings) (adapt : bool) (current : Q) (result : list E) : outcome (Q * list E) :=
    match fuel with
    | 0 => Fuel
    | S f =>
        let c := clamp s adapt current in
        if queries s && Qle_bool c 0 then Throw (c, result) else   (* buffer_box throws, buffer.hpp 43-45 *)
        let found := if queries s then box c else result in
        let kept := filter (fun e => negb (Qltb c (dist e))) found in
        match kept with
        | [] => if Qltb c (upper s) then radius_loop f s false (c * 2)%Q kept else Ok (c, kept)
        | _ => Ok (c, kept)
        end
    end.

  (** candidate_search.hpp 84-150; the additions of NEXT (155-202) are in NextEdges.v *)
  Definition search_edges (fuel : nat) (s : settings) : outcome (list E) :=
    let first := match search s with Circle => [] | _ => nearest end in
    match search s with
    | Combined | Circle => bindO (radius_loop fuel s (adaptive s) (radius s) first) snd (fun r => Ok (snd r))
    | _ => Ok first
    end.
End Radius.
