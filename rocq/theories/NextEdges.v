(** The additional edges of the candidate search NEXT, [_additions_next]:
    src/library/include/matching/algorithm/candidate_search.hpp 155-202.

    Edges and vertices are numbers; an ordered set of edges is an ascending list. The graph (ends of an edge, edges out of a vertex) and the
    distance of the measurement to the line of an edge are parameters. *)
From Coq Require Import QArith.
From Verif Require Import Base ListAux.
Local Open Scope nat_scope.

Section Next.
  Variable source target : nat -> nat.
  Variable out_edges : nat -> list nat.
  Variable distance : nat -> Q.

  (** [boost::container::set::emplace] *)
  Fixpoint set_add (x : nat) (s : list nat) : list nat :=
    match s with
    | [] => [x]
    | y :: r => if x <? y then x :: s else if y <? x then y :: set_add x r else s
    end.
  (** 180-183 and 198-201: the additions are moved to the set *)
  Definition set_add_all (s additions : list nat) : list nat := fold_left (fun s x => set_add x s) additions s.

  (** 157-178; 171: [adj_edge_line] is the line of [edge], not that of [adj_edge] *)
  Definition adjacent_additions (s : list nat) : list nat :=
    flat_map (fun edge =>
      flat_map (fun vertex => filter (fun it => Qle_bool (distance edge) (distance edge)) (out_edges vertex)) [source edge; target edge]) s.
  (** 185-196 *)
  Definition reverse_additions (s : list nat) : list nat :=
    flat_map (fun edge => filter (fun it => target it =? source edge) (out_edges (target edge))) s.

  (** 155-202 *)
  Definition additions_next (s : list nat) : list nat :=
    let s1 := set_add_all s (adjacent_additions s) in
    set_add_all s1 (reverse_additions s1).
End Next.
