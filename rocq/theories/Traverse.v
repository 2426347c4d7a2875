(** Model of the graph traversals
    /repo/src/library/include/graph/algorithm/breadth_first_search.hpp and depth_first_search.hpp.

    The graph is seen through the targets of the out-edges of each vertex index, in list order ([out]);
    instances for both graph containers are at the end.  The visitor is seen through the list of
    discovered vertices and the list of finished vertices; its [stopped()] answer may depend on them
    arbitrarily ([stop]).  The calls [examine_vertex] and [examine_edge] are not recorded. *)
From Verif Require Import Base AdjList Csr.

Section Traverse.
  Variable out : nat -> list nat.
  Variable stop : list nat -> list nat -> bool.

  (** [visited.contains] *)
  Definition mem (v : nat) (l : list nat) : bool := existsb (Nat.eqb v) l.

  (** breadth_first_search.hpp 41-61 / depth_first_search.hpp 44-66, the loop over the out-edges: returns
      the vertices discovered by it, in order; [seen] is the visited set. *)
  Fixpoint expand (seen : list nat) (ts : list nat) : list nat :=
    match ts with
    | [] => []
    | t :: r => if mem t seen then expand seen r else t :: expand (t :: seen) r
    end.

  (** state: visited set before the search (the caller may pass a non-empty one), discovered vertices,
      finished vertices, queue or stack *)
  Record tstate := mkT { t_disc : list nat; t_fin : list nat; t_work : list nat }.

  (** breadth_first_search.hpp 37-66 (loop) *)
  Fixpoint bfs_loop (fuel : nat) (v0 : list nat) (s : tstate) : outcome tstate :=
    match t_work s with
    | [] => Ok s
    | v :: q =>
      if stop (t_disc s) (t_fin s) then Ok s
      else match fuel with
           | O => Fuel
           | S f =>
             let new := expand (v0 ++ t_disc s) (out v) in
             bfs_loop f v0 (mkT (t_disc s ++ new) (t_fin s ++ [v]) (q ++ new))
           end
    end.

  (** breadth_first_search.hpp 28-67; [start] is inserted into the visited set and discovered
      unconditionally *)
  Definition bfs (fuel : nat) (v0 : list nat) (start : nat) : outcome tstate :=
    bfs_loop fuel v0 (mkT [start] [] [start]).

  (** depth_first_search.hpp 37-72 (loop): out-edges are read last to first, newly discovered vertices
      are pushed one by one, the top of the stack is the head of the list *)
  Fixpoint dfs_loop (fuel : nat) (v0 : list nat) (s : tstate) : outcome tstate :=
    match t_work s with
    | [] => Ok s
    | v :: q =>
      if stop (t_disc s) (t_fin s) then Ok s
      else match fuel with
           | O => Fuel
           | S f =>
             let new := expand (v0 ++ t_disc s) (rev (out v)) in
             dfs_loop f v0 (mkT (t_disc s ++ new) (t_fin s ++ [v]) (rev new ++ q))
           end
    end.

  (** depth_first_search.hpp 28-72 *)
  Definition dfs (fuel : nat) (v0 : list nat) (start : nat) : outcome tstate :=
    dfs_loop fuel v0 (mkT [start] [] [start]).
End Traverse.

(** compressed graph: vertex descriptors are the indices *)
Definition csr_targets {VD ED} (c : csr VD ED) (v : nat) : list nat := map fst (csr_outs c v).

(** adjacency list: descriptors are identities; vertices are marked visited by index, so this instance is
    faithful for graphs with up-to-date (distinct) indices *)
Definition adj_targets {VD ED} (g : graph VD ED) (v : nat) : list nat :=
  match get_vertex g v with
  | None => []
  | Some x => flat_map (fun e => match get_edge g e with Some ed => [e_tgt ed] | None => [] end) (v_out x)
  end.
