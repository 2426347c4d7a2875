(** Model of the shortest-path searches:
    /repo/src/library/include/graph/algorithm/dijkstra_shortest_path.hpp,
    /repo/src/library/include/graph/algorithm/a_star_shortest_path.hpp,
    and their callers and visitors in /repo/src/library/include/geometry/network/network.hpp.

    Lengths are an abstract type with addition and comparison; each theorem says what it needs of them.
    [x > y] is modelled as [negb (leb x y)], which excludes NaN.  The colour map is modelled by the list of
    BLACK vertices: the code never distinguishes GRAY from absent.  The hash maps are finite functions. *)
From Verif Require Import Base Traverse.

Section Search.
  Context {W : Type}.
  Variable add : W -> W -> W.
  Variable leb : W -> W -> bool.
  Variable zero : W.

  (** the graph: out-edges of each vertex as (target, length), in list order *)
  Variable adj : nat -> list (nat * W).

  Definition upd {A} (m : nat -> option A) (k : nat) (x : A) : nat -> option A :=
    fun i => if i =? k then Some x else m i.

  Record sstate := mkS {
    s_pred : nat -> option nat;
    s_dist : nat -> option W;
    s_black : list nat;
    s_fin : list nat;              (* calls of finish_vertex, oldest first *)
    s_queue : list (W * nat)
  }.

  (** [priority_queue_type] (d-ary heap ordered by priority_type_comparator.hpp): [top]/[pop] remove some
      entry of minimal priority; which one, among equals, may depend on the whole history, here on the
      number of the step. *)
  Definition picker := nat -> list (W * nat) -> option ((W * nat) * list (W * nat)).
  Definition heap_like (pick : picker) : Prop :=
    forall n q, q <> [] -> exists e r, pick n q = Some (e, r) /\ Permutation q (e :: r) /\
                                       forall x, In x r -> leb (fst e) (fst x) = true.

  Variable pick : picker.
  (** distance used for relaxing, from the popped priority and the recorded distance:
      the popped one in dijkstra_shortest_path.hpp 87, the recorded one in a_star_shortest_path.hpp 88 *)
  Variable cur : W -> W -> W.
  (** priority of a vertex with a distance: dijkstra_shortest_path.hpp 94, a_star_shortest_path.hpp 95 *)
  Variable prio : W -> nat -> W.
  (** network.hpp 417-433 ([base_max_distance_visitor::examine_edge]): is this distance beyond the bound? *)
  Variable exceeds : W -> bool.
  (** [visitor.stopped()], set by [finish_vertex]; depends on the vertices finished so far *)
  Variable stop : list nat -> bool.

  (** [distances[v]] of a boost map: a missing entry reads as 0 *)
  Definition dget (s : sstate) (v : nat) : W := match s_dist s v with Some d => d | None => zero end.

  (** dijkstra_shortest_path.hpp 80-97 / a_star_shortest_path.hpp 81-98, one iteration of the loop over the
      out-edges of [v], popped with priority [k].  [examine_edge] runs first and may blacken the target.
      The insertion of a default entry by [distances[source]] on a missing key cannot happen: [v] was
      queued, so it has a distance. *)
  Definition relax (k : W) (v : nat) (s : sstate) (e : nat * W) : sstate :=
    let (t, w) := e in
    let black := if exceeds (add (dget s v) w) then t :: s_black s else s_black s in
    if mem t black then mkS (s_pred s) (s_dist s) black (s_fin s) (s_queue s)
    else
      let d := add (cur k (dget s v)) w in
      if match s_dist s t with None => true | Some x => negb (leb x d) end
      then mkS (upd (s_pred s) t v) (upd (s_dist s) t d) black (s_fin s) (s_queue s ++ [(prio d t, t)])
      else mkS (s_pred s) (s_dist s) black (s_fin s) (s_queue s).

  (** dijkstra_shortest_path.hpp 66-102 / a_star_shortest_path.hpp 67-103 *)
  Fixpoint search_loop (fuel n : nat) (s : sstate) : outcome sstate :=
    match s_queue s with
    | [] => Ok s
    | _ =>
      if stop (s_fin s) then Ok s
      else match fuel with
           | O => Fuel
           | S f =>
             match pick n (s_queue s) with
             | None => UB
             | Some ((k, v), q) =>
               let s1 := fold_left (relax k v) (adj v) (mkS (s_pred s) (s_dist s) (s_black s) (s_fin s) q) in
               search_loop f (S n) (mkS (s_pred s1) (s_dist s1) (v :: s_black s1) (s_fin s1 ++ [v]) (s_queue s1))
             end
           end
    end.

  (** dijkstra_shortest_path.hpp 59-64 / a_star_shortest_path.hpp 59-65, with cleared maps (network.hpp
      244-249, 287-292 clear them after each use) *)
  Definition search (fuel : nat) (start : nat) : outcome sstate :=
    search_loop fuel 0
      (mkS (upd (fun _ => None) start start) (upd (fun _ => None) start zero) [] [] [(prio zero start, start)]).

  (** network.hpp 236-240 and 281-285: follow [predecessors[vertex]] until a fixed point; a missing entry
      reads as (and is created with) 0. *)
  Definition pget (p : nat -> option nat) (v : nat) : nat := match p v with Some u => u | None => 0 end.
  Fixpoint trace_back (p : nat -> option nat) (fuel v : nat) (acc : list nat) : outcome (list nat) :=
    match fuel with
    | O => Fuel
    | S f => if pget p v =? v then Ok (v :: acc) else trace_back p f (pget p v) (v :: acc)
    end.
End Search.
Arguments sstate : clear implicits.
Arguments picker : clear implicits.

Section Callers.
  Context {W : Type}.
  Variable add : W -> W -> W.
  Variable leb : W -> W -> bool.
  Variable zero : W.
  Variable adj : nat -> list (nat * W).
  Variable pick : picker W.

  (** network.hpp 419-430: disabled (None) when the factor is negative *)
  Definition exceeds_bound (bound : option W) (x : W) : bool :=
    match bound with None => false | Some b => negb (leb x b) end.

  (** dijkstra_shortest_path.hpp 55-104 *)
  Definition dijkstra (bound : option W) (stop : list nat -> bool) (fuel : nat) (start : nat) : outcome (sstate W) :=
    search add leb zero adj pick (fun k _ => k) (fun d _ => d) (exceeds_bound bound) stop fuel start.

  (** a_star_shortest_path.hpp 55-105; [h] is the estimate towards the fixed goal *)
  Definition a_star (h : nat -> W) (bound : option W) (stop : list nat -> bool) (fuel : nat) (start : nat)
    : outcome (sstate W) :=
    search add leb zero adj pick (fun _ d => d) (fun d v => add d (h v)) (exceeds_bound bound) stop fuel start.

  (** network.hpp 446-477 ([goals_visitor]): [goals_found], and stopping when all are found *)
  Definition goals_found (goals fin : list nat) : list nat := filter (fun g => mem g fin) goals.
  Definition goals_stop (goals fin : list nat) : bool :=
    match fin with [] => false | _ => length goals <=? length (goals_found goals fin) end.

  (** network.hpp 479-504 ([goal_visitor]) *)
  Definition goal_stop (goal : nat) (fin : list nat) : bool := mem goal fin.

  Fixpoint collect {A B} (f : A -> outcome B) (l : list A) : outcome (list B) :=
    match l with
    | [] => Ok []
    | x :: r => match f x with
                | Ok y => match collect f r with Ok ys => Ok (y :: ys) | Throw _ => UB | UB => UB | Fuel => Fuel end
                | Throw _ => UB | UB => UB | Fuel => Fuel
                end
    end.

  (** network.hpp 214-254; the set of goals is a duplicate-free list, paths come in its order.
      [fuel] bounds the search, [n] the path extraction. *)
  Definition dijkstra_shortest_paths (bound : option W) (goals : list nat) (fuel n : nat) (start : nat)
    : outcome (list (list nat)) :=
    match dijkstra bound (goals_stop goals) fuel start with
    | Ok s => collect (fun g => trace_back (s_pred s) n g []) (goals_found goals (s_fin s))
    | Throw _ => UB | UB => UB | Fuel => Fuel
    end.

  (** network.hpp 256-297 *)
  Definition a_star_shortest_paths (h : nat -> W) (bound : option W) (goal : nat) (fuel n : nat) (start : nat)
    : outcome (list nat) :=
    match a_star h bound (goal_stop goal) fuel start with
    | Ok s => trace_back (s_pred s) n goal []
    | Throw _ => UB | UB => UB | Fuel => Fuel
    end.
End Callers.
