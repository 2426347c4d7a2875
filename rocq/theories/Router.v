(** Model of extract_route (/repo/src/library/include/geometry/network/network.hpp 299-342) and of the route
    cache of the router (/repo/src/library/include/matching/algorithm/route.hpp 56-159). *)
From Verif Require Import Base Traverse Search.

Section Extract.
  Context {L W : Type}.
  Variable leb : W -> W -> bool.
  (** a line: is it empty, and its length if it has one *)
  Variable l_empty : L -> bool.
  Variable l_length : L -> option W.
  (** out-edges of a vertex as (target, line) *)
  Variable lines : nat -> list (nat * L).

  (** a route: invalid, valid without edges ("staying here"), or with edges; route.hpp constructors *)
  Inductive route := Invalid | Stay | Edges (es : list L).

  (** network.hpp 315-328: among the edges to [next] take one with a smaller length than the best so far
      (None stands for infinity); an edge whose line has no length replaces the pointer but not the length *)
  Definition better (next : nat) (acc : option L * option W) (e : nat * L) : option L * option W :=
    let (t, l) := e in
    if negb (t =? next) then acc
    else if l_empty l then acc
    else match l_length l with
         | None => (Some l, snd acc)
         | Some x => match snd acc with
                     | None => (Some l, Some x)
                     | Some y => if negb (leb y x) then (Some l, Some x) else acc
                     end
         end.
  Definition best_edge (v next : nat) : option L := fst (fold_left (better next) (lines v) (None, None)).

  (** network.hpp 310-333 *)
  Fixpoint route_edges (p : list nat) : list L :=
    match p with
    | v :: ((next :: _) as r) => match best_edge v next with Some l => l :: route_edges r | None => route_edges r end
    | _ => []
    end.

  (** network.hpp 299-342 *)
  Definition extract_route (p : list nat) : route :=
    match p with
    | [] => Invalid
    | _ => match route_edges p with [] => Stay | es => Edges es end
    end.
End Extract.
Arguments route : clear implicits.

Section Cache.
  Context {L : Type}.
  (** [_route_cache]: keyed by the pair of vertices *)
  Definition key := (nat * nat)%type.
  Definition cache := list (key * route L).
  Definition key_eqb (a b : key) : bool := (fst a =? fst b) && (snd a =? snd b).
  Fixpoint lookup (c : cache) (k : key) : option (route L) :=
    match c with
    | [] => None
    | (k', r) :: c' => if key_eqb k' k then Some r else lookup c' k
    end.
  Variable extract : list nat -> route L.

  (** route.hpp 126-150, the loop over the paths found; [found] is [return_route] once set.
      [front]/[back] of an empty path are undefined behaviour. *)
  Fixpoint store_paths (k : key) (c : cache) (found : option (route L)) (ps : list (list nat)) : outcome (cache * option (route L)) :=
    match ps with
    | [] => Ok (c, found)
    | p :: r =>
      match hd_error p, hd_error (rev p) with
      | Some a, Some b =>
        match lookup c (a, b) with
        | Some x => store_paths k c (if key_eqb k (a, b) then Some x else found) r
        | None => let x := extract p in
                  store_paths k (((a, b), x) :: c) (if key_eqb k (a, b) then Some x else found) r
        end
      | _, _ => UB
      end
    end.

  (** route.hpp 100-159; [search] is the result of shortest_paths or shortest_path for this query *)
  Definition query (k : key) (search : outcome (list (list nat))) (c : cache) : outcome (cache * route L) :=
    match lookup c k with
    | Some r => Ok (c, r)
    | None =>
      match search with
      | Ok ps =>
        match store_paths k c None ps with
        | Ok (c', Some r) => Ok (c', r)
        | Ok (c', None) =>
          (* emplace keeps an existing entry; there is none for [k] here unless a path stored it *)
          match lookup c' k with
          | Some r => Ok (c', r)
          | None => Ok ((k, Invalid) :: c', Invalid)
          end
        | Throw _ => UB | UB => UB | Fuel => Fuel
        end
      | Throw _ => UB | UB => UB | Fuel => Fuel
      end
    end.
End Cache.
Arguments cache : clear implicits.
