(** Merging nearby measurements: geometry/algorithm/{median,median_merge}.hpp (under src/library/include/).

    Coordinates and distances are arbitrary ordered types, [nth_element] and the spatial index are parameters.
    Points have two coordinates. *)
From Verif Require Import Base ListAux.
Local Open Scope nat_scope.

Section Median.
  Context {C D : Type}.
  (** [std::nth_element(begin, begin + n, end)] and [(a + b) / 2] of coordinates *)
  Variable nth_el : nat -> list C -> list C.
  Variable mean : C -> C -> C.

  (** median.hpp 27-42; reading an element that does not exist is undefined *)
  Definition median (l : list C) : outcome C :=
    let middle := length l / 2 in
    let l1 := nth_el middle l in
    if length l mod 2 =? 1 then
      match nth_error l1 middle with Some v => Ok v | None => UB end
    else
      if middle =? 0 then UB
      else
        let l2 := nth_el (middle - 1) l1 in
        match nth_error l2 (middle - 1), nth_error l2 middle with
        | Some a, Some b => Ok (mean a b)
        | _, _ => UB
        end.

  (** median.hpp 65-118 in two dimensions *)
  Definition median_point (ps : list (C * C)) : outcome (C * C) :=
    bindO (median (map fst ps)) (fun a => (a, a)) (fun mx =>
    bindO (median (map snd ps)) (fun a => (a, a)) (fun my => Ok (mx, my))).

  (** [point_distance], its comparison, the tolerance used at a point ([tolerance_adjuster]) and whether a point
      intersects the buffer box of another one for a tolerance (buffer.hpp) *)
  Variable dist : C * C -> C * C -> D.
  Variable leb : D -> D -> bool.
  Variable adjust : C * C -> D.
  Variable in_box : C * C -> D -> C * C -> bool.
  (** not [buffer_radius <= 0.0]; otherwise the box cannot be made and an exception is thrown (buffer.hpp 43-45) *)
  Variable positive : D -> bool.

  (** an entry of the list; the number stands for the list iterator, which the index stores along with the point *)
  Definition entry : Type := (nat * (C * C))%type.

  (** median_merge.hpp 66-78: query and removal of the results outside of the tolerance *)
  Definition query (index : list entry) (p : C * C) : list entry :=
    filter (fun e => leb (dist p (snd e)) (adjust p)) (filter (fun e => in_box p (adjust p) (snd e)) index).

  (** median_merge.hpp 85-107: the results connected to the current position.  The scan over the results starts again
      after every hit, so that the next list entry is found wherever it is among the results *)
  Fixpoint connected (results todo : list entry) : list entry * list entry :=
    match todo with
    | [] => ([], [])
    | e :: r => match find (fun f => fst f =? fst e) results with
                | Some f => let (c, rest) := connected results r in (f :: c, rest)
                | None => ([], todo)
                end
    end.

  (** median_merge.hpp 109-128: [points_index.remove] *)
  Definition remove_all (index gone : list entry) : list entry :=
    filter (fun e => negb (existsb (fun g => fst g =? fst e) gone)) index.

  (** median_merge.hpp 59-132: [out] are the list entries before [it], [todo] those from [it] on *)
  Fixpoint merge_loop (fuel : nat) (index todo : list entry) (out : list (C * C)) : outcome (list (C * C)) :=
    match fuel with
    | 0 => Fuel
    | S f =>
        match todo with
        | [] => Ok out
        | e :: r =>
            if negb (positive (adjust (snd e))) then Throw out else
            let results := query index (snd e) in
            match results with
            | [] => merge_loop f index r (out ++ [snd e])
            | _ => let (conn, rest) := connected results todo in
                   match conn with
                   | [] => merge_loop f index todo out
                   | _ => bindO (median_point (map snd conn)) (fun _ => out)
                            (fun m => merge_loop f (remove_all index conn) rest (out ++ [m]))
                   end
            end
        end
    end.

  (** median_merge.hpp 34-58, 130 *)
  Definition median_merge (fuel : nat) (line : list (C * C)) : outcome (list (C * C)) :=
    let entries := combine (seq 0 (length line)) line in
    merge_loop fuel entries entries [].
End Median.
