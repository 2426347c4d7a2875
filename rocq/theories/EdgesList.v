(** Model of the import of a list of edge ids, /repo/src/library/include/io/track/edges_list_importer.hpp 59-233.

    The text of the file is given as the list of ids read from it (std::getline, boost::split and std::stol are not
    modelled).  The final merge of the collected lines into a multi line is the subject of RichLine.v; here the result is
    the list of the chosen edges. *)
From Coq Require Import ZArith.
From Verif Require Import Base.
Local Open Scope nat_scope.

Section EdgesList.
  Context {E P : Type}.
  (** edge id; first and last point of the line of an edge, [None] for an empty line; geometry::equals_points *)
  Variable edge_id : E -> Z.
  Variable front back : E -> option P.
  Variable peq : P -> P -> bool.

  (** 60-67: descriptors by id *)
  Fixpoint em_add (i : Z) (e : E) (m : list (Z * list E)) : list (Z * list E) :=
    match m with
    | [] => [(i, [e])]
    | (j, l) :: r => if Z.eqb j i then (j, l ++ [e]) :: r else (j, l) :: em_add i e r
    end.
  Definition edge_map (edges : list E) : list (Z * list E) := fold_left (fun m e => em_add (edge_id e) e m) edges [].

  (** 86-96 *)
  Definition attached (a b : E) : bool :=
    match back a, front b with Some p, Some q => peq p q | _, _ => false end.
  Fixpoint is_connected (l : list E) : bool :=
    match l with
    | a :: ((b :: _) as r) => attached a b && is_connected r
    | _ => true
    end.

  (** 142-164: collect the candidates of every id; the same id as the one before is skipped, an unknown id makes [at]
      throw *)
  Fixpoint collect (m : list (Z * list E)) (prev : Z) (ids : list Z) : outcome (list (list E)) :=
    match ids with
    | [] => Ok []
    | i :: r => if Z.eqb i prev then collect m prev r
                else match find (fun x => Z.eqb (fst x) i) m with
                     | None => Throw []
                     | Some (_, l) => bindO (collect m i r) (fun _ => []) (fun rest => Ok (l :: rest))
                     end
    end.
  Definition int64_min : Z := (- 2 ^ 63)%Z.

  (** 190-217: the search from one start *)
  Fixpoint search (fuel : nat) (lists : list (list E)) (step_count : nat) (queue : list (nat * list E)) (path : list E)
    : outcome (list E) :=
    match queue with
    | [] => Ok path
    | (step, cur) :: queue =>
      match fuel with
      | 0 => Fuel
      | S fuel =>
        let path' := if is_connected cur && (length path <? length cur) then cur else path in
        if is_connected cur && (length cur =? step_count) then Ok path'
        else if step <? length lists then
          match nth_error lists step with
          | None => Throw []                                                              (* at *)
          | Some ds =>
            let new := filter (fun p => is_connected (snd p)) (map (fun d => (S step, cur ++ [d])) ds) in
            search fuel lists step_count (queue ++ new) path'
          end
        else search fuel lists step_count queue path'
      end
    end.

  (** 184-225 *)
  Fixpoint stretches (fuel sfuel : nat) (lists : list (list E)) (start : nat) : outcome (list (list E)) :=
    if start <? length lists then
      match fuel with
      | 0 => Fuel
      | S fuel =>
        bindO (search sfuel lists (length lists - start) [(start, [])] []) (fun _ => [])
              (fun path => bindO (stretches fuel sfuel lists (start + match path with [] => 1 | _ => length path end)) (fun _ => [])
                                 (fun rest => Ok (path :: rest)))
      end
    else Ok [].

  (** the queue holds at most one entry per connected choice *)
  Fixpoint weight (lists : list (list E)) : nat :=
    match lists with [] => 1 | l :: r => S (length l * weight r) end.

  (** one file; [None]: nothing to extract, the file is skipped (166-176) *)
  Definition import_file (edges : list E) (ids : list Z) : outcome (option (list E)) :=
    bindO (collect (edge_map edges) int64_min ids) (fun _ => None)
          (fun lists => match lists with
                        | [] => Ok None
                        | _ => bindO (stretches (length lists) (weight lists) lists 0) (fun _ => None) (fun ps => Ok (Some (concat ps)))
                        end).
End EdgesList.
