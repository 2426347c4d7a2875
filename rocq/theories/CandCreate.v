(** How a candidate is made from an edge found near a measurement, [_process_candidate_query]:
    src/library/include/matching/algorithm/candidate_search.hpp 204-366.

    Distances, lengths and measured times are rational numbers. Parameters are the distance of two points, the equality of points
    ([geometry::equals_points]), the closest point on a line ([boost::geometry::closest_points]), the segment nearest to a point in the
    spatial index, the substrings of a line (C47) and the length of a line, if it has one (C21). Each benchmark is an input. A conversion of a
    floating point number to [std::size_t] out of its range is undefined behaviour. Rounding of the products and quotients is ignored. *)
From Coq Require Import QArith Qround.
From Verif Require Import Base ListAux.
Local Open Scope nat_scope.

Section Create.
  Context {P : Type}.
  Variable dist : P -> P -> Q.
  Variable eqp : P -> P -> bool.
  Variable closest : P -> list P -> P.
  Variable nearest_segment : P -> option (P * P).
  Variable sub_to sub_from : list P -> P -> list P.
  Variable len : list P -> option Q.

  Definition lessQ (a b : Q) : bool := negb (Qle_bool b a).

  (** candidate_search.hpp 76-78: [_edge_size_switch], [_edge_duration], [_index_duration]; NaN is [None] *)
  Record switch := mkSwitch { size_switch : nat; edge_duration : option Q; index_duration : option Q }.
  Definition fresh_switch : switch := mkSwitch 16 None None.

  (** [static_cast<std::size_t>] of a number that is not negative *)
  Definition size_limit : Q := inject_Z (2 ^ 64)%Z.
  Definition to_size (x : Q) : outcome nat := if lessQ x size_limit then Ok (Z.to_nat (Qfloor x)) else UB.
  (** 229-240: the division by a time of 0 gives infinity or NaN, which cannot be converted; a number divided by infinity is 0 *)
  Definition adapt (s : switch) : outcome switch :=
    match edge_duration s, index_duration s with
    | Some e, Some i =>
        bindO (if lessQ e i
               then if Qeq_bool e 0 then UB else to_size (inject_Z (Z.of_nat (size_switch s)) * (i / e))
               else if Qeq_bool i 0 then (if Qeq_bool e 0 then UB else Ok 0) else to_size (inject_Z (Z.of_nat (size_switch s)) / (e / i)))
              (fun _ => s) (fun n => Ok (mkSwitch (Nat.max 2 n) (edge_duration s) (index_duration s)))
    | _, _ => Ok s
    end.

  (** 1e-4 *)
  Definition snap_distance : Q := 1 # 10000.

  (** 245-254: the first point of the line with the smallest distance below 1 *)
  Fixpoint nearest_point (line : list P) (p : P) (best : option P) (d : Q) : option P * Q :=
    match line with
    | [] => (best, d)
    | x :: r => if lessQ (dist x p) d then nearest_point r p (Some x) (dist x p) else nearest_point r p best d
    end.
  (** 272-285: the nearer end of the nearest segment *)
  Definition nearest_end (p : P) : option P * Q :=
    match nearest_segment p with
    | None => (None, 1%Q)
    | Some (a, b) => if lessQ (dist b p) (dist a p) then (Some b, dist b p) else (Some a, dist a p)
    end.
  (** 255-261 and 286-292: the projection and its distance *)
  Definition snap (point : P) (found : option P * Q) (proj : P) (d : Q) : P * Q :=
    match found with
    | (Some x, dx) => if negb (eqp x proj) && lessQ dx snap_distance then (x, dist point x) else (proj, d)
    | (None, _) => (proj, d)
    end.

  (** 219-226: the projection and its distance before *)
  Definition project (point : P) (line : list P) : P * Q :=
    let proj := closest point line in
    let d := dist point proj in
    (if Qeq_bool d 0 then point else proj, d).

  (** 242-294; [duration] is the time measured *)
  Definition snapped (s : switch) (duration : Q) (point : P) (line : list P) : switch * (P * Q) :=
    let (proj, d) := project point line in
    if length line <=? size_switch s
    then (mkSwitch (size_switch s) (Some (duration * (inject_Z (Z.of_nat (size_switch s)) / inject_Z (Z.of_nat (length line))))%Q) (index_duration s),
          snap point (nearest_point line proj None 1) proj d)
    else (mkSwitch (size_switch s) (edge_duration s) (Some duration),
          snap point (nearest_end proj) proj d).

  Definition no_length (l : list P) : bool := match len l with None => true | Some x => Qeq_bool x 0 end.
  Definition same_length (l m : list P) : bool := match len l, len m with Some x, Some y => Qeq_bool x y | _, _ => false end.

  (** 296-355: the lines before and after the projection, the projection and its distance; reading the first or last point of an empty line
      is undefined *)
  Definition place (point : P) (line : list P) (proj : P) (d : Q) : outcome (list P * list P * P * Q) :=
    derefO (hd_error line) (fun f => derefO (hd_error (rev line)) (fun b =>
    let from_to_edge := Ok (line, [], b, dist point b) in
    let to_to_edge := Ok ([], line, f, dist point f) in
    if eqp f proj then Ok ([], line, proj, d)
    else if eqp b proj then Ok (line, [], proj, d)
    else if Qeq_bool (dist f proj) 0 then to_to_edge
    else if Qeq_bool (dist b proj) 0 then from_to_edge
    else
      let from_line := sub_to line proj in
      if no_length from_line then Ok (from_line, line, f, dist point f)
      else if same_length from_line line then from_to_edge
      else
        let to_line := sub_from line proj in
        if no_length to_line then Ok (line, to_line, b, dist point b)
        else if same_length to_line line then to_to_edge
        else Ok (from_line, to_line, proj, d))).

  (** matching/candidate/candidate_edge.hpp 37-42 *)
  Record candidate := mkC { adopted : bool; edge : nat; projection : P; distance : Q; before : list P; after : list P }.

  (** [boost::container::multiset::emplace] with operator< of candidate_edge.hpp: after the elements of the same distance *)
  Fixpoint insert (c : candidate) (s : list candidate) : list candidate :=
    match s with
    | [] => [c]
    | x :: r => if lessQ (distance c) (distance x) then c :: s else x :: insert c r
    end.

  (** 216-366 for one edge; an edge without length is skipped *)
  Definition create (point : P) (s : switch) (duration : Q) (e : nat) (line : list P) (set : list candidate) : outcome (switch * list candidate) :=
    match len line with
    | None => Ok (s, set)
    | Some _ =>
        bindO (adapt s) (fun s => (s, set)) (fun s1 =>
        let '(s2, (proj, d)) := snapped s1 duration point line in
        bindO (place point line proj d) (fun _ => (s2, set)) (fun '(from_line, to_line, proj, d) =>
        Ok (s2, insert (mkC false e proj d from_line to_line) set)))
    end.

  (** 204-366; [times] are the times measured, one for each edge *)
  Fixpoint create_loop (point : P) (lines : nat -> list P) (es : list nat) (times : list Q) (s : switch) (set : list candidate) : outcome (switch * list candidate) :=
    match es with
    | [] => Ok (s, set)
    | e :: es' => bindO (create point s (hd 0%Q times) e (lines e) set) (fun x => x) (fun '(s', set') => create_loop point lines es' (tl times) s' set')
    end.
  Definition process (point : P) (lines : nat -> list P) (es : list nat) (times : list Q) (s : switch) (set : list candidate) : outcome (switch * list candidate) :=
    create_loop point lines (filter (fun e => negb (existsb (fun c => edge c =? e) set)) es) times s set.
End Create.
