(** Azimuth and turns of a route: /repo/src/library/include/geometry/network/route/route.hpp 215-420.
    As in Route.v a route is the list of its lines; the attributes of one line are those of rich_line.hpp ([RichLine.v]; that the cached
    lines report the same is property C22). *)
From Verif Require Import Base RichLine MultiRich Route.
Local Open Scope nat_scope.

Section RouteDirs.
  Context {P A : Type}.
  Variable eqp : P -> P -> bool.
  Variable azi : P -> P -> A.
  Variable addA : A -> A -> A.
  Variable zeroA : A.
  Variable diffA : A -> A -> A.

  Definition filled_line (l : list P) : bool := negb (is_empty l).

  (** the loops of route.hpp 222-240 and 251-272: the first point of the first line that has one, the last point of the last line that has one *)
  Definition route_ends (ls : list (list P)) : option (P * P) :=
    match find filled_line ls, find filled_line (rev ls) with
    | Some f, Some l => match front f, back l with Some p, Some q => Some (p, q) | _, _ => None end
    | _, _ => None
    end.

  (** route.hpp 215-241: [has_azimuth] *)
  Definition route_has_azimuth (r : @route P) : bool :=
    match lines r with
    | [] => false
    | [l] => plain_has_azimuth eqp l
    | ls => match route_ends ls with Some (p, q) => negb (eqp p q) | None => false end
    end.
  (** route.hpp 243-276: [azimuth]; [Throw]: azimuth_computation_exception *)
  Definition route_azimuth (r : @route P) : outcome A :=
    match lines r with
    | [] => Throw zeroA
    | [l] => if plain_has_azimuth eqp l then plain_azimuth eqp azi zeroA l else Throw zeroA
    | ls => match route_ends ls with Some (p, q) => if eqp p q then Throw zeroA else Ok (azi p q) | None => Throw zeroA end
    end.

  (** rich_line.hpp 257-259: [has_azimuth(pos)]; [Throw]: out_of_range *)
  Definition has_azimuth_at (l : list P) (pos : nat) : outcome bool :=
    match segment l pos with Some (a, b) => Ok (negb (eqp a b)) | None => Throw false end.
  (** rich_line.hpp 261-270: [azimuth(pos)] *)
  Definition azimuth_at (l : list P) (pos : nat) : outcome A :=
    match segment l pos with Some (a, b) => if eqp a b then Throw zeroA else Ok (azi a b) | None => Throw zeroA end.

  (** route.hpp 287-297, 323-337 and 372-386: the turn from one line to the next *)
  Definition has_turn (curr next : list P) : outcome bool :=
    if negb (is_empty curr) && negb (is_empty next) && attaches eqp curr next && (2 <=? length curr)
    then bindO (has_azimuth_at curr (length curr - 2)) (fun x => x) (fun x => if x then has_azimuth_at next 0 else Ok false)
    else Ok false.
  Definition turn (curr next : list P) : outcome (option A) :=
    bindO (has_turn curr next) (fun _ => None) (fun x =>
    if x then bindO (azimuth_at curr (length curr - 2)) (fun _ => None) (fun a =>
              bindO (azimuth_at next 0) (fun _ => None) (fun b => Ok (Some (diffA a b))))
    else Ok None).

  (** route.hpp 278-311: [has_directions] *)
  Fixpoint route_has_directions_loop (ls : list (list P)) : outcome bool :=
    match ls with
    | curr :: ((next :: rest) as r) =>
        bindO (has_turn curr next) (fun x => x) (fun t =>
        if t then Ok true
        else if plain_has_directions eqp azi diffA curr then Ok true
        else if match rest with [] => plain_has_directions eqp azi diffA next | _ => false end then Ok true
        else route_has_directions_loop r)
    | _ => Ok false
    end.
  Definition route_has_directions (r : @route P) : outcome bool :=
    match lines r with
    | [] => Ok false
    | [l] => Ok (plain_has_directions eqp azi diffA l)
    | ls => route_has_directions_loop ls
    end.

  (** [directions += _get_directions(rich_line)], if it has some *)
  Definition add_directions (g : A -> A) (l : list P) (acc : bool * A) : outcome (bool * A) :=
    if plain_has_directions eqp azi diffA l
    then bindO (plain_directions eqp azi addA zeroA diffA g l) (fun _ => acc) (fun v => Ok (true, addA (snd acc) v))
    else Ok acc.
  (** route.hpp 313-365 and 367-420: [directions] and [absolute_directions] ([g] is the identity or fabs); [Throw]: directions_computation_exception or out_of_range *)
  Fixpoint route_directions_loop (g : A -> A) (ls : list (list P)) (acc : bool * A) : outcome (bool * A) :=
    match ls with
    | curr :: ((next :: rest) as r) =>
        bindO (turn curr next) (fun _ => acc) (fun t =>
        let acc1 := match t with Some d => (true, addA (snd acc) (g d)) | None => acc end in
        bindO (add_directions g curr acc1) (fun x => x) (fun acc2 =>
        bindO (match rest with [] => add_directions g next acc2 | _ => Ok acc2 end) (fun x => x) (fun acc3 =>
        route_directions_loop g r acc3)))
    | _ => Ok acc
    end.
  Definition route_directions (g : A -> A) (r : @route P) : outcome A :=
    match lines r with
    | [] => Throw zeroA
    | [l] => if plain_has_directions eqp azi diffA l then plain_directions eqp azi addA zeroA diffA g l else Throw zeroA
    | ls => bindO (route_directions_loop g ls (false, zeroA)) (fun _ => zeroA) (fun '(has, x) => if has : bool then Ok x else Throw zeroA)
    end.
End RouteDirs.
