(** The rewards of the step-wise matching environment, [src/library/include/environment/environments/single.hpp], [_reward],
    lines 274-490, and [_fail_reward], 522-530: the oracles [first_reward] and [judge] of [Env.v].

    Numbers are rational; 0.1 is taken for what it is written as. A candidate has the index of its point in the track (candidate_search.hpp
    523-567), so the index is the position. What the geometry gives is a parameter. *)
From Verif Require Import Base.
From Verif Require Export Env HmmScore.
Open Scope nat_scope.

Section MdpReward.
  (** [_settings.mdp_distance_factor] and so on, [_settings.skip_errors] *)
  Variable f_distance f_length f_azimuth f_turn f_direction : Q.
  Variable skip_errors : bool.
  (** the track: [length], [azimuth] of segment [i], [direction] at the end of segment [i], each with its [has_...], and [next_equal] of point [i] *)
  Variable seg_length seg_azimuth turn : nat -> option Q.
  Variable next_equal : nat -> bool.
  (** [equals_points], [point_distance], [azimuth_deg] and [direction_deg] of points of the track *)
  Variable equal_points : nat -> nat -> bool.
  Variable point_distance azimuth_between : nat -> nat -> Q.
  Variable direction_between : nat -> nat -> nat -> Q.
  (** the distances of the candidate edges of each point *)
  Variable distances : list (list Q).
  (** [candidate_route] from position and edge to position and edge *)
  Variable route : nat -> nat -> nat -> nat -> route_info.
  (** of the previous route and the route, from position, edge via position, edge to position, edge: [attaches], and [length] of
      [extract_return_line] if it has one *)
  Variable attaches : nat -> nat -> nat -> nat -> nat -> nat -> bool.
  Variable return_length : nat -> nat -> nat -> nat -> nat -> nat -> option Q.

  Definition distance_of (pos edge : nat) : Q := nth edge (nth pos distances []) 0%Q.
  Definition is_some {A} (x : option A) : bool := match x with Some _ => true | None => false end.
  Definition positive (x : Q) : bool := negb (Qle_bool x 0).

  (** single.hpp 522-530 *)
  Definition fail_reward (current : nat) : Q :=
    fold_left (fun r i => match seg_length i with Some x => (r + x)%Q | None => r end) (seq current (length distances - 1 - current)) 0%Q.

  (** single.hpp 284-291 *)
  Definition first_distance (next edge : nat) : Q :=
    if next =? 0 then (0 - f_distance * (distance_of next edge * 3))%Q
    else (0 - f_distance * (distance_of next edge * (1 # 10)))%Q.

  (** single.hpp 312-412: the reward along a valid route, and whether the measurement is skipped *)
  Definition route_reward (current ca next a : nat) : Q * bool :=
    let r := route current ca next a in
    let adjacent := current + 1 =? next in
    if ((adjacent && next_equal current) || (negb adjacent && equal_points current next)) && negb (is_some (r_length r)) then ((0 - 0)%Q, false)
    else
      let w1 := (0 - f_distance * (distance_of next a + distance_of current ca))%Q in
      let w2 := if length distances <=? next + 1 then (w1 - f_distance * (distance_of next a * 2))%Q else w1 in
      let next_distance := if adjacent then or_else (seg_length (next - 1)) 0 else point_distance current next in
      let route_length := or_else (r_length r) 0 in
      let route_diff := Qabs (next_distance - route_length) in
      let '(w3, sk) :=
        if positive route_length && positive next_distance then
          let factor := (route_length / next_distance)%Q in
          ((w2 - f_length * (route_diff * factor))%Q, skip_errors && negb (Qle_bool factor 10))
        else ((w2 - f_length * route_diff)%Q, false) in
      let w5 :=
        match r_azimuth r with
        | None => w3
        | Some ra =>
            let next_azimuth := if adjacent then or_else (seg_azimuth (next - 1)) ra
                                else if equal_points current next then ra else azimuth_between current next in
            let w4 := (w3 - f_azimuth * Qabs (angle_diff next_azimuth ra))%Q in
            if (1 <=? current) && (2 <=? next) then
              match seg_azimuth (current - 1) with
              | None => w4
              | Some ca =>
                  match (if adjacent then turn (next - 2) else Some (angle_diff ca next_azimuth)) with
                  | None => w4
                  | Some next_turn => (w4 - f_turn * Qabs (angle_diff next_turn (angle_diff ca ra)))%Q
                  end
              end
            else w4
        end in
      (match r_turns r with None => w5 | Some d => (w5 - f_direction * d)%Q end, sk).

  (** single.hpp 414-481: what the route to the current position adds, and whether the routes do not attach *)
  Definition previous_reward (prev pa current ca next a : nat) (w : Q) : Q * bool :=
    let p := route prev pa current ca in
    let r := route current ca next a in
    if r_invalid p then (w, false)
    else if negb (attaches prev pa current ca next a) then ((w - fail_reward current)%Q, true)
    else
      let w1 :=
        match r_azimuth p, r_azimuth r with
        | Some pz, Some rz =>
            let direction :=
              if (prev + 1 =? current) && (current + 1 =? next) then turn (next - 2)
              else if negb (equal_points prev current) && negb (equal_points current next) then Some (direction_between prev current next)
              else None in
            match direction with
            | Some d => (w - f_turn * Qabs (angle_diff d (angle_diff pz rz)))%Q
            | None => w
            end
        | _, _ => w
        end in
      let w2 :=
        if is_some (r_length p) && is_some (r_length r) then
          match return_length prev pa current ca next a with
          | Some x => (w1 - f_length * (x * 2))%Q
          | None => w1
          end
        else w1 in
      (w2, false).

  (** [state[state.size() - k]], a position or an edge *)
  Definition entry (s : istate) (k : nat) : nat := match from_back s k with Some x => Z.to_nat x | None => 0 end.
  Definition entry_negative (s : istate) (k : nat) : bool := match from_back s k with Some x => (x <? 0)%Z | None => true end.

  (** single.hpp 284-291 as used in [Env.v] *)
  Definition mdp_first (s : istate) (a : iaction) : Q := first_distance (entry s 1) (Z.to_nat a).
  (** single.hpp 300-486 as used in [Env.v] *)
  Definition mdp_judge (s : istate) (a : iaction) : @verdict Q :=
    let next := entry s 1 in let current := entry s 3 in let ca := entry s 2 in let e := Z.to_nat a in
    if r_invalid (route current ca next e) then mkVerdict (0 - fail_reward current)%Q false skip_errors false
    else
      let '(w, sk) := route_reward current ca next e in
      if (3 <? length s) && negb (entry_negative s 4) then
        let '(w', detached) := previous_reward (entry s 5) (entry s 4) current ca next e w in mkVerdict w' true sk detached
      else mkVerdict w true sk false.
End MdpReward.
