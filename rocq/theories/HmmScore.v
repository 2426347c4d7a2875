(** The scores of the hidden Markov model, [src/library/include/environment/environments/hmm.hpp], [set], lines 116-293.

    Numbers are rational; 0.01, 1.01 and 1e-20 are taken for what they are written as. [std::log(std::pow(p, f))] is a parameter [logpow p f].
    Scores are [option Q], [None] is minus infinity. A candidate has the index of its point in the track (candidate_search.hpp 523-567). *)
From Coq Require Export QArith Qabs.
From Verif Require Import Base.
From Verif Require Utils.
Open Scope nat_scope.

(** [std::max(a, b)] *)
Definition qmax (a b : Q) : Q := if negb (Qle_bool b a) then b else a.
Definition tiny : Q := 1 # 100000000000000000000.
(** [direction_deg] of two azimuths is [angle_diff] as well (direction.hpp 30-32) *)
Definition angle_diff : Q -> Q -> Q := Utils.angle_diff (fun x => x).

(** what is read from a route: [is_invalid]; [has_length], [length]; [has_azimuth], [azimuth]; [has_directions], [absolute_directions] *)
Record route_info : Type := mkInfo { r_invalid : bool; r_length : option Q; r_azimuth : option Q; r_turns : option Q }.

Section HmmScore.
  Variable logpow : Q -> Q -> Q.
  (** [_settings.hmm_distance_factor] and so on *)
  Variable f_distance f_length f_azimuth f_turn f_direction : Q.
  (** the track: [length], [azimuth] of segment [i], [direction] at the end of segment [i], each with its [has_...], and [next_equal] of point [i] *)
  Variable seg_length seg_azimuth turn : nat -> option Q.
  Variable next_equal : nat -> bool.
  (** the distances of the candidate edges of each point *)
  Variable distances : list (list Q).
  (** [candidate_route] from edge [source] of a point to edge [target] of the next one: arguments [to], [target], [source] *)
  Variable route : nat -> nat -> nat -> route_info.

  (** hmm.hpp 119-128 *)
  Definition max_distance (l : list Q) : Q := ((fold_left (fun m d => if negb (Qle_bool d m) then d else m) l 0 + (1 # 100)) * (101 # 100))%Q.
  (** hmm.hpp 134-141: the probability of an observation; [near] on the first and the last point *)
  Definition observation_probability (l : list Q) (near : bool) (d : Q) : Q :=
    let m := max_distance l in
    let p := qmax tiny ((m - d) / m)%Q in
    if near then (p * p * p)%Q else p.
  Definition observation (c e : nat) : option Q :=
    match nth_error distances c with
    | Some l => match nth_error l e with
                | Some d => Some (logpow (observation_probability l ((c =? 0) || (length distances <=? c + 1)) d) f_distance)
                | None => None
                end
    | None => None
    end.

  (** hmm.hpp 204-220: the probability of the length of a route; [0 / 0] is not a number, and [std::max(1e-20, NaN)] is 1e-20 *)
  Definition length_probability (next_distance route_length : Q) : Q :=
    let m := qmax next_distance route_length in
    let p := if Qeq_bool m 0 then tiny else qmax tiny (1 - Qabs (next_distance - route_length) / m)%Q in
    if negb (Qle_bool route_length 0) && negb (Qle_bool next_distance 0) then
      let f := (route_length / next_distance)%Q in
      let p1 := (p * (if negb (Qle_bool f 1) then 1 / f else f))%Q in
      if negb (Qle_bool f 10) then (p1 * (1 # 100))%Q else p1
    else p.
  (** hmm.hpp 236-238 *)
  Definition azimuth_probability (a b : Q) : Q := qmax tiny ((180 - Qabs (angle_diff a b)) / 180)%Q.
  (** hmm.hpp 255-260 *)
  Definition turn_probability (a b : Q) : Q := qmax tiny ((360 - Qabs (angle_diff a b)) / 360)%Q.
  (** hmm.hpp 271-272 *)
  Definition directions_probability (a : Q) : Q := qmax tiny ((360 - a) / 360)%Q.

  Definition or_else (x : option Q) (d : Q) : Q := match x with Some y => y | None => d end.

  (** hmm.hpp 181-284: the score of a transition to the point [to] *)
  Definition transition (to target source : nat) : option Q :=
    let r := route to target source in
    if r_invalid r then None
    else if next_equal (to - 1) && match r_length r with None => true | Some _ => false end then Some (0 + 0)%Q
    else
      let s1 := (0 + logpow (length_probability (or_else (seg_length (to - 1)) 1) (or_else (r_length r) 1)) f_length)%Q in
      let s2 :=
        match r_azimuth r with
        | None => s1
        | Some ra =>
            let s := (s1 + logpow (azimuth_probability (or_else (seg_azimuth (to - 1)) ra) ra) f_azimuth)%Q in
            if (1 <=? to - 1) && (2 <=? to) then
              match seg_azimuth (to - 2), turn (to - 2) with
              | Some ca, Some nt => (s + logpow (turn_probability nt (angle_diff ca ra)) f_turn)%Q
              | _, _ => s
              end
            else s
        end in
      Some (match r_turns r with None => s2 | Some d => (s2 + logpow (directions_probability d) f_direction)%Q end).
End HmmScore.
