(** Matching a track part by part: [src/library/include/matching/matcher.hpp], [_match_impl], lines 104-187.

    The environment and the learner are oracles: what [set] and the learner do to the clock helper they share with the loop are the calls they make of it
    ([Utils.v]), which may depend on everything; the policy, the route of it and the prepared line are answers. The measured durations, the output and
    the caches that are reset afterwards (C44) are left out. *)
From Coq Require Import NArith.
From Verif Require Import Base RichLine Route Utils.

Section Matcher.
  Context {Track Env Line P : Type}.
  Variable eqp : P -> P -> bool.
  Variable set : Track -> timer -> list tcall * Env.
  Variable learner : Env -> timer -> list tcall * outcome (list (nat * nat)).
  Variable env_line : Env -> Line.
  Variable result : Env -> list (nat * nat) -> outcome (@route P).
  Variable edges_list : @route P -> outcome (list nat).
  Variable export_edges_route : list nat -> @route P.
  Variable edge_ids : list nat -> list N.
  Variable export_edges export_edge_ids : bool.

  (** match_result.hpp 35-44, as far as the loop fills it; [m_matches] is the local [_matches] *)
  Record matched := mkMatched { m_prepared : list Line; m_policies : list (list (nat * nat)); m_matches : list (@route P); m_ids : list N; m_aborted : bool }.

  (** matcher.hpp 150-159: the route that is reported and the ids of its edges *)
  Definition exported (r : @route P) : outcome (@route P * list N) :=
    if export_edge_ids || export_edges
    then bindO (edges_list r) (fun _ => (r, [])) (fun es => Ok (if export_edges then export_edges_route es else r, if export_edge_ids then edge_ids es else []))
    else Ok (r, []).

  (** matcher.hpp 130-162: one part of the track; [now] is the time the clock shows at line 141 *)
  Definition match_part (track : Track) (now : Z) (m : matched) (t : timer) : outcome (matched * timer) :=
    let '(calls, env) := set track t in
    let t1 := update_and_has_reached (trun t calls) now in
    let '(calls2, answer) := if tm_reached t1 then ([], Ok []) else learner env t1 in
    bindO answer (fun _ => (m, t1)) (fun policy =>
    bindO (result env policy) (fun _ => (m, t1)) (fun r =>
    bindO (exported r) (fun _ => (m, t1)) (fun '(r1, ids) =>
    Ok (mkMatched (m_prepared m ++ [env_line env]) (m_policies m ++ [policy]) (m_matches m ++ [r1]) (m_ids m ++ ids) (m_aborted m), trun t1 calls2)))).

  (** matcher.hpp 129-168: the loop; line 164 asks without looking at the clock again. [clock i] is the time at line 141 for part [i] *)
  Fixpoint match_loop (clock : nat -> Z) (i : nat) (tracks : list Track) (m : matched) (t : timer) : outcome (matched * timer) :=
    match tracks with
    | [] => Ok (m, t)
    | track :: rest =>
        bindO (match_part track (clock i) m t) (fun x => x) (fun '(m1, t1) =>
        let t2 := reached t1 in
        if tm_reached t2 then Ok (mkMatched (m_prepared m1) (m_policies m1) (m_matches m1) (m_ids m1) true, t2)
        else match_loop clock (S i) rest m1 t2)
    end.

  (** matcher.hpp 104-187: the lists that have been filled, the timer, and the route merged of the parts (175) *)
  Definition match_track (clock : nat -> Z) (start max : Z) (tracks : list Track) : outcome (matched * timer * @route P) :=
    bindO (match_loop clock 0 tracks (mkMatched [] [] [] [] false) (timer_make start max)) (fun x => (x, flagged true)) (fun '(m, t) =>
    bindO (merge eqp (m_matches m) false false) (fun r => (m, t, r)) (fun r => Ok (m, t, r))).
End Matcher.
