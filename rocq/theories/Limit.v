(** The time limit in the candidate search, in the environment of the hidden Markov model and in the Viterbi algorithm:
    [matching/algorithm/candidate_search.hpp] 60-73 and 365-581, [environment/environments/hmm.hpp] 77-295, [environment/environments/single.hpp] 148-157,
    [learning/algorithms/viterbi.hpp] 44-145.

    The clock is that of [Deadline.v]. The candidates of one measurement ([_candidate_search_individual], C45 and C57) and the scores (C62) are oracles. What is left
    behind when the time is up is modelled too: the empty list of candidates, tables with some rows. *)
From Verif Require Import Base Utils CandCreate CandAdopt Viterbi Deadline.
Open Scope nat_scope.

Section Limit.
  Context {C : Type}.
  Variable look : C -> C * bool.

  (** a loop with a look at the clock at the end of each round: what it has made, whether it was left for the time, and the clock *)
  Fixpoint watched {A X : Type} (f : A -> X -> A) (l : list X) (a : A) (c : C) : A * bool * C :=
    match l with
    | [] => (a, false, c)
    | x :: r => let a1 := f a x in let '(c1, late) := look c in if late then (a1, true, c1) else watched f r a1 c1
    end.

  Section Search.
    Context {P : Type}.
    Variable dist : P -> P -> Q.
    Variable eqp : P -> P -> bool.
    Variable seg_dist : P -> P -> P -> Q.
    Variable query : P -> Q -> list (nat * P * @candidate P) -> list (nat * P * @candidate P).
    Variable source target : nat -> nat.
    Variable vertex_point : nat -> P.
    (** [_candidate_search_individual] of the measurement with that number *)
    Variable individual : nat -> list (@candidate P).
    Variable use_nearby reverse use_siblings : bool.

    (** candidate_search.hpp 399-489, the clock looked at after each round of three loops (414, 434, 483) and once the index is there (441) *)
    Definition l_nearby (st : state) (c : C) : state * bool * C :=
      let '(_, late1, c1) := watched (fun n x => n + length (filter (fun e => negb (adopted e)) (snd x))) st 0 c in
      if late1 then (st, true, c1) else
      let '(values, late2, c2) := watched (fun v x => v ++ map (fun e => (fst x, fst (snd x), e)) (filter (fun e => negb (adopted e)) (snd (snd x)))) (combine (seq 0 (length st)) st) [] c1 in
      if late2 then (st, true, c2) else
      let '(c3, late3) := look c2 in
      if late3 then (st, true, c3) else
      watched (nearby_one dist eqp seg_dist query reverse values) (seq 0 (length st)) st c3.
    (** candidate_search.hpp 491-516 *)
    Definition l_siblings (st : state) (c : C) : state * bool * C := watched (siblings_one dist eqp) (seq 0 (length st)) st c.
    (** candidate_search.hpp 522-580 *)
    Definition l_finals (st : state) (c : C) : list (@final P) * bool * C :=
      watched (fun fs i => match skipn i st with
                           | (p, s) :: r => fs ++ [mkF i (match r with (q, _) :: _ => eqp p q | [] => false end) (nodes_of dist source target vertex_point p s) s]
                           | [] => fs
                           end) (seq 0 (length st)) [] c.
    (** candidate_search.hpp 60-73 with 365-581: [candidate_search]; nothing is returned if the time is up *)
    Definition l_search (points : list P) (c : C) : list (@final P) * C :=
      let '(st0, late0, c0) := watched (fun st x => st ++ [(snd x, individual (fst x))]) (combine (seq 0 (length points)) points) [] c in
      if late0 then ([], c0) else
      let '(st1, late1, c1) := if use_nearby then l_nearby st0 c0 else (st0, false, c0) in
      if late1 then ([], c1) else
      let '(st2, late2, c2) := if use_siblings then l_siblings st1 c1 else (st1, false, c1) in
      if late2 then ([], c2) else
      let '(fs, late3, c3) := l_finals st2 c2 in
      if late3 then ([], c3) else (fs, c3).
  End Search.

  Section Hmm.
    Context {Line Cand V : Type}.
    Variable log_inv : nat -> V.
    Variable width : Cand -> nat.
    Variable obs : list Cand -> nat -> nat -> V.
    Variable trans : list Cand -> nat -> nat -> nat -> V.
    Variable search : Line -> C -> list Cand * C.
    Variable filter : bool.
    Variable simplify median : option (Line -> Line).

    (** hmm.hpp 346-353: the members that [set] fills; all but the line are empty in a new environment *)
    Record hmm := mkHmm { h_line : Line; h_cands : list Cand; h_obs : list (list V); h_trans : list (list (list V)) }.

    Definition size_at (cs : list Cand) (i : nat) : nat := match nth_error cs i with Some x => width x | None => 0 end.
    (** hmm.hpp 117-146 and 155-288: the rows of the measurement with that number *)
    Definition obs_row (cs : list Cand) (i : nat) : list V := map (obs cs i) (seq 0 (size_at cs i)).
    Definition trans_row (cs : list Cand) (to : nat) : list (list V) :=
      match to with
      | 0 => map (fun _ => [log_inv (size_at cs 0)]) (seq 0 (size_at cs 0))
      | S from => map (fun target => map (trans cs to target) (seq 0 (size_at cs from))) (seq 0 (size_at cs to))
      end.

    (** hmm.hpp 77-295: [set]. The filter works on the parameter that has been moved from (C42), so that it only looks at the clock. *)
    Definition l_set (track : Line) (c : C) : hmm * C :=
      let '(c1, late1) := if filter then look c else (c, false) in
      if late1 then (mkHmm track [] [] [], c1) else
      let line2 := match simplify with Some f => f track | None => track end in
      let '(c2, late2) := match simplify with Some _ => look c1 | None => (c1, false) end in
      if late2 then (mkHmm line2 [] [] [], c2) else
      let line3 := match median with Some f => f line2 | None => line2 end in
      let '(c3, late3) := match median with Some _ => look c2 | None => (c2, false) end in
      if late3 then (mkHmm line3 [] [] [], c3) else
      let '(cs, c4) := search line3 c3 in
      let '(c5, late5) := look c4 in
      if late5 then (mkHmm line3 cs [] [], c5) else
      let '(os, late6, c6) := watched (fun os i => os ++ [obs_row cs i]) (seq 0 (length cs)) [] c5 in
      if late6 then (mkHmm line3 cs os [], c6) else
      let '(ts, _, c7) := watched (fun ts i => ts ++ [trans_row cs i]) (seq 0 (length cs)) [] c6 in
      (mkHmm line3 cs os ts, c7).
  End Hmm.

  (** the clock after that many looks, or after the first one that is late, and whether there was one *)
  Fixpoint until (n : nat) (c : C) : C * bool :=
    match n with 0 => (c, false) | S m => let '(c1, late) := look c in if late then (c1, true) else until m c1 end.
  (** the clock after that many looks, whatever they say, and the answer of the look with that number *)
  Fixpoint looks (n : nat) (c : C) : C := match n with 0 => c | S m => looks m (fst (look c)) end.
  Definition answer (c : C) (i : nat) : bool := snd (look (looks i c)).
  (** viterbi.hpp 47, 68 and 107: the looks of a run that is in time *)
  Definition needed {V : Type} (M : trellis V) : nat := match observations M with [] => 1 | _ => 2 * length (observations M) end.
  (** viterbi.hpp 44-145, [Viterbi.v], with the clock *)
  Definition l_viterbi {V : Type} (bot : V) (add : V -> V -> V) (ltb : V -> V -> bool) (log_inv : nat -> V) (M : trellis V) (c : C) : outcome (list (nat * nat)) * C :=
    (viterbi bot add ltb log_inv M (answer c), fst (until (needed M) c)).
End Limit.
Arguments hmm : clear implicits.

(** single.hpp 148-157 with value_iteration.hpp 97-252: [operator()] with the search for candidates in [init]; the actions and steps are those of the candidates found *)
Definition l_value {C Cand : Type} (look : C -> C * bool) (search : C -> list Cand * C) (acts : list Cand -> nat -> list nat) (stp : list Cand -> nat -> nat -> nat * nat * Q * bool) (start : nat)
    (discount threshold : Q) (candidate : list Cand -> nat -> nat) (edge : nat -> Z) (fuel extra : nat) (c : C) : outcome (option (list (nat * nat) * list Q) * C) :=
  let '(cs, c1) := search c in d_learn look (acts cs) (stp cs) start discount threshold (candidate cs) edge fuel extra c1.
Definition l_policy {C Cand : Type} (look : C -> C * bool) (search : C -> list Cand * C) (acts : list Cand -> nat -> list nat) (stp : list Cand -> nat -> nat -> nat * nat * Q * bool) (start : nat)
    (discount threshold : Q) (candidate : list Cand -> nat -> nat) (edge : nat -> Z) (fuel extraV extraP : nat) (c : C) : outcome (option (list (nat * nat) * list Q) * C) :=
  let '(cs, c1) := search c in p_learn look (acts cs) (stp cs) start discount threshold (candidate cs) edge fuel extraV extraP c1.
