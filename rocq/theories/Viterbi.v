(** Model of src/library/include/learning/algorithms/viterbi.hpp, viterbi::operator() (lines 44-145), and of the
    shape of the tables handed to it by src/library/include/environment/environments/hmm.hpp, hmm::set
    (lines 116-293).

    Scores ([double], log scale) are an abstract type [V] with a strict comparison [ltb] (C++ operator [<] on
    doubles), an addition and the value [bot] for minus infinity; [log_inv n] is [std::log(1.0 / n)].
    [no_action] (-1, hmm.hpp 51) is [None], candidate indices are naturals.
    Every [operator[]] is a checked lookup here; a failing one is undefined behaviour. *)
From Verif Require Import Base.

Section Viterbi.
  Context {V : Type}.
  Variable bot : V.
  Variable add : V -> V -> V.
  Variable ltb : V -> V -> bool.
  Variable log_inv : nat -> V.

  (** [m[i][j]] *)
  Definition at2 {A : Type} (m : list (list A)) (i j : nat) : option A :=
    match nth_error m i with
    | Some r => nth_error r j
    | None => None
    end.

  (** viterbi.hpp 51-52: the two tables of the environment. [transitions[t][g][s]] goes from candidate [s] of step
      [t - 1] to candidate [g] of step [t]. *)
  Record trellis : Type := mkTrellis {
    observations : list (list V);
    transitions : list (list (list V))
  }.

  (** viterbi.hpp 84-92: the best predecessor of candidate [g] of step [t]; [Tp] is the column [T[t - 1]], [og] is
      [observations[t][g]] and [trg] is [transitions[t][g]]. *)
  Definition best_source (Tp trg : list V) (og : V) (n_prev : nat) : outcome (V * option nat) :=
    foldO (fun acc s =>
             derefO (nth_error Tp s) (fun ts =>
             derefO (nth_error trg s) (fun x =>
             let prob := add (add ts x) og in
             if ltb (fst acc) prob then Ok (prob, Some s) else Ok acc)))
          (seq 0 n_prev) (bot, None).

  (** viterbi.hpp 83-102: body of the loop over the candidates of step [t]; yields [T[t][g]] and [K[t][g]].
      The table entry [T[t][g]] was initialised with minus infinity (line 62). Note that the initial entry is not
      overwritten if neither branch is taken (lines 95-101). [transitions[t][g]] is only evaluated when there is a
      predecessor candidate (line 87). *)
  Definition cell (M : trellis) (initialized : bool) (Tp : list V) (t g : nat) : outcome (V * option nat) :=
    derefO (nth_error (observations M) (t - 1)) (fun prev =>
    derefO (at2 (observations M) t g) (fun og =>
    bindO (match prev with
           | [] => Ok (bot, None)
           | _ :: _ => derefO (at2 (transitions M) t g) (fun trg => best_source Tp trg og (length prev))
           end) (fun x => x) (fun best =>
    match snd best with
    | Some k =>
        derefO (nth_error Tp k) (fun tk =>
        derefO (at2 (transitions M) t g) (fun trg =>
        derefO (nth_error trg k) (fun x => Ok (add (add tk x) og, Some k))))
    | None =>
        if initialized then Ok (bot, None)
        else derefO (nth_error (transitions M) t) (fun trt => Ok (add (log_inv (length trt)) og, None))
    end))).

  (** viterbi.hpp 81-110: the loop over the steps [1 ..]; [T] and [K] are the columns computed so far, [Tlast] is the
      latest column of [T], [abort i] the answer of the i-th poll of the deadline. [None]: aborted. *)
  Fixpoint columns (M : trellis) (abort : nat -> bool) (poll : nat) (initialized : bool) (Tlast : list V)
           (K : list (list (option nat))) (ts : list nat) : outcome (option (list V * list (list (option nat)))) :=
    match ts with
    | [] => Ok (Some (Tlast, K))
    | t :: r =>
        derefO (nth_error (observations M) t) (fun ot =>
        bindO (mapO (cell M initialized Tlast t) (seq 0 (length ot))) (fun _ => None) (fun col =>
        (* lines 97-105: [initializing] is set iff some candidate took the late branch *)
        let initialized' := initialized || existsb (fun c => match snd c with None => true | Some _ => false end) col in
        if abort poll then Ok None
        else columns M abort (S poll) initialized' (map fst col) (K ++ [map snd col]) r))
    end.

  (** viterbi.hpp 115-124: best candidate of the last step. *)
  Definition best_last (col : list V) (n : nat) : outcome (V * option nat) :=
    foldO (fun acc g =>
             derefO (nth_error col g) (fun prob =>
             if ltb (fst acc) prob then Ok (prob, Some g) else Ok acc))
          (seq 0 n) (bot, None).

  (** viterbi.hpp 125-133: back tracking; [selections] was filled with [no_action] (line 113). *)
  Fixpoint back (K : list (list (option nat))) (t : nat) (k : option nat) (acc : list (option nat))
    : outcome (list (option nat)) :=
    match t with
    | 0 => Ok (k :: acc)
    | S t' =>
        match k with
        | Some g => derefO (at2 K t g) (fun k' => back K t' k' (k :: acc))
        | None => back K t' None (k :: acc)
        end
    end.

  (** viterbi.hpp 136-142: only the steps with a selection enter the policy. *)
  Fixpoint policy_of (i : nat) (sel : list (option nat)) : list (nat * nat) :=
    match sel with
    | [] => []
    | Some k :: r => (i, k) :: policy_of (S i) r
    | None :: r => policy_of (S i) r
    end.

  (** viterbi.hpp 73-78: first column of [T]. *)
  Definition first_column (M : trellis) (o0 : list V) : outcome (list V) :=
    mapO (fun g =>
            derefO (at2 (transitions M) 0 g) (fun trg =>
            derefO (nth_error trg 0) (fun x =>
            derefO (nth_error o0 g) (fun og => Ok (add x og)))))
         (seq 0 (length o0)).

  (** viterbi.hpp 44-145.  [abort i] is the answer of the i-th call of [_environment.abort()] (lines 47, 68, 107):
      one at the start, one per step while the tables are allocated, one per further step. *)
  Definition viterbi (M : trellis) (abort : nat -> bool) : outcome (list (nat * nat)) :=
    if abort 0 then Ok []
    else match observations M with
         | [] => Ok []
         | o0 :: rest =>
             let n := length (observations M) in
             if existsb abort (seq 1 n) then Ok []
             else
               bindO (first_column M o0) (fun _ => []) (fun T0 =>
               let initialized := match o0 with [] => false | _ :: _ => true end in
               bindO (columns M abort (S n) initialized T0 [map (fun _ => None) o0] (seq 1 (length rest)))
                     (fun _ => []) (fun r =>
               match r with
               | None => Ok []
               | Some (Tl, K) =>
                   derefO (nth_error (observations M) (n - 1)) (fun ol =>
                   bindO (best_last Tl (length ol)) (fun _ => []) (fun bl =>
                   bindO (back K (n - 1) (snd bl) []) (fun _ => []) (fun sel =>
                   Ok (policy_of 0 sel))))
               end))
         end.
End Viterbi.

Arguments trellis V : clear implicits.

(** hmm.hpp 116-151 and 153-293: the tables built from the candidates.  [edges] lists, per track point, its candidate
    edges; [obs c e] is the observation score of candidate edge number [e] of point [c] (lines 119-145) and
    [trans to target source] the transition score between two points (lines 170-284); the first step holds one
    singleton row per candidate (lines 156-166). *)
Definition hmm_tables {V E : Type} (log_inv : nat -> V) (obs : nat -> nat -> V) (trans : nat -> nat -> nat -> V)
           (edges : list (list E)) : trellis V :=
  let size c := length (nth c edges []) in
  {| observations := map (fun c => map (obs c) (seq 0 (size c))) (seq 0 (length edges));
     transitions := map (fun to => match to with
                                   | 0 => map (fun _ => [log_inv (size 0)]) (seq 0 (size 0))
                                   | S from => map (fun target => map (trans to target) (seq 0 (size from)))
                                                   (seq 0 (size to))
                                   end) (seq 0 (length edges)) |}.
