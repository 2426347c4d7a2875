(** The numbers of candidates and combinations that are printed for a match:
    [environment/environments/hmm.hpp] 304-327 ([states], [edges]), [environment/environments/single.hpp] 131-145 ([states], [edges]),
    [io/results/match/match_output_printer.hpp] 50-58 (their sums), [io/results/match/csv_candidates_exporter.hpp] 68-72 (the rows reserved).

    The tables are those of [Limit.v] and [Env.v]. Sizes are natural numbers, products that exceed 64 bits are left out. *)
From Verif Require Import Base Env Limit.
Local Open Scope nat_scope.

(** hmm.hpp 321-327, single.hpp 139-145 *)
Definition count_edges {Cand : Type} (width : Cand -> nat) (cands : list Cand) : nat :=
  fold_left (fun edges c => edges + width c) cands 0.

(** hmm.hpp 306-317: one round with [to]; [from] is one less; reading a row past the end is undefined behaviour *)
Definition states_round {V : Type} (trans : list (list (list V))) (states to : nat) : outcome nat :=
  match to with
  | 0 => if to <? length trans then derefO (nth_error trans to) (fun row => Ok (states + length row)) else Ok states
  | S from =>
      if (from <? length trans) && (to <? length trans) then
        derefO (nth_error trans to) (fun t => derefO (nth_error trans from) (fun f => Ok (states + length t * length f)))
      else Ok states
  end.
(** hmm.hpp 304-319 *)
Definition hmm_states {V : Type} (cands : nat) (trans : list (list (list V))) : outcome nat :=
  foldO (states_round trans) (seq 0 cands) 0.

(** single.hpp 131-137 *)
Definition single_states {X : Type} (cache : list (list X)) : nat := fold_left (fun states row => states + length row) cache 0.

(** csv_candidates_exporter.hpp 68-72: one number for each environment, and the room for the rows *)
Definition reserved (counts : list nat) : nat := fold_left Nat.add counts 0.
(** match_output_printer.hpp 54-57 *)
Definition printed (envs : list (nat * nat)) : nat * nat :=
  fold_left (fun s e => (fst s + fst e, snd s + snd e)) envs (0, 0).
