(** Conversions between lines, segments and measurements and the reversal test:
    geometry/algorithm/{convert,reverse}.hpp (under src/library/include/). *)
From Coq Require Import ZArith.
From Verif Require Import Base ListAux.
Local Open Scope nat_scope.

Section Convert.
  Context {P : Type}.

  (** convert.hpp 91-113 [line2segments] and 337-355 [line2rich_segments]; [line[i]] past the end is undefined *)
  Definition line2segments (line : list P) : outcome (list (P * P)) :=
    if 2 <=? length line then
      mapO (fun i => match nth_error line i, nth_error line (i + 1) with
                     | Some a, Some b => Ok (a, b)
                     | _, _ => UB
                     end) (seq 0 (length line - 1))
    else Ok [].

  (** convert.hpp 115-135 [segments2line] and 363-377 [rich_segments2line] *)
  Definition segments2line (segs : list (P * P)) : list P :=
    fold_left (fun line s => (match line with [] => [fst s] | _ => line end) ++ [snd s]) segs [].

  (** convert.hpp 137-151 [measurements2line] *)
  Definition measurements2line {M} (point : M -> P) (ms : list M) : list P := map point ms.

  (** convert.hpp 153-169 [line2measurements] *)
  Definition line2measurements (line : list P) : list (Z * P) :=
    snd (fold_left (fun st p => ((fst st + 1)%Z, snd st ++ [(fst st, p)])) line (0%Z, [])).

  Variable eqp : P -> P -> bool.
  (** reverse.hpp 43-48: the loop; [j] is unsigned in the code, an index below zero would be out of range *)
  Fixpoint reversed_loop (a b : list P) (todo i : nat) (j : Z) : outcome bool :=
    match todo with
    | 0 => Ok true
    | S n => match nth_error a i, (if (j <? 0)%Z then None else nth_error b (Z.to_nat j)) with
             | Some p, Some q => if eqp p q then reversed_loop a b n (i + 1) (j - 1)%Z else Ok false
             | _, _ => UB
             end
    end.
  (** reverse.hpp 24-52 *)
  Definition lines_are_reversed (a b : list P) : outcome bool :=
    match a, b with
    | a0 :: _, b0 :: _ =>
        if negb (length a =? length b) then Ok false
        else if negb (eqp a0 (last b b0) && eqp (last a a0) b0) then Ok false
        else reversed_loop a b (length a - 1) 1 (Z.of_nat (length b) - 2)
    | _, _ => Ok false
    end.
End Convert.
