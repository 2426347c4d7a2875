(** Shared vocabulary of all models: outcomes of C++ calls and a few list helpers. *)
From Coq Require Export List Arith Bool Lia Permutation.
Export ListNotations.

(** Outcome of a modelled C++ call.
    [Ok a]    the call returned normally, [a] is the result / state afterwards;
    [Throw a] the call was left by an exception, [a] is the state afterwards;
    [UB]      the call ran into undefined behaviour (dangling descriptor, out-of-bounds access, ...);
    [Fuel]    the fuel given to the model of an unbounded loop did not suffice (an artefact of the
              model; theorems exclude it or show that it can never be excluded). *)
Inductive outcome (A : Type) : Type :=
| Ok (a : A)
| Throw (a : A)
| UB
| Fuel.
Arguments Ok {A} a.
Arguments Throw {A} a.
Arguments UB {A}.
Arguments Fuel {A}.

(** Sequencing: continue only after a normal return.  (C++ statement sequencing; [conv] turns the
    exceptional state of the first part into the state type of the whole.) *)
Definition bindO {A B : Type} (x : outcome A) (conv : A -> B) (k : A -> outcome B) : outcome B :=
  match x with
  | Ok a => k a
  | Throw a => Throw (conv a)
  | UB => UB
  | Fuel => Fuel
  end.

(** Sequencing for lookups whose absence is undefined behaviour. *)
Definition derefO {A B : Type} (x : option A) (k : A -> outcome B) : outcome B :=
  match x with
  | Some a => k a
  | None => UB
  end.

(** Repeated [pop_back] while [size() > n]; [fuel] is an upper bound of the size. *)
Fixpoint pop_back_until {A : Type} (fuel n : nat) (l : list A) : list A :=
  match fuel with
  | 0 => l
  | S f => if n <? length l then pop_back_until f n (removelast l) else l
  end.

(** Loops over a range: [for (x : l) a = f(a, x)] and [for (x : l) out.emplace_back(f(x))]. *)
Fixpoint foldO {A B : Type} (f : A -> B -> outcome A) (l : list B) (a : A) : outcome A :=
  match l with
  | [] => Ok a
  | x :: r => bindO (f a x) (fun a' => a') (fun a' => foldO f r a')
  end.

Fixpoint mapO {B C : Type} (f : B -> outcome C) (l : list B) : outcome (list C) :=
  match l with
  | [] => Ok []
  | x :: r => bindO (f x) (fun c => [c]) (fun c => bindO (mapO f r) (fun cs => c :: cs) (fun cs => Ok (c :: cs)))
  end.
