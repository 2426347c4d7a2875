(** Model of the views on the containers of a graph: graph/container_view.hpp and container_subview.hpp, for containers
    with random access, where a descriptor is an index.  For other containers [container_subview::end] does not compile
    (container_subview.hpp 110-116: [next] of a comparison), so subviews exist for these only.  Indices are unbounded
    integers; the absolute value of the least 64-bit integer, which is undefined, is not modelled. *)
From Coq Require Import ZArith.
From Verif Require Import Base.

(** What an access gives: an element, an exception, or undefined behaviour. *)
Inductive access (A : Type) := Got (a : A) | Refused | Undefined.
Arguments Got {A} a. Arguments Refused {A}. Arguments Undefined {A}.

Section Views.
  Context {A : Type}.

  (** *** container_view.hpp 51-57: [operator[]] of an index, unchecked *)
  Definition elem (l : list A) (i : Z) : access A :=
    if (i <? 0)%Z then Undefined
    else match nth_error l (Z.to_nat i) with Some a => Got a | None => Undefined end.

  Definition zsize (l : list A) : Z := Z.of_nat (length l).

  (** *** container_view.hpp 71-91 *)
  Definition view_at (l : list A) (pos : Z) : access A :=
    if (pos >? 0)%Z then
      if (pos >=? zsize l)%Z then Refused else elem l (0 + pos)
    else if (pos <? 0)%Z then
      if (Z.abs pos >=? zsize l)%Z then Refused else elem l (zsize l - Z.abs pos)
    else elem l 0.

  (** *** container_view.hpp 93-107: [front] and [back] of the container, unchecked *)
  Definition view_front (l : list A) : access A := elem l 0.
  Definition view_back (l : list A) : access A := elem l (zsize l - 1).

  (** *** the loops [for (it = v.begin(); it != v.end(); it = v.next(it))] over a view: container_view.hpp 109-146 *)
  Fixpoint walk (fuel : nat) (l : list A) (from to : Z) : access (list A) :=
    match fuel with
    | O => Undefined
    | S n => if (from =? to)%Z then Got []
             else match elem l from with
                  | Got a => match walk n l (from + 1) to with
                             | Got r => Got (a :: r)
                             | e => e
                             end
                  | Refused => Refused
                  | Undefined => Undefined
                  end
    end.
  Definition view_walk (l : list A) : access (list A) := walk (S (length l)) l 0 (zsize l).

  (** *** container_subview.hpp 41-48: the bounds are checked once *)
  Record sub := mkSub { s_start : nat; s_stop : nat }.
  Definition make_sub (l : list A) (start stop : nat) : access sub :=
    if (length l <? start) || (length l <? stop) || (stop <? start) then Refused else Got (mkSub start stop).

  Definition sub_begin (s : sub) : Z := Z.of_nat (s_start s).
  Definition sub_end (s : sub) : Z := Z.of_nat (s_stop s).
  (** *** container_subview.hpp 118-128 *)
  Definition sub_size (s : sub) : nat := s_stop s - s_start s.
  Definition is_nil (l : list A) : bool := match l with [] => true | _ => false end.
  Definition sub_empty (l : list A) (s : sub) : bool := is_nil l || (s_stop s =? s_start s).

  (** *** container_subview.hpp 60-70: no upper bound, and no positions from the end *)
  Definition sub_at (l : list A) (s : sub) (pos : Z) : access A :=
    if (pos >? 0)%Z then elem l (sub_begin s + pos) else elem l (sub_begin s).
  (** *** container_subview.hpp 72-81 *)
  Definition sub_front (l : list A) (s : sub) : access A :=
    if sub_empty l s then Refused else elem l (sub_begin s).
  (** *** container_subview.hpp 83-92 *)
  Definition sub_back (l : list A) (s : sub) : access A :=
    if sub_empty l s || (s_stop s =? 0) then Refused else elem l (sub_end s - 1).
  Definition sub_walk (l : list A) (s : sub) : access (list A) :=
    walk (S (sub_size s)) l (sub_begin s) (sub_end s).
End Views.
