(** Models of small utilities. *)
From Coq Require Import ZArith NArith QArith Ascii.
From Verif Require Import Base.
Local Open Scope nat_scope.

(** *** geometry/common.hpp 76-84: difference of two angles in degrees.  [rnd] is the rounding of the floating point
    format; infinities and NaN are not modelled. *)
Definition angle_diff (rnd : Q -> Q) (a b : Q) : Q :=
  let d := rnd (a - b)%Q in
  if Qle_bool 180 d then rnd (d - 360)%Q
  else if Qle_bool d (-180) then rnd (d + 360)%Q
  else d.

(** *** geometry/common.hpp 54-64, on 64-bit unsigned integers *)
Definition wrap64 (x : N) : N := N.modulo x (2 ^ 64).
Definition smear (k x : N) : N := N.lor x (N.shiftr x k).
Definition next_pow2 (x : N) : N :=
  let x := wrap64 (x + (2 ^ 64 - 1)) in          (* x-- *)
  let x := smear 1 x in
  let x := smear 2 x in
  let x := smear 4 x in
  let x := smear 8 x in
  let x := smear 16 x in
  let x := smear 32 x in
  wrap64 (x + 1).                                (* x++ *)

(** *** src/io/importer.cpp 32-44 ([std::isdigit] of the C locale) *)
Definition digit (c : ascii) : bool := (48 <=? nat_of_ascii c) && (nat_of_ascii c <=? 57).
Definition is_number (s : list ascii) : bool := match s with [] => false | _ => forallb digit s end.

Definition tab : ascii := ascii_of_nat 9.
Definition space : ascii := " ".
Definition bsl : ascii := "\".
(** src/io/importer.cpp 46-71 *)
Definition pd_step (st : list ascii * bool) (c : ascii) : list ascii * bool :=
  let '(out, escaped) := st in
  if escaped : bool then
    (out ++ [if Ascii.eqb c "t" then tab else if Ascii.eqb c "s" then space else c], false)
  else if Ascii.eqb c bsl then (out, true) else (out ++ [c], false).
Definition parse_delimiter (s : list ascii) : list ascii := fst (fold_left pd_step s ([], false)).
(** src/io/importer.cpp 73-100: a second function of that name, local to the file and not called *)
Definition pd2_step (st : list ascii * bool) (c : ascii) : list ascii * bool :=
  let '(out, escaped) := st in
  if Ascii.eqb c bsl then (out, true)
  else if escaped : bool then
    (out ++ [if Ascii.eqb c "t" then tab else if Ascii.eqb c "s" then space else c], false)
  else (out ++ [c], false).
Definition parse_delimiter2 (s : list ascii) : list ascii := fst (fold_left pd2_step s ([], false)).

(** *** graph/container_view.hpp 71-87 and container_subview.hpp 41-90.  Positions are 64-bit signed; reading an element
    that is not there is undefined behaviour. *)
Section View.
  Context {A : Type}.
  Definition read_at (l : list A) (i : Z) : outcome (option A) :=
    if (i <? 0)%Z then UB else match nth_error l (Z.to_nat i) with Some x => Ok (Some x) | None => UB end.
  Definition size (l : list A) : Z := Z.of_nat (length l).

  Definition view_at (l : list A) (pos : Z) : outcome (option A) :=
    if (0 <? pos)%Z then
      if (size l <=? pos)%Z then Throw None else read_at l (0 + pos)
    else if (pos <? 0)%Z then
      if (pos =? - 2 ^ 63)%Z then UB                                      (* std::abs of the smallest value *)
      else if (size l <=? Z.abs pos)%Z then Throw None else read_at l (size l - Z.abs pos)
    else read_at l 0.
  (** front / back of the container itself, unchecked *)
  Definition view_front (l : list A) : outcome (option A) := read_at l 0.
  Definition view_back (l : list A) : outcome (option A) := read_at l (size l - 1).

  Record subview := mkSub { sv_ref : list A; sv_start : Z; sv_stop : Z }.
  (** 41-48 *)
  Definition subview_make (l : list A) (start stop : Z) : outcome (option subview) :=
    if (size l <? start)%Z || (size l <? stop)%Z || (stop <? start)%Z then Throw None else Ok (Some (mkSub l start stop)).
  (** 60-66 *)
  Definition sub_at (v : subview) (pos : Z) : outcome (option A) :=
    if (0 <? pos)%Z then read_at (sv_ref v) (sv_start v + pos) else read_at (sv_ref v) (sv_start v).
  Definition sub_empty (v : subview) : bool := (match sv_ref v with [] => true | _ => false end) || (sv_stop v =? sv_start v)%Z.
  (** 72-77, 83-88 *)
  Definition sub_front (v : subview) : outcome (option A) := if sub_empty v then Throw None else read_at (sv_ref v) (sv_start v).
  Definition sub_back (v : subview) : outcome (option A) :=
    if sub_empty v || (sv_stop v =? 0)%Z then Throw None else read_at (sv_ref v) (sv_stop v - 1).
End View.
Arguments subview A : clear implicits.

(** *** util/time_helper.hpp 23-81, src/util/time_helper.cpp 21-44.  Time points and durations in one unit; the limit is
    a [double] in the code. *)
Record timer := mkTimer { tm_start : Z; tm_current : Z; tm_max : Z; tm_reached : bool }.
Definition timer_make (now max : Z) : timer := mkTimer now now max false.
Definition has_max (t : timer) : bool := (0 <? tm_max t)%Z.
Definition set_max (t : timer) (m : Z) : timer := mkTimer (tm_start t) (tm_current t) m (tm_reached t).
Definition update (t : timer) (now : Z) : timer :=
  if tm_reached t then t else mkTimer (tm_start t) now (tm_max t) (tm_reached t).
Definition reached (t : timer) : timer :=
  if tm_reached t then t
  else mkTimer (tm_start t) (tm_current t) (tm_max t) (has_max t && (tm_max t <=? tm_current t - tm_start t)%Z).
Definition update_and_has_reached (t : timer) (now : Z) : timer := reached (if tm_reached t then t else update t now).

(** the calls a client can make, with the clock reading in case it is used, and what the call answers *)
Inductive tcall := CUpdate (now : Z) | CReached | CBoth (now : Z) | CSetMax (m : Z).
Definition tstep (t : timer) (c : tcall) : timer * option bool :=
  match c with
  | CUpdate now => (update t now, None)
  | CReached => let t' := reached t in (t', Some (tm_reached t'))
  | CBoth now => let t' := update_and_has_reached t now in (t', Some (tm_reached t'))
  | CSetMax m => (set_max t m, None)
  end.
Definition trun (t : timer) (cs : list tcall) : timer := fold_left (fun t c => fst (tstep t c)) cs t.
