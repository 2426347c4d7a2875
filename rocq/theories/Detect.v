(** Detecting and removing defects of a measured track, [src/library/include/matching/algorithm/detect.hpp],
    [src/library/include/matching/defect.hpp], and its use by the environments. *)
From Verif Require Import Base.
From Verif Require Import Simplify.

(** defect.hpp 25-31 and the set type of detect.hpp 36: a set of the three kinds of defects, as its characteristic function *)
Record dset := mkSet { d_none : bool; d_equal : bool; d_fb : bool }.
Definition add_equal (d : dset) : dset := mkSet (d_none d) true (d_fb d).
Definition add_fb (d : dset) : dset := mkSet (d_none d) (d_equal d) true.
Definition empty_set (d : dset) : bool := negb (d_none d || d_equal d || d_fb d).
Definition erase_none (d : dset) : dset := mkSet false (d_equal d) (d_fb d).

(** [defects[i].emplace(..)]: writing outside of the vector is undefined behaviour *)
Fixpoint update {A} (i : nat) (f : A -> A) (l : list A) : outcome (list A) :=
  match l, i with
  | [], _ => UB
  | x :: r, 0 => Ok (f x :: r)
  | x :: r, S j => bindO (update j f r) (fun a => a) (fun r' => Ok (x :: r'))
  end.

Section Detect.
  Context {P : Type}.
  (** equals.hpp: [equals_points] *)
  Variable equals : P -> P -> bool.
  (** The comparison of the two azimuths in [_forward_backward] (detect.hpp 123-138): [sharp prev from to] tells whether the
      track turns back at [from]; it is a function of the three points. Floating point numbers are not modelled. *)
  Variable sharp : P -> P -> P -> bool.

  (** detect.hpp 104-110: [_equal] *)
  Definition is_equal (line : list P) (from to : nat) : bool :=
    match nth_error line from, nth_error line to with
    | Some p, Some q => equals p q
    | _, _ => false
    end.

  (** detect.hpp 112-139: [_forward_backward] *)
  Definition forward_backward (line : list P) (from to : nat) : bool :=
    match nth_error line from, nth_error line to with
    | Some p, Some q =>
        match from with
        | 0 => false
        | S prev => match nth_error line prev with Some o => sharp o p q | None => false end
        end
    | _, _ => false
    end.

  (** detect.hpp 43-49: the loop marking duplicates; [n] are the remaining iterations *)
  Fixpoint mark_equal (n from : nat) (line : list P) (ds : list dset) : outcome (list dset) :=
    match n with
    | 0 => Ok ds
    | S m =>
        let to := S from in
        if to <? length line then
          bindO (if is_equal line from to then update to add_equal ds else Ok ds) (fun d => d) (fun ds' =>
          mark_equal m (S from) line ds')
        else Ok ds
    end.

  (** detect.hpp 53-57: the inner loop skipping marked points *)
  Fixpoint skip_marked (fuel to : nat) (line : list P) (ds : list dset) : outcome nat :=
    match fuel with
    | 0 => Fuel
    | S f =>
        if to <? length line then
          derefO (nth_error ds to) (fun d => if d_fb d || d_equal d then skip_marked f (S to) line ds else Ok to)
        else Ok to
    end.

  (** detect.hpp 51-66: marking the points where the track turns back. [--from; --to] followed by the loop's [++from, ++to]
      leaves both where they are; [from] is positive then, as [_forward_backward] is false otherwise. *)
  Fixpoint mark_fb (fuel from to : nat) (line : list P) (ds : list dset) : outcome (list dset) :=
    match fuel with
    | 0 => Fuel
    | S f =>
        if to <? length line then
          bindO (skip_marked (S (length line)) to line ds) (fun _ => ds) (fun to1 =>
          if forward_backward line from to1 then
            bindO (update to1 add_fb ds) (fun d => d) (fun ds' => mark_fb f from to1 line ds')
          else
            let from1 := if negb (from + 1 =? to1) then to1 - 1 else from in
            mark_fb f (S from1) (S to1) line ds)
        else Ok ds
    end.

  (** detect.hpp 38-84: [detect]; the vector starts with one set {none} per point, the last loop erases [none] *)
  Definition detect (fuel : nat) (line : list P) (dup fb : bool) : outcome (list dset) :=
    let start := repeat (mkSet true false false) (length line) in
    bindO (if dup then mark_equal (length line) 0 line start else Ok start) (fun d => d) (fun ds1 =>
    bindO (if fb then mark_fb fuel 0 1 line ds1 else Ok ds1) (fun d => d) (fun ds2 =>
    Ok (map (fun d => if negb (empty_set d) then erase_none d else d) ds2))).

  (** detect.hpp 86-97: [remove_defects]; the points' part of [erase] is [erase_indices] of Simplify.v *)
  Fixpoint to_remove (i : nat) (ds : list dset) : list nat :=
    match ds with
    | [] => []
    | d :: r => if negb (d_none d) then i :: to_remove (S i) r else to_remove (S i) r
    end.
  Definition remove_defects (line : list P) (ds : list dset) : list P := erase_indices line (to_remove 0 ds).

  (** environments/hmm.hpp 77-88, environments/single.hpp 97-108: [set] with the filter on and the other steps off. The
      parameter is moved into the member first; the filter then works on the parameter, whose line is empty after the move. *)
  Definition set_track (filter_duplicates : bool) (track : list P) : outcome (list P) :=
    let member := track in
    let parameter := @nil P in
    if filter_duplicates then
      bindO (detect 1 parameter true false) (fun _ => member) (fun ds =>
      let _ := remove_defects parameter ds in Ok member)
    else Ok member.
End Detect.
