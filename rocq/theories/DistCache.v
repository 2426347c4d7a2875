(** The caches of distances and azimuths: geometry/cache.hpp, src/geometry/cache.cpp and the functions using them in
    geometry/algorithm/{distance,azimuth}.hpp (under src/library/).

    The maps are association lists (boost::unordered_flat_map: at most one entry per key; the order is not observable).
    Each thread has its own maps ([thread_local]), the two flags are shared. *)
From Verif Require Import Base ListAux.
Local Open Scope nat_scope.

Section Cache.
  Context {P C D A : Type}.
  (** first two coordinates and their comparison (operator== of the coordinate type) *)
  Variable x y : P -> C.
  Variable ceq : C -> C -> bool.
  (** [geometry::distance] and [boost::geometry::azimuth] *)
  Variable dist : P -> P -> D.
  Variable azi : P -> P -> A.

  (** cache.hpp 43: [_cache_key_type] *)
  Definition key : Type := (C * C * C * C)%type.
  Definition key_of (a b : P) : key := (x a, y a, x b, y b).
  Definition keq (k l : key) : bool :=
    let '(k1, k2, k3, k4) := k in let '(l1, l2, l3, l4) := l in ceq k1 l1 && ceq k2 l2 && ceq k3 l3 && ceq k4 l4.

  (** find and emplace (which does not replace an existing entry) of the maps *)
  Definition lookup {V} (m : list (key * V)) (k : key) : option V := option_map snd (find (fun e => keq (fst e) k) m).
  Definition emplace {V} (m : list (key * V)) (k : key) (v : V) : list (key * V) :=
    match lookup m k with Some _ => m | None => m ++ [(k, v)] end.

  (** distance.hpp 44-64 and azimuth.hpp 33-53; [slot] is the thread's unique_ptr, [None] when it is null *)
  Definition cached {V} (f : P -> P -> V) (use : bool) (slot : option (list (key * V))) (a b : P) : V * option (list (key * V)) :=
    if use then
      let m := match slot with None => [] | Some m => m end in
      match lookup m (key_of a b) with
      | Some v => (v, Some m)
      | None => let v := f a b in (v, Some (emplace m (key_of a b) v))
      end
    else (f a b, slot).

  Record caches : Type := mkCaches {
    use_d : bool; use_a : bool;
    dcache : nat -> option (list (key * D));
    acache : nat -> option (list (key * A)) }.

  (** cache.cpp 21-24 *)
  Definition caches0 : caches := mkCaches false false (fun _ => None) (fun _ => None).

  Inductive event :=
  | Enable | Disable
  | ResetD (t : nat) | ResetA (t : nat)
  | Distance (t : nat) (a b : P) | Azimuth (t : nat) (a b : P).
  Inductive answer := Nothing | Dist (d : D) | Azi (a : A).

  Definition update {V} (f : nat -> V) (t : nat) (v : V) : nat -> V := fun u => if u =? t then v else f u.

  (** cache.cpp 26-42, distance.hpp 38-65, azimuth.hpp 28-54 *)
  Definition step (s : caches) (e : event) : answer * caches :=
    match e with
    | Enable => (Nothing, mkCaches true true (dcache s) (acache s))
    | Disable => (Nothing, mkCaches false false (dcache s) (acache s))
    | ResetD t => (Nothing, mkCaches (use_d s) (use_a s) (update (dcache s) t (Some [])) (acache s))
    | ResetA t => (Nothing, mkCaches (use_d s) (use_a s) (dcache s) (update (acache s) t (Some [])))
    | Distance t a b => let (v, m) := cached dist (use_d s) (dcache s t) a b in
                        (Dist v, mkCaches (use_d s) (use_a s) (update (dcache s) t m) (acache s))
    | Azimuth t a b => let (v, m) := cached azi (use_a s) (acache s t) a b in
                       (Azi v, mkCaches (use_d s) (use_a s) (dcache s) (update (acache s) t m))
    end.
  Fixpoint run (s : caches) (es : list event) : list answer * caches :=
    match es with
    | [] => ([], s)
    | e :: r => let (v, s1) := step s e in let (vs, s2) := run s1 r in (v :: vs, s2)
    end.
End Cache.
Arguments event : clear implicits.
Arguments answer : clear implicits.
Arguments Nothing {D A}.
Arguments Dist {D A} d.
Arguments Azi {D A} a.
Arguments caches : clear implicits.
