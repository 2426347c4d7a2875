(** Model of the pairing of matches with ground truths,
    /repo/src/library/src/compare/comparator/comparator_forwarder_matches.cpp 20-29,
    comparator_forwarder_compares.cpp 20-29 and comparator_forwarder_data.cpp 20-47. *)
From Verif Require Import Base.

Section Forwarder.
  Context {Id M T : Type}.
  Variable ideq : Id -> Id -> bool.
  (** the id of a track (comparator_forwarder_data.cpp 23-27), the empty match of an id (40) *)
  Variable mid : M -> Id.
  Variable tid : T -> Id.
  Variable empty_match : Id -> M.
  (** iteration order of the unordered map *)
  Variable order : list (Id * T) -> list (Id * T).

  (** comparator_forwarder_data: the two maps, and the comparisons handed to the comparator so far *)
  Record fwd := mkFwd { f_matches : list (Id * M); f_compares : list (Id * T); f_log : list (M * T) }.
  Definition fwd_start : fwd := mkFwd [] [] [].

  Definition mfind {A} (i : Id) (m : list (Id * A)) : option A := option_map snd (find (fun e => ideq (fst e) i) m).
  Definition merase {A} (i : Id) (m : list (Id * A)) : list (Id * A) := filter (fun e => negb (ideq (fst e) i)) m.
  (** [emplace] does nothing if the key is present *)
  Definition memplace {A} (i : Id) (a : A) (m : list (Id * A)) : list (Id * A) :=
    match mfind i m with Some _ => m | None => m ++ [(i, a)] end.

  Definition pass_match (s : fwd) (m : M) : fwd :=
    match mfind (mid m) (f_compares s) with
    | Some t => mkFwd (f_matches s) (merase (mid m) (f_compares s)) (f_log s ++ [(m, t)])
    | None => mkFwd (memplace (mid m) m (f_matches s)) (f_compares s) (f_log s)
    end.
  Definition pass_compare (s : fwd) (t : T) : fwd :=
    match mfind (tid t) (f_matches s) with
    | Some m => mkFwd (merase (tid t) (f_matches s)) (f_compares s) (f_log s ++ [(m, t)])
    | None => mkFwd (f_matches s) (memplace (tid t) t (f_compares s)) (f_log s)
    end.
  Definition finish (ignore_non_existent : bool) (s : fwd) : fwd :=
    if ignore_non_existent then s
    else mkFwd (f_matches s) (f_compares s)
               (f_log s ++ map (fun e => (empty_match (fst e), snd e)) (order (f_compares s))).

  (** arrivals in any interleaving of the two importers *)
  Inductive arrival := Matched (m : M) | Truth (t : T).
  Definition pass (s : fwd) (a : arrival) : fwd := match a with Matched m => pass_match s m | Truth t => pass_compare s t end.
  Definition run (ignore : bool) (h : list arrival) : list (M * T) := f_log (finish ignore (fold_left pass h fwd_start)).
End Forwarder.
Arguments arrival M T : clear implicits.
