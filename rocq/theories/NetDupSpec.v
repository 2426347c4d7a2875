(** Specification vocabulary for the removal of duplicate nodes: roads that follow one another through
    positions instead of nodes. *)
From Verif Require Import Base AdjList AdjListSpec NetImport NetImportSpec.

Section Spec.
  Context {P : Type}.
  Notation graph := (graph (node P) (road P)).
  Notation edge := (@edge (road P)).

  (** [pos] says where the nodes lie; roads follow one another where one ends at the position at which the
      next starts; one changes from road to road only at the positions [K] *)
  Fixpoint linked_at (pos : nat -> option P) (K : list P) (c : list edge) : Prop :=
    match c with
    | [] => True
    | e :: r => match r with
                | [] => True
                | f :: _ => pos (e_tgt e) = pos (e_src f) /\ exists p, pos (e_tgt e) = Some p /\ In p K
                end /\ linked_at pos K r
    end.

  (** the road [e] runs along the roads [c], between nodes at the same positions *)
  Definition along (pos : nat -> option P) (K : list P) (c : list edge) (e : edge) : Prop :=
    exists f r, c = f :: r /\ linked_at pos K c /\ pos (e_src e) = pos (e_src f) /\ pos (e_tgt e) = pos (e_tgt (last c f)) /\
      id_of e = id_of f /\ line_of e = join (map line_of c).

  (** the nodes at a position, in the order of the network *)
  Definition at_position (eqp : P -> P -> bool) (g : graph) (p : P) : list nat :=
    map v_id (filter (fun x => eqp (n_point (v_data x)) p) (g_vs g)).

  (** a node that is not the first at its position *)
  Definition later_copy (eqp : P -> P -> bool) (g : graph) (v : nat) : Prop :=
    exists p a b, position g v = Some p /\ at_position eqp g p = a ++ v :: b /\ a <> [].
End Spec.
