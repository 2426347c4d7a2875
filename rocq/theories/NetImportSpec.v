(** Specification vocabulary for the clean-up passes of imported networks: what it means that a network is
    drawn properly, that a road of the result follows roads of the input, that two directions meet. *)
From Verif Require Import Base AdjList AdjListSpec Tags NetImport.

Section Spec.
  Context {P : Type}.
  Variable eqp : P -> P -> bool.
  Notation graph := (graph (node P) (road P)).
  Notation edge := (@edge (road P)).

  Definition line_of (e : edge) : list P := r_line (e_data e).
  Definition id_of (e : edge) : nat := r_id (e_data e).

  (** where a vertex lies *)
  Definition position (g : graph) (v : nat) : option P := option_map (fun x => n_point (v_data x)) (get_vertex g v).

  (** every road has at least two points and runs from the position of its source to the position of its
      target *)
  Definition drawn (g : graph) : Prop := forall e, In e (g_es g) ->
    2 <= length (line_of e) /\ hd_error (line_of e) = position g (e_src e) /\
    hd_error (rev (line_of e)) = position g (e_tgt e).

  (** roads following one another, changing from one to the next only at vertices of [J] *)
  Fixpoint linked (J : list nat) (c : list edge) : Prop :=
    match c with
    | [] => True
    | e :: r => match r with
                | [] => True
                | f :: _ => e_tgt e = e_src f /\ In (e_tgt e) J
                end /\ linked J r
    end.

  (** from a road of the way [n] on one comes to a road of the way [m], passing from one way to the next only
      at the vertices [J] *)
  Inductive leads (g : graph) (J : list nat) : nat -> nat -> Prop :=
  | leads_here n : leads g J n n
  | leads_on f h m : In f (g_es g) -> In h (g_es g) -> e_tgt f = e_src h -> In (e_tgt f) J -> leads g J (id_of h) m -> leads g J (id_of f) m.

  (** one line through several lines, every joint point once *)
  Definition join (ls : list (list P)) : list P :=
    match ls with
    | [] => []
    | l :: r => l ++ flat_map (@tl P) r
    end.

  (** the road [e] runs along the roads [c] *)
  Definition course (J : list nat) (c : list edge) (e : edge) : Prop :=
    exists f r, c = f :: r /\ linked J c /\
      e_src e = e_src f /\ e_tgt e = e_tgt (last c f) /\ id_of e = id_of f /\ line_of e = join (map line_of c).

  Definition ins_of (es : list edge) (v : nat) : list edge := filter (fun e => e_tgt e =? v) es.
  Definition outs_of (es : list edge) (v : nat) : list edge := filter (fun e => e_src e =? v) es.

  (** the incoming road [i] arrives from where the outgoing road [o] goes *)
  Definition faces (i o : edge) : Prop := exists p q,
    nth_error (rev (line_of i)) 1 = Some p /\ nth_error (line_of o) 1 = Some q /\ eqp p q = true.

  (** at most two directions meet in [v]: one road in and one out, or two roads in and two out, which pair
      up to two directions *)
  Definition two_directions (g : graph) (v : nat) : Prop :=
    (exists i o, ins_of (g_es g) v = [i] /\ outs_of (g_es g) v = [o] /\ i <> o) \/
    (exists i1 i2 o1 o2, Permutation (ins_of (g_es g) v) [i1; i2] /\ Permutation (outs_of (g_es g) v) [o1; o2] /\
       faces i1 o1 /\ faces i2 o2).

  (** the road [o] leads back along the road [i] *)
  Definition opposite (i o : edge) : Prop :=
    i <> o /\ e_tgt i = e_src o /\ e_src i = e_tgt o /\ Forall2 (fun p q => eqp p q = true) (line_of i) (rev (line_of o)).

  (** [v] lies on a single road: a one-way road, or a road with both directions *)
  Definition on_one_way (g : graph) (v : nat) : Prop := exists i o, ins_of (g_es g) v = [i] /\ outs_of (g_es g) v = [o].
  Definition on_two_way (g : graph) (v : nat) : Prop := exists i1 i2 o1 o2,
    Permutation (ins_of (g_es g) v) [i1; i2] /\ Permutation (outs_of (g_es g) v) [o1; o2] /\ opposite i1 o1 /\ opposite i2 o2.

  (** all roads of [v] come from and go to the same vertex *)
  Definition one_neighbour (g : graph) (v : nat) : Prop :=
    forall i o, In i (ins_of (g_es g) v) -> In o (outs_of (g_es g) v) -> e_src i = e_tgt o.

  (** the pieces of all roads, each from one point of a line to the next *)
  Fixpoint pieces_of (l : list P) : list (P * P) :=
    match l with
    | p :: ((q :: _) as r) => (p, q) :: pieces_of r
    | _ => []
    end.
  Definition all_pieces (g : graph) : list (P * P) := flat_map (fun e => pieces_of (line_of e)) (g_es g).
End Spec.
