(** Model of the insertion interface used by all network importers,
    /repo/src/library/include/io/helper/graph_helper.hpp, with its vertex index map and its reaction to
    memory shortage.

    Modelled: [add_vertex_with_index_mapping] (270-361), [get_vertex_descriptor_for_index] (363-366),
    [add_edge] (368-470), [handle_bad_alloc] (512-525), [_add_to_vertex_index_map] (537-560) and
    [retry_alloc] (io/memory_mapped/utils.hpp 72-87).  Not modelled: the tag storage (see Tags.v; here the
    tag calls are one more point at which memory may run out before the graph is touched). *)
From Verif Require Import Base AdjList.

(** the exceptions that are told apart by the callers *)
Inductive exn := BadAlloc | RuntimeError | OutOfRange.

(** a call returned a value or was left by an exception *)
Inductive res (A : Type) := Val (a : A) | Exn (e : exn).
Arguments Val {A} a.
Arguments Exn {A} e.

Section GraphHelper.
  Context {VD ED : Type}.
  Variable dir : direction.
  Notation graph := (graph VD ED).

  (** graph_helper.hpp 485 (member [_graph_storage]): the graph and [vertex_index_map], a vector of
      descriptors. *)
  Record helper := mkH { h_graph : graph; h_map : list nat }.
  Definition empty_helper : helper := mkH empty_graph [].

  (** graph_helper.hpp 537-560 ([_add_to_vertex_index_map]); [am] is the allocator's answer to the
      vector's [emplace_back].  The clean-up removes the vertex with [graph().remove_vertex]. *)
  Definition add_to_vertex_index_map (h : helper) (v : nat) (am : alloc) : outcome (helper * res nat) :=
    derefO (get_vertex (h_graph h) v) (fun x =>                                       (* 541 *)
    if negb (length (h_map h) =? v_index x) then Throw (h, Exn RuntimeError)          (* 543-547 *)
    else match try_add (h_map h) v am with
         | (m, true) => Ok (mkH (h_graph h) m, Val (v_index x))                       (* 550, 559 *)
         | (m, false) =>                                                              (* 551-557 *)
           match remove_vertex (h_graph h) v with
           | Ok g => Throw (mkH g m, Exn BadAlloc)
           | Throw g => Throw (mkH g m, Exn RuntimeError)
           | UB => UB
           | Fuel => Fuel
           end
         end).

  (** answers of the allocator to one attempt at inserting a vertex: copying the tags, the vertex list, the
      index map *)
  Record vertex_answers := mkVA { va_tags : bool; va_list : alloc; va_map : alloc }.

  (** graph_helper.hpp 274-280, 300-306, 327-330, 349-350: one attempt *)
  Definition add_vertex_once (d : VD) (a : vertex_answers) (h : helper) : outcome (helper * res nat) :=
    if negb (va_tags a) then Throw (h, Exn BadAlloc)
    else match add_vertex (h_graph h) d (va_list a) with
         | Ok (g, Some v) => add_to_vertex_index_map (mkH g (h_map h)) v (va_map a)
         | Ok (g, None) => UB
         | Throw (g, _) => Throw (mkH g (h_map h), Exn BadAlloc)
         | UB => UB
         | Fuel => Fuel
         end.

  (** answers to one attempt at inserting an edge: copying tags and line, the edge list and the incidence lists *)
  Record edge_answers := mkEA { ea_data : bool; ea_1 : alloc; ea_2 : alloc; ea_3 : alloc }.

  (** graph_helper.hpp 375-380 (and 385-390, 403-408, 413-418, 431-435, 440-444): one attempt at inserting an
      edge between two vertex indices; [at] throws [out_of_range] on an unknown index. *)
  Definition add_edge_once (i j : nat) (d : ED) (a : edge_answers) (h : helper) : outcome (helper * res nat) :=
    match nth_error (h_map h) i, nth_error (h_map h) j with
    | Some s, Some t =>
      if negb (ea_data a) then Throw (h, Exn BadAlloc)
      else match add_edge dir (h_graph h) s t d (ea_1 a) (ea_2 a) (ea_3 a) with
           | Ok (g, Some e) => Ok (mkH g (h_map h), Val e)
           | Ok (g, None) => UB
           | Throw (g, _) => Throw (mkH g (h_map h), Exn BadAlloc)
           | UB => UB
           | Fuel => Fuel
           end
    | _, _ => Throw (h, Exn OutOfRange)
    end.

  (** graph_helper.hpp 512-525 ([handle_bad_alloc]): the file is grown and mapped again; the model keeps the
      contents (offset pointers survive a new mapping), so the size check passes.  utils.hpp 72-87
      ([retry_alloc], one retry): only [bad_alloc] is caught.  [mmap = false]: the in-memory helper, which
      does not retry. *)
  Definition retry {A X : Type} (mmap : bool) (f : X -> helper -> outcome (helper * res A)) (x1 x2 : X) (h : helper)
    : outcome (helper * res A) :=
    match f x1 h with
    | Throw (h1, Exn BadAlloc) => if mmap then f x2 h1 else Throw (h1, Exn BadAlloc)
    | r => r
    end.

  (** graph_helper.hpp 270-361 *)
  Definition add_vertex_with_index_mapping (mmap : bool) (d : VD) (a1 a2 : vertex_answers) (h : helper) :=
    retry mmap (add_vertex_once d) a1 a2 h.

  (** graph_helper.hpp 368-449: the overloads taking the edge by reference and copying it in every attempt *)
  Definition add_edge_with_indices (mmap : bool) (i j : nat) (d : ED) (a1 a2 : edge_answers) (h : helper) :=
    retry mmap (add_edge_once i j d) a1 a2 h.

  (** graph_helper.hpp 451-470: the overload taking the edge by value moves it into the graph's [add_edge]; what a
      second attempt finds in the variable is the moved-from value [moved d].  (A second attempt is made only
      after the first one reached [add_edge].) *)
  Definition add_edge_by_value (moved : ED -> ED) (mmap : bool) (i j : nat) (d : ED) (a1 a2 : edge_answers) (h : helper) :=
    let once x h := add_edge_once i j (fst x) (mkEA true (ea_1 (snd x)) (ea_2 (snd x)) (ea_3 (snd x))) h in
    retry mmap once (d, a1) (moved d, a2) h.

  (** a sequence of importer calls *)
  Inductive import_op :=
  | AddV (d : VD) (a1 a2 : vertex_answers)
  | AddE (i j : nat) (d : ED) (a1 a2 : edge_answers).

  Definition import_step (mmap : bool) (h : helper) (o : import_op) : outcome (helper * res nat) :=
    match o with
    | AddV d a1 a2 => add_vertex_with_index_mapping mmap d a1 a2 h
    | AddE i j d a1 a2 => add_edge_with_indices mmap i j d a1 a2 h
    end.

  (** the calls one after another, whatever each of them answers (the caller goes on after an exception);
      [None] after undefined behaviour.  Results are returned in order. *)
  Fixpoint import_run (mmap : bool) (h : helper) (os : list import_op) : option (helper * list (res nat)) :=
    match os with
    | [] => Some (h, [])
    | o :: r =>
      match import_step mmap h o with
      | Ok (h', x) | Throw (h', x) =>
        match import_run mmap h' r with
        | Some (h'', xs) => Some (h'', x :: xs)
        | None => None
        end
      | UB => None
      | Fuel => None
      end
    end.
End GraphHelper.
Arguments helper VD ED : clear implicits.
Arguments mkH {VD ED}.
Arguments import_op VD ED : clear implicits.
