(** Model of how the imported network becomes the compressed one: /repo/src/library/include/io/helper/graph_helper.hpp 110-160, 512-535 (only
    [drop_handle_bad_alloc]), with graph/compressed_sparse_row.hpp 297-385 (the loops of Csr.v, here with the converters that copy the tags) and
    io/helper/tag_helper.hpp 176-178, 193-196, 376-394 and 236-238.

    [node_of], [edge_of]: the numbers in the data of a vertex and of an edge.  [pairs]: the tags of the imported network by these numbers, [true] for
    nodes and [false] for edges, read with [other.tag], which knows all tags in its lists (C27).  [oom] tells which allocations of the tag storage fail
    (Tags.v), [goom] which of the graph storage: [reserve] and the copy of the data of every vertex and edge are one each.  [mapped]: both storages
    are memory mapped files; otherwise a failed allocation is not tried again.  Growing a file keeps what is in it (C76, C93), [drop_grow] makes the graph
    empty.  Simplification: the exceptions of the check after growing (500-508) are left out, as growing keeps the sizes (C76). *)
From Verif Require Import Base AdjList Csr Tags.

Section Compress.
  Context {VD ED Str : Type}.
  Variable oom goom : nat -> bool.
  Variable seqb : Str -> Str -> bool.
  Variable store : Str -> Str.
  Variable node_of : VD -> nat.
  Variable edge_of : ED -> nat.
  Variable pairs : bool -> nat -> list (Str * Str).
  Variable mapped : bool.

  (** tag_helper.hpp 250-257 *)
  Definition get_map (w : bool) (s : tags_state Str) : list (nat * list nat) := if w then nodes s else edges s.
  Definition set_map (w : bool) (m : list (nat * list nat)) (s : tags_state Str) : tags_state Str := if w then set_nodes m s else set_edges m s.
  (** tag_helper.hpp 376-394, for nodes the same as [clone_node_once] of Tags.v *)
  Definition clone_once (w : bool) (n : nat) (l : list (Str * Str)) (s : tags_state Str) : outcome (unit * tags_state Str) :=
    match l with
    | [] => Ok (tt, s)
    | _ :: _ =>
        match mk_tags oom seqb store mapped l s with
        | Ok (is, s1) =>
            if mapping s1 =? mapping s
            then if oom (clock s1) then Throw (tt, tick s1) else Ok (tt, tick (set_map w (emplace Nat.eqb n is (get_map w s1)) s1))
            else UB
        | Throw (_, s1) => Throw (tt, s1)
        | UB => UB
        | Fuel => Fuel
        end
    end.
  Definition clone (w : bool) (n : nat) (l : list (Str * Str)) (s : tags_state Str) : outcome (unit * tags_state Str) :=
    if mapped then retry_alloc (clone_once w n l) s else clone_once w n l s.

  (** the tags and the number of allocations of the graph so far *)
  Definition state : Type := (tags_state Str * nat)%type.
  (** graph_helper.hpp 114-124: the tags are copied, then the data *)
  Definition convert_data (w : bool) (n : nat) (st : state) : outcome (unit * state) :=
    match clone w n (pairs w n) (fst st) with
    | Ok (_, s) => if goom (snd st) then Throw (tt, (s, S (snd st))) else Ok (tt, (s, S (snd st)))
    | Throw (_, s) => Throw (tt, (s, snd st))
    | UB => UB
    | Fuel => Fuel
    end.

  (** compressed_sparse_row.hpp 322-348, 368-385 *)
  Fixpoint conv_edges (dir : direction) (g : graph VD ED) (vi : nat) (l : list nat) (es : list (nat * nat * ED)) (ed : nat) (st : state)
    : outcome ((list (nat * nat * ED) * nat) * state) :=
    match l with
    | [] => Ok ((es, ed), st)
    | e :: r =>
      derefO (get_edge g e) (fun x =>
      derefO (get_vertex g (e_src x)) (fun s =>
      derefO (get_vertex g (e_tgt x)) (fun t =>
      let si := v_index s in
      let ti := v_index t in
      let skip := match dir with Undirected => negb (si =? vi) && (ti =? vi) | _ => false end in
      if skip then conv_edges dir g vi r es ed st
      else match convert_data false (edge_of (e_data x)) st with
           | Ok (_, st) => conv_edges dir g vi r (es ++ [(si, ti, e_data x)]) (S (length es)) st
           | Throw (_, st) => Throw ((es, ed), st)
           | UB => UB
           | Fuel => Fuel
           end)))
    end.
  (** compressed_sparse_row.hpp 312-349, 356-366 *)
  Fixpoint conv_vertices (dir : direction) (g : graph VD ED) (xs : list (vertex VD)) (c : csr VD ED) (ed : nat) (st : state)
    : outcome (csr VD ED * state) :=
    match xs with
    | [] => Ok (c, st)
    | x :: r =>
      match convert_data true (node_of (v_data x)) st with
      | Ok (_, st) =>
        match conv_edges dir g (v_index x) (v_out x) (c_es c) ed st with
        | Ok ((es, ed'), st) => conv_vertices dir g r (mkC (c_vs c ++ [(ed, v_data x)]) es) ed' st
        | Throw ((es, _), st) => Throw (mkC (c_vs c ++ [(ed, v_data x)]) es, st)
        | UB => UB
        | Fuel => Fuel
        end
      | Throw (_, st) => Throw (c, st)
      | UB => UB
      | Fuel => Fuel
      end
    end.
  (** compressed_sparse_row.hpp 305 and the loops *)
  Definition attempt (dir : direction) (g : graph VD ED) (st : state) : outcome (csr VD ED * state) :=
    if goom (snd st) then Throw (mkC [] [], (fst st, S (snd st)))
    else conv_vertices dir g (g_vs g) (mkC [] []) 0 (fst st, S (snd st)).

  (** graph_helper.hpp 145-150 with 527-535: after a failure the graph is made anew; also after the last one *)
  Fixpoint attempts (retries : nat) (dir : direction) (g : graph VD ED) (st : state) : outcome (csr VD ED * state) :=
    match attempt dir g st with
    | Throw (_, st) => match retries with 0 => Throw (mkC [] [], st) | S n => attempts n dir g st end
    | r => r
    end.

  (** tag_helper.hpp 236-238 (C93) *)
  Definition finalize (s : tags_state Str) : tags_state Str :=
    mkTags [] (id_key s) [] (id_value s) [] (tags s) (nodes s) (edges s) true (clock s) (mapping s).

  (** graph_helper.hpp 110-160 *)
  Definition compress (retries : nat) (dir : direction) (g : graph VD ED) (st : state) : outcome (csr VD ED * state) :=
    match (if mapped then attempts retries dir g (grow (fst st), snd st) else attempt dir g st) with
    | Ok (c, (s, k)) => Ok (c, (finalize s, k))
    | r => r
    end.
End Compress.
