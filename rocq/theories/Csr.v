(** Model of the compressed graph /repo/src/library/include/graph/compressed_sparse_row.hpp. *)
From Verif Require Import Base AdjList.

Section Csr.
  Context {VD ED : Type}.

  (** compressed_sparse_row.hpp members [vertices] (each with the index [start] of its first edge) and
      [edges] (each with source and target index); data are converted one by one, here copied. *)
  Record csr := mkC { c_vs : list (nat * VD); c_es : list (nat * nat * ED) }.

  (** compressed_sparse_row.hpp 297-354, the inner loop over one vertex' out-edges [l]; [vi] is the index
      of the vertex, [ed] the running [edge_desc].  Assertions are compiled out. *)
  Fixpoint csr_edges (dir : direction) (g : graph VD ED) (vi : nat) (l : list nat) (es : list (nat * nat * ED))
           (ed : nat) : outcome (list (nat * nat * ED) * nat) :=
    match l with
    | [] => Ok (es, ed)
    | e :: r =>
      derefO (get_edge g e) (fun x =>
      derefO (get_vertex g (e_src x)) (fun s =>
      derefO (get_vertex g (e_tgt x)) (fun t =>
      let si := v_index s in
      let ti := v_index t in
      let skip := match dir with Undirected => negb (si =? vi) && (ti =? vi) | _ => false end in   (* 331-336 *)
      if skip then csr_edges dir g vi r es ed
      else csr_edges dir g vi r (es ++ [(si, ti, e_data x)]) (S (length es)))))                    (* 344-347 *)
    end.

  (** compressed_sparse_row.hpp 297-354, the outer loop *)
  Fixpoint csr_vertices (dir : direction) (g : graph VD ED) (xs : list (vertex VD)) (c : csr) (ed : nat)
    : outcome csr :=
    match xs with
    | [] => Ok c
    | x :: r =>
      match csr_edges dir g (v_index x) (v_out x) (c_es c) ed with
      | Ok (es, ed') => csr_vertices dir g r (mkC (c_vs c ++ [(ed, v_data x)]) es) ed'
      | Throw _ => UB
      | UB => UB
      | Fuel => Fuel
      end
    end.

  Definition from_adjacency_list (dir : direction) (g : graph VD ED) : outcome csr :=
    csr_vertices dir g (g_vs g) (mkC [] []) 0.

  (** compressed_sparse_row.hpp 450-457 ([_out_edges_start_end]) *)
  Definition csr_range (c : csr) (v : nat) : option (nat * nat) :=
    match nth_error (c_vs c) v with
    | None => None
    | Some (start, _) =>
      Some (start, match nth_error (c_vs c) (S v) with
                   | Some (next, _) => next
                   | None => length (c_es c)
                   end)
    end.

  (** compressed_sparse_row.hpp 439-448 ([out_edges_view]) with the checks of
      container_subview.hpp 41-48; the result lists the edge descriptors of the view. *)
  Definition csr_out (c : csr) (v : nat) : outcome (list nat) :=
    match csr_range c v with
    | None => UB
    | Some (start, stop) =>
      if (length (c_es c) <? start) || (length (c_es c) <? stop) || (stop <? start) then Throw []
      else Ok (seq start (stop - start))
    end.

  (** compressed_sparse_row.hpp 459-475 *)
  Definition csr_source (c : csr) (e : nat) : option nat := option_map (fun x => fst (fst x)) (nth_error (c_es c) e).
  Definition csr_target (c : csr) (e : nat) : option nat := option_map (fun x => snd (fst x)) (nth_error (c_es c) e).
  Definition csr_edge_data (c : csr) (e : nat) : option ED := option_map snd (nth_error (c_es c) e).

  (** the out-edges of a vertex as (target, data) pairs, the way the searches read them *)
  Definition csr_outs (c : csr) (v : nat) : list (nat * ED) :=
    match csr_out c v with
    | Ok l => flat_map (fun e => match nth_error (c_es c) e with Some (_, t, d) => [(t, d)] | None => [] end) l
    | _ => []
    end.
End Csr.
Arguments csr : clear implicits.
