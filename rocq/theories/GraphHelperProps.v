(** Property C46: the vertex index map of the importers. *)
From Verif Require Import Base ListAux AdjList AdjListSpec AdjListProofs AdjListProofs2 AdjListProofs3
  GraphHelper GraphHelperProofs.

Section Props.
  Context {VD ED : Type}.
  Variable dir : direction.

  (** C46: after any sequence of insertions, with memory running out at any point of any attempt and the caller
      going on after exceptions, index [i] of the map denotes the [i]-th vertex; the graph holds exactly the
      vertices and edges of the calls that succeeded, in order and between the vertices meant by the caller's
      indices; every call that failed left no trace and answered with the right exception. *)
  Theorem C46_index_map_aligned (mmap : bool) (os : list (import_op VD ED)) :
    exists h rs, import_run dir mmap empty_helper os = Some (h, rs) /\
      aligned h /\ exact dir (h_graph h) /\
      let '((vs, es), xs) := import_specs dir mmap ([], []) os in
      holds h vs es /\ Forall2 agrees rs xs.
  Proof.
    destruct (import_run_spec dir mmap os empty_helper [] [] (good_empty dir) holds_empty) as (h & rs & R & G & A & H).
    exists h, rs. destruct (import_specs dir mmap ([], []) os) as [[vs es] xs].
    split; [exact R|]. split; [apply (good_aligned dir); exact G|]. split; [apply G|]. auto.
  Qed.

  (** consequently an index handed out once stays the index of the same vertex data *)
  Theorem C46_index_stable (mmap : bool) (os os' : list (import_op VD ED)) h rs h' rs' i d :
    import_run dir mmap empty_helper os = Some (h, rs) ->
    import_run dir mmap empty_helper (os ++ os') = Some (h', rs') ->
    nth_error (map v_data (g_vs (h_graph h))) i = Some d ->
    exists x, nth_error (g_vs (h_graph h')) i = Some x /\ v_data x = d /\ nth_error (h_map h') i = Some (v_id x).
  Proof.
    intros R R' N.
    destruct (import_run_spec dir mmap os empty_helper [] [] (good_empty dir) holds_empty) as (h1 & rs1 & R1 & _ & _ & [H1 _]).
    rewrite R in R1. injection R1 as <- <-. rewrite H1 in N.
    destruct (import_run_spec dir mmap (os ++ os') empty_helper [] [] (good_empty dir) holds_empty) as (h2 & rs2 & R2 & G2 & _ & [H2 _]).
    rewrite R' in R2. injection R2 as <- <-.
    assert (K : forall (os1 : list (import_op VD ED)) (c : list VD * list (road (ED:=ED))), exists t : list VD, fst (fst (import_specs dir mmap c os1)) = fst c ++ t).
    { clear. intros os1. induction os1 as [|o os1 IH]; intros c; cbn [import_specs].
      - exists []. symmetry; apply app_nil_r.
      - destruct (import_spec dir mmap c o) as [c1 x] eqn:E. destruct (IH c1) as [t T].
        destruct (import_specs dir mmap c1 os1) as [c2 xs]; cbn [fst] in *.
        assert (exists t', fst c1 = fst c ++ t') as [t' T'].
        { destruct c as [vs es]; destruct o; cbn in E;
            repeat match type of E with context [if ?b then _ else _] => destruct b end;
            injection E as <- <-; cbn; eauto using app_nil_r; exists []; symmetry; apply app_nil_r. }
        exists (t' ++ t). rewrite T, T', app_assoc. reflexivity. }
    assert (A : forall (os1 os2 : list (import_op VD ED)) (c : list VD * list (road (ED:=ED))), fst (import_specs dir mmap c (os1 ++ os2))
                                  = fst (import_specs dir mmap (fst (import_specs dir mmap c os1)) os2)).
    { clear. intros os1 os2. induction os1 as [|o os1 IH]; intros c; cbn [app import_specs]; [reflexivity|].
      destruct (import_spec dir mmap c o) as [c1 x]. specialize (IH c1).
      destruct (import_specs dir mmap c1 (os1 ++ os2)) as [c2 xs].
      destruct (import_specs dir mmap c1 os1) as [c3 ys]. exact IH. }
    rewrite A in H2. destruct (K os' (fst (import_specs dir mmap ([], []) os))) as [t T]. rewrite T in H2.
    assert (N2 : nth_error (map v_data (g_vs (h_graph h'))) i = Some d).
    { rewrite H2. rewrite nth_error_app1; [exact N|]. apply nth_error_Some. congruence. }
    rewrite nth_error_map in N2. destruct (nth_error (g_vs (h_graph h')) i) as [x|] eqn:X; [|discriminate].
    injection N2 as E. exists x. split; [reflexivity|]. split; [exact E|].
    apply (proj2 (good_aligned dir _ G2) _ _ X).
  Qed.
End Props.

(** a history with a failure after the vertex was already in the graph, and a retried edge *)
Definition fine : vertex_answers := mkVA true Good Good.
Definition map_full : vertex_answers := mkVA true Good (Bad 2).
Definition efine : edge_answers := mkEA true Good Good Good.
Definition efull : edge_answers := mkEA true Good Good (Bad 1).
Definition history : list (import_op nat (list nat)) :=
  [AddV 10 fine fine; AddV 20 map_full map_full; AddV 30 map_full fine; AddE 0 1 [7] efull efine; AddE 0 2 [8] efine efine].

Example C46_example :
  match import_run Bidirectional true empty_helper history with
  | Some (h, rs) =>
    map v_data (g_vs (h_graph h)) = [10; 30] /\ rs = [Val 0; Exn BadAlloc; Val 1; Val 5; Exn OutOfRange] /\
    length (h_map h) = 2 /\ map (@e_data (list nat)) (g_es (h_graph h)) = [[7]]
  | None => False
  end.
Proof. vm_compute. repeat split. Qed.

(** The overload taking the edge by value (graph_helper.hpp 451-470) loses the edge's data when its first attempt
    runs out of memory: the retry stores the moved-from edge.  The claim "a successful insertion stores the data
    that was passed" is false of it. *)
Theorem C46_by_value_refuted :
  exists (h : helper nat (list nat)) i j d a1 a2 h' e,
    good_helper Directed h /\ ea_good Directed i j a1 = false /\ ea_good Directed i j a2 = true /\
    add_edge_by_value Directed (fun _ => []) true i j d a1 a2 h = Ok (h', Val e) /\
    d <> [] /\ map (@e_data (list nat)) (g_es (h_graph h')) = [[]].
Proof.
  destruct (import_run Directed true (@empty_helper nat (list nat)) [AddV 10 fine fine; AddV 20 fine fine]) as [[h rs]|] eqn:R;
    [|vm_compute in R; discriminate].
  assert (G : good_helper Directed h).
  { destruct (import_run_spec (VD:=nat) (ED:=list nat) Directed true [AddV 10 fine fine; AddV 20 fine fine] empty_helper [] []
                (good_empty Directed) holds_empty) as (h1 & rs1 & R1 & G1 & _).
    rewrite R in R1. injection R1 as <- <-. exact G1. }
  exists h, 0, 1, [7; 8], (mkEA true Good (Bad 0) Good), efine.
  vm_compute in R. injection R as <- <-.
  eexists; eexists. split; [exact G|]. vm_compute. repeat split. discriminate.
Qed.

Print Assumptions C46_index_map_aligned.
Print Assumptions C46_index_stable.
Print Assumptions C46_by_value_refuted.
