(** Model of the life of a matcher or comparator with its exporters, as a transition system over the coordinators of Coordinator.v:
    - matching/matcher.hpp 66-91 (constructor, destructor), 106-195 ([_match_impl] passes a result to each exporter);
      compare/comparator.hpp 64-96, compare/comparator.cpp (the same with two exporters);
    - app/match.hpp 39-62, 146-152 and app/compare.cpp 34-49, 93-119 (the thread that owns it: construct, start, read and queue, stop, join, destroy);
    - io/results/csv_results_exporter.hpp 36-41, io/results/results_output_printer.hpp 34-37 (an exporter is a coordinator with one thread);
    - util/coordinator.hpp 40-45 (destructor of the base class).

    The exporters are numbered in the order in which a result is passed to them.  What a task computes is not modelled, only to how many exporters
    its results are passed before [execute] returns or throws.  All of a destructor's work on one exporter is one step. *)
From Verif Require Import Base Coordinator.

Section Pipeline.
  (** tasks; what is passed to exporters *)
  Context {T R : Type}.
  Variables threads queue_size : nat.
  (** number of exporters and size of their queues (1024) *)
  Variables k export_size : nat.
  Variable passes : T -> nat.
  Variable result : nat -> T -> R.

  (** [start], [stop] and an accepted [queue], coordinator.hpp 47-67 *)
  Definition c_start {A} (s : state A) : state A :=
    mkC (q s) (closed s) DEmpty (sem s) (pool s) (pool_closed s) (running s) (exited s) (accepted s) (started s) (done s) (late s).
  Definition c_stop {A} (s : state A) : state A :=
    mkC (q s) true (disp s) (sem s) (pool s) (pool_closed s) (running s) (exited s) (accepted s) (started s) (done s) (late s).
  Definition c_accept {A} (s : state A) (x : A) : state A :=
    mkC (q s ++ [x]) (closed s) (disp s) (sem s) (pool s) (pool_closed s) (running s) (exited s) (accepted s ++ [x]) (started s) (done s) (late s ++ [x]).

  (** where the owning thread is *)
  Inductive opc :=
  | OConstruct (j : nat)  (* constructor: exporters before [j] are started, matcher.hpp 73-75 *)
  | OStart                (* constructed, match.hpp 54 *)
  | ORead                 (* reading tracks, match.hpp 150 *)
  | OJoin                 (* after stop, 143: in join, 60 *)
  | OStop (j : nat)       (* destructor: exporters before [j] are stopped, matcher.hpp 79-81 *)
  | OJoinE (j : nat)      (* destructor: exporters before [j] are joined, 83-85 *)
  | OGone                 (* the members of the matcher are destroyed, coordinator.hpp 41 *)
  | OBase                 (* the base class closed its queue, 44: in join *)
  | OFreed.

  (** [prog]: for each busy worker (as in [running]) to how many exporters it has passed its result; history: [thrown]: reading ended by an
      exception; [lost j]: results that exporter [j] did not accept because it was stopped *)
  Record sys := mkS { m : state T; prog : list nat; es : nat -> state R; owner : opc; thrown : bool; lost : nat -> list R }.

  Definition begin : sys := mkS (initial queue_size) [] (fun _ => initial export_size) (OConstruct 0) false (fun _ => []).
  Definition upd {A} (f : nat -> A) (j : nat) (a : A) : nat -> A := fun i => if i =? j then a else f i.
  Definition at_owner (s : sys) (o : opc) : sys := mkS (m s) (prog s) (es s) o (thrown s) (lost s).
  Definition with_m (s : sys) (c : state T) (o : opc) : sys := mkS c (prog s) (es s) o (thrown s) (lost s).
  Definition with_e (s : sys) (j : nat) (c : state R) (o : opc) : sys := mkS (m s) (prog s) (upd (es s) j c) o (thrown s) (lost s).

  Inductive owner_step : sys -> sys -> Prop :=
  | o_start_e s j : owner s = OConstruct j -> j < k -> owner_step s (with_e s j (c_start (es s j)) (OConstruct (S j)))
  | o_constructed s : owner s = OConstruct k -> owner_step s (at_owner s OStart)
  | o_start s : owner s = OStart -> owner_step s (with_m s (c_start (m s)) ORead)
  | o_queue s x : owner s = ORead -> closed (m s) = false -> length (q (m s)) < queue_size -> owner_step s (with_m s (c_accept (m s) x) ORead)
  | o_end s : owner s = ORead -> owner_step s (with_m s (c_stop (m s)) OJoin)
  | o_throw s : owner s = ORead -> owner_step s (mkS (m s) (prog s) (es s) (OStop 0) true (lost s))
  | o_joined s : owner s = OJoin -> disp (m s) = DExit -> owner_step s (at_owner s (OStop 0))
  | o_stop_e s j : owner s = OStop j -> j < k -> owner_step s (with_e s j (c_stop (es s j)) (OStop (S j)))
  | o_stopped s : owner s = OStop k -> owner_step s (at_owner s (OJoinE 0))
  | o_join_e s j : owner s = OJoinE j -> j < k -> disp (es s j) = DExit -> owner_step s (at_owner s (OJoinE (S j)))
  | o_gone s : owner s = OJoinE k -> owner_step s (at_owner s OGone)
  | o_base s : owner s = OGone -> owner_step s (with_m s (c_stop (m s)) OBase)
  | o_freed s : owner s = OBase -> disp (m s) = DExit -> owner_step s (at_owner s OFreed).

  (** the threads of the matcher and of the exporters; the dispatcher of the matcher and workers that leave do not touch [running] *)
  Inductive thread_step : sys -> sys -> Prop :=
  | t_other s c : internal threads (m s) c -> running c = running (m s) -> thread_step s (mkS c (prog s) (es s) (owner s) (thrown s) (lost s))
  | t_take s x r : exited (m s) + length (running (m s)) < threads -> pool (m s) = x :: r ->
      thread_step s (mkS (mkC (q (m s)) (closed (m s)) (disp (m s)) (sem (m s)) r (pool_closed (m s)) (running (m s) ++ [(x, false)]) (exited (m s))
                              (accepted (m s)) (started (m s) ++ [x]) (done (m s)) (late (m s)))
                         (prog s ++ [0]) (es s) (owner s) (thrown s) (lost s))
  (** a worker passes its result to the next exporter, which accepts it or, if it was stopped, drops it *)
  | t_pass s x a b pa pb j : running (m s) = a ++ (x, false) :: b -> prog s = pa ++ j :: pb -> length pa = length a -> j < passes x ->
      closed (es s j) = false -> length (q (es s j)) < export_size ->
      thread_step s (mkS (m s) (pa ++ S j :: pb) (upd (es s) j (c_accept (es s j) (result j x))) (owner s) (thrown s) (lost s))
  | t_drop s x a b pa pb j : running (m s) = a ++ (x, false) :: b -> prog s = pa ++ j :: pb -> length pa = length a -> j < passes x ->
      closed (es s j) = true ->
      thread_step s (mkS (m s) (pa ++ S j :: pb) (es s) (owner s) (thrown s) (upd (lost s) j (lost s j ++ [result j x])))
  | t_execute s x a b pa pb : running (m s) = a ++ (x, false) :: b -> prog s = pa ++ passes x :: pb -> length pa = length a ->
      thread_step s (mkS (mkC (q (m s)) (closed (m s)) (disp (m s)) (sem (m s)) (pool (m s)) (pool_closed (m s)) (a ++ (x, true) :: b) (exited (m s))
                              (accepted (m s)) (started (m s)) (done (m s) ++ [x]) (late (m s)))
                         (prog s) (es s) (owner s) (thrown s) (lost s))
  | t_release s x a b pa n pb : running (m s) = a ++ (x, true) :: b -> prog s = pa ++ n :: pb -> length pa = length a ->
      thread_step s (mkS (mkC (q (m s)) (closed (m s)) (disp (m s)) (S (sem (m s))) (pool (m s)) (pool_closed (m s)) (a ++ b) (exited (m s))
                              (accepted (m s)) (started (m s)) (done (m s)) (late (m s)))
                         (pa ++ pb) (es s) (owner s) (thrown s) (lost s))
  | t_export s j c : j < k -> internal 1 (es s j) c -> thread_step s (mkS (m s) (prog s) (upd (es s) j c) (owner s) (thrown s) (lost s)).

  Definition sys_step (s s' : sys) : Prop := owner_step s s' \/ thread_step s s'.
  Inductive reachable : sys -> Prop :=
  | reach_begin : reachable begin
  | reach_step s s' : reachable s -> sys_step s s' -> reachable s'.

  (** the members of the matcher, among them the exporters, are destroyed *)
  Definition gone (s : sys) : Prop := owner s = OGone \/ owner s = OBase \/ owner s = OFreed.
  (** undefined behaviour: they are gone and a worker is in [execute], or will enter it (it is virtual, and its implementation is gone) *)
  Definition uses_destroyed (s : sys) : Prop :=
    gone s /\ ((exists x, In (x, false) (running (m s))) \/ pool (m s) <> [] \/ (exists x, disp (m s) = DAcquire x \/ disp (m s) = DSubmit x)
               \/ q (m s) <> [] /\ disp (m s) = DPull).
End Pipeline.
