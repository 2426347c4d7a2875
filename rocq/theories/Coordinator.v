(** Model of src/library/include/util/coordinator.hpp (coordinator: queue 47-53, start 55-59, join 61-63, stop 65-67,
    _start 78-98) as a transition system.  One step is one atomic operation of one thread:
    - clients (any number of threads) call [queue] and [stop];
    - the dispatcher thread runs [_start]; the two reads of the loop condition (line 79) are separate steps because
      [boost::sync_bounded_queue::empty] and [closed] lock the queue separately;
    - the workers of [boost::basic_thread_pool] take submitted closures in order and run lines 85-91.

    Library behaviour taken as given (Boost.Thread documentation): [wait_push_back] blocks while the queue is full and
    open, appends if it is open and has room, and returns [queue_op_status::closed] without appending if it is closed;
    [wait_pull_front] blocks while the queue is empty and open, takes the front if there is one (closed or not) and
    returns [closed] if it is empty and closed; the pool has an unbounded FIFO; its workers leave when it is closed and
    empty; [join] of the pool waits for all workers.  [execute] is assumed to terminate (normally or by an exception;
    both paths release the semaphore, lines 87 and 89); what it computes is not modelled here. *)
From Verif Require Import Base.

Section Coordinator.
  Context {T : Type}.
  (** constructor parameters (coordinator.hpp 36-38) *)
  Variable threads : nat.
  Variable queue_size : nat.

  (** program counter of the dispatcher *)
  Inductive dpc : Type :=
  | DIdle              (* start() not called *)
  | DEmpty             (* line 79: about to evaluate _queue.empty() *)
  | DClosed            (* line 79: empty() was true, about to evaluate _queue.closed() *)
  | DPull              (* line 81: wait_pull_front *)
  | DAcquire (t : T)   (* line 83: _semaphore.acquire() *)
  | DSubmit (t : T)    (* line 84: boost::async(_thread_pool, ...) *)
  | DClose             (* line 96: _thread_pool.close() *)
  | DJoin              (* line 97: _thread_pool.join() *)
  | DExit.             (* _start returned: join() of the coordinator returns *)

  Record state : Type := mkC {
    q : list T;                  (* _queue *)
    closed : bool;               (* _queue.closed() *)
    disp : dpc;
    sem : nat;                   (* counter of _semaphore *)
    pool : list T;               (* closures submitted but not started *)
    pool_closed : bool;
    running : list (T * bool);   (* per busy worker: its task, and whether execute() has returned or thrown *)
    exited : nat;                (* workers that have left *)
    (* history, not part of the program state *)
    accepted : list T;           (* tasks appended by queue() so far, in order *)
    started : list T;            (* tasks whose execution began, in order *)
    done : list T;               (* tasks whose execution ended, in order *)
    late : list T                (* tasks accepted since the dispatcher last read empty() as true *)
  }.

  (** constructor, coordinator.hpp 36-38 *)
  Definition initial : state := mkC [] false DIdle queue_size [] false [] 0 [] [] [] [].

  (** steps of clients *)
  Inductive client : state -> state -> Prop :=
  | queue_accept s x : closed s = false -> length (q s) < queue_size ->         (* lines 47-53 *)
      client s (mkC (q s ++ [x]) (closed s) (disp s) (sem s) (pool s) (pool_closed s) (running s) (exited s)
                    (accepted s ++ [x]) (started s) (done s) (late s ++ [x]))
  | queue_reject s (x : T) : closed s = true -> client s s                      (* status ignored by queue() *)
  | stop s : client s (mkC (q s) true (disp s) (sem s) (pool s) (pool_closed s) (running s) (exited s)   (* lines 65-67 *)
                    (accepted s) (started s) (done s) (late s))
  | start s : disp s = DIdle ->                                                  (* lines 55-59 *)
      client s (mkC (q s) (closed s) DEmpty (sem s) (pool s) (pool_closed s) (running s) (exited s)
                    (accepted s) (started s) (done s) (late s)).

  (** steps of the dispatcher and of the workers *)
  Inductive internal : state -> state -> Prop :=
  | d_empty_true s : disp s = DEmpty -> q s = [] ->
      internal s (mkC (q s) (closed s) DClosed (sem s) (pool s) (pool_closed s) (running s) (exited s)
                      (accepted s) (started s) (done s) [])
  | d_empty_false s : disp s = DEmpty -> q s <> [] ->
      internal s (mkC (q s) (closed s) DPull (sem s) (pool s) (pool_closed s) (running s) (exited s)
                      (accepted s) (started s) (done s) (late s))
  | d_closed_true s : disp s = DClosed -> closed s = true ->
      internal s (mkC (q s) (closed s) DClose (sem s) (pool s) (pool_closed s) (running s) (exited s)
                      (accepted s) (started s) (done s) (late s))
  | d_closed_false s : disp s = DClosed -> closed s = false ->
      internal s (mkC (q s) (closed s) DPull (sem s) (pool s) (pool_closed s) (running s) (exited s)
                      (accepted s) (started s) (done s) (late s))
  | d_pull s x r : disp s = DPull -> q s = x :: r ->
      internal s (mkC r (closed s) (DAcquire x) (sem s) (pool s) (pool_closed s) (running s) (exited s)
                      (accepted s) (started s) (done s) (late s))
  | d_pull_closed s : disp s = DPull -> q s = [] -> closed s = true ->
      internal s (mkC (q s) (closed s) DEmpty (sem s) (pool s) (pool_closed s) (running s) (exited s)
                      (accepted s) (started s) (done s) (late s))
  | d_acquire s x n : disp s = DAcquire x -> sem s = S n ->
      internal s (mkC (q s) (closed s) (DSubmit x) n (pool s) (pool_closed s) (running s) (exited s)
                      (accepted s) (started s) (done s) (late s))
  | d_submit s x : disp s = DSubmit x ->
      internal s (mkC (q s) (closed s) DEmpty (sem s) (pool s ++ [x]) (pool_closed s) (running s) (exited s)
                      (accepted s) (started s) (done s) (late s))
  | d_close s : disp s = DClose ->
      internal s (mkC (q s) (closed s) DJoin (sem s) (pool s) true (running s) (exited s)
                      (accepted s) (started s) (done s) (late s))
  | d_join s : disp s = DJoin -> exited s = threads ->
      internal s (mkC (q s) (closed s) DExit (sem s) (pool s) (pool_closed s) (running s) (exited s)
                      (accepted s) (started s) (done s) (late s))
  | w_take s x r : exited s + length (running s) < threads -> pool s = x :: r ->
      internal s (mkC (q s) (closed s) (disp s) (sem s) r (pool_closed s) (running s ++ [(x, false)]) (exited s)
                      (accepted s) (started s ++ [x]) (done s) (late s))
  | w_execute s x a b : running s = a ++ (x, false) :: b ->                       (* lines 86, 88 *)
      internal s (mkC (q s) (closed s) (disp s) (sem s) (pool s) (pool_closed s) (a ++ (x, true) :: b) (exited s)
                      (accepted s) (started s) (done s ++ [x]) (late s))
  | w_release s x a b : running s = a ++ (x, true) :: b ->                        (* lines 87, 89 *)
      internal s (mkC (q s) (closed s) (disp s) (S (sem s)) (pool s) (pool_closed s) (a ++ b) (exited s)
                      (accepted s) (started s) (done s) (late s))
  | w_exit s : exited s + length (running s) < threads -> pool s = [] -> pool_closed s = true ->
      internal s (mkC (q s) (closed s) (disp s) (sem s) (pool s) (pool_closed s) (running s) (S (exited s))
                      (accepted s) (started s) (done s) (late s)).

  Definition step (s s' : state) : Prop := client s s' \/ internal s s'.

  Inductive reachable_state : state -> Prop :=
  | r_init : reachable_state initial
  | r_step s s' : reachable_state s -> step s s' -> reachable_state s'.
End Coordinator.

Arguments state T : clear implicits.
Arguments dpc T : clear implicits.
