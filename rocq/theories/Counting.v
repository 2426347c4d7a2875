(** * The counters of allocated bytes and the allocators that keep them

    /repo/src/library/include/io/allocator/allocation_counter.hpp:23-71
    /repo/src/library/include/io/allocator/thread_safe_allocation_counter.hpp:24-72
    /repo/src/library/include/io/allocator/counting_allocator.hpp:22-78
    /repo/src/library/include/io/allocator/counting_polymorphic_allocator.hpp:22-84
    /repo/src/library/include/io/memory_mapped/allocator/counting_interprocess_allocator.hpp:22-157
    /repo/src/library/include/io/memory_mapped/allocator/interprocess_allocator.hpp:22-117

    A counter object holds a shared pointer to a number; copies of the object
    point to the same number.  Every allocator holds a counter object.  The
    storages of the network in memory use these allocators for all their
    containers (io/memory_mapped/types.hpp:36-66), and [tag_storage::size]
    reads the counter (storage/tag_storage.hpp:298-300).

    Simplifications: numbers live in a list of cells that only grows, so a
    shared pointer is the index of a cell and [None] is the empty pointer; the
    lifetime of cells is not modelled, as a shared pointer keeps its number
    alive.  The memory itself is the list of blocks that containers hold; the
    addresses are identifiers that are never used twice.  Whether the base
    allocator can serve a request is part of the operation. *)

From Coq Require Import List ZArith Lia Bool Arith.
From Verif Require Import Base ListAux.
Import ListNotations.
Open Scope Z_scope.

(** A block of memory in the hands of a container.  [b_from] is the cell of the
    allocator it came from; the program has no such field, it is only there for
    the statements. *)
Record block := { b_id : nat; b_bytes : Z; b_from : nat }.

(** An allocator: its counter object and the [sizeof] of its value type
    (counting_allocator.hpp:72-73). *)
Record alloc := { a_ptr : option nat; a_size : Z }.

Record world := {
  cells : list Z;               (* the shared numbers *)
  counters : list (option nat); (* counter objects of the program *)
  allocs : list alloc;          (* allocator objects *)
  live : list block;            (* blocks in use *)
  kept : Z;                     (* bytes given back that the segment keeps *)
  next : nat                    (* next unused address *)
}.

(** [sizeof] types of the word: numbers are [std::size_t]; [W] is 2^64. *)
Section Counting.

Variable W : Z.
(** The template parameter [Deallocate] of the allocators for mapped files
    (counting_interprocess_allocator.hpp:22-23); true for the others. *)
Variable dealloc : bool.

(** [*_bytes += n] and [*_bytes -= n], allocation_counter.hpp:51-57: unsigned
    arithmetic wraps around. *)
Definition c_add (x n : Z) : Z := (x + n) mod W.
Definition c_sub (x n : Z) : Z := (x - n) mod W.

Fixpoint upd {A} (l : list A) (i : nat) (v : A) : list A :=
  match l, i with
  | [], _ => []
  | _ :: t, O => v :: t
  | x :: t, S i' => x :: upd t i' v
  end.

(** Change the number behind a pointer.  Following the empty pointer is
    undefined. *)
Definition at_ptr (w : world) (p : option nat) (f : Z -> Z) : outcome world :=
  match p with
  | None => UB
  | Some i =>
      match nth_error (cells w) i with
      | None => UB
      | Some x => Ok {| cells := upd (cells w) i (f x); counters := counters w; allocs := allocs w;
                        live := live w; kept := kept w; next := next w |}
      end
  end.

Definition add (w : world) (p : option nat) (n : Z) : outcome world :=
  at_ptr w p (fun x => c_add x n).
Definition sub (w : world) (p : option nat) (n : Z) : outcome world :=
  at_ptr w p (fun x => c_sub x n).

(** [bytes], allocation_counter.hpp:63-65. *)
Definition bytes_of (w : world) (p : option nat) : outcome Z :=
  match p with
  | None => UB
  | Some i => match nth_error (cells w) i with None => UB | Some x => Ok x end
  end.

Definition new_cell (w : world) (n : Z) : world :=
  {| cells := cells w ++ [n]; counters := counters w; allocs := allocs w;
     live := live w; kept := kept w; next := next w |}.
Definition push_counter (w : world) (p : option nat) : world :=
  {| cells := cells w; counters := counters w ++ [p]; allocs := allocs w;
     live := live w; kept := kept w; next := next w |}.
Definition set_counter (w : world) (h : nat) (p : option nat) : world :=
  {| cells := cells w; counters := upd (counters w) h p; allocs := allocs w;
     live := live w; kept := kept w; next := next w |}.
Definition push_alloc (w : world) (a : alloc) : world :=
  {| cells := cells w; counters := counters w; allocs := allocs w ++ [a];
     live := live w; kept := kept w; next := next w |}.

(** The base allocator hands out one block.  [from] is the bookkeeping field. *)
Definition take (w : world) (p : option nat) (n : Z) : world :=
  {| cells := cells w; counters := counters w; allocs := allocs w;
     live := live w ++ [{| b_id := next w; b_bytes := n;
                           b_from := match p with Some i => i | None => O end |}];
     kept := kept w; next := S (next w) |}.

Fixpoint take_many (w : world) (p : option nat) (sizes : list Z) : world :=
  match sizes with
  | [] => w
  | n :: t => take_many (take w p n) p t
  end.

Definition find_block (w : world) (b : nat) : option block :=
  find (fun x => Nat.eqb (b_id x) b) (live w).

(** The block leaves the hands of the container; without [Deallocate] the
    segment keeps its bytes, counting_interprocess_allocator.hpp:77-82. *)
Definition release (w : world) (b : nat) : outcome world :=
  match find_block w b with
  | None => UB
  | Some x =>
      Ok {| cells := cells w; counters := counters w; allocs := allocs w;
            live := filter (fun y => negb (Nat.eqb (b_id y) b)) (live w);
            kept := if dealloc then kept w else kept w + b_bytes x;
            next := next w |}
  end.

Inductive op :=
| NewCounter (n : Z)                       (* allocation_counter(n) *)
| CopyCounter (h : nat)                    (* copy constructor *)
| MoveCounter (h : nat)                    (* move constructor *)
| AssignCounter (h h' : nat)               (* h = h' *)
| MoveAssignCounter (h h' : nat)           (* h = std::move(h') *)
| Reset (h : nat) (n : Z)
| DefaultAlloc (size : Z)                  (* counting_allocator() *)
| CounterAlloc (h : nat) (size : Z)        (* counting_allocator(counter) *)
| Rebind (a : nat) (size : Z)              (* copy, also to another value type *)
| Allocate (a : nat) (n : Z) (ok : bool)
| Deallocate (a b : nat) (n : Z)
| AllocateOne (a : nat) (ok : bool)
| DeallocateOne (a b : nat)
| AllocateMany (a : nat) (elem_size num : nat) (ok : bool)
| AllocateList (a : nat) (sizes : list nat) (ok : bool)
| AllocateIndividual (a : nat) (num : nat) (ok : bool)
| DeallocateMany (a : nat) (chain : list nat)   (* also deallocate_individual *)
| Command (a b : nat) (n : Z) (ok : bool).      (* allocation_command, expanding in place *)

(** The caller's view of one step: [Throw] is [bad_alloc] with the state the
    caller finds afterwards. *)
Definition with_alloc (w : world) (a : nat) (k : alloc -> outcome world) : outcome world :=
  match nth_error (allocs w) a with None => UB | Some x => k x end.
Definition with_counter (w : world) (h : nat) (k : option nat -> outcome world) : outcome world :=
  match nth_error (counters w) h with None => UB | Some p => k p end.

(** The counter is raised first, then the base allocator is asked,
    counting_allocator.hpp:50-53. *)
Definition request (w : world) (p : option nat) (counted : Z) (sizes : list Z) (ok : bool) : outcome world :=
  bindO (add w p counted) (fun e => e) (fun w1 =>
    if ok then Ok (take_many w1 p sizes) else Throw w1).

(** The counter is lowered once per block of the chain, then the chain is given
    back, counting_interprocess_allocator.hpp:106-113, 132-139. *)
Fixpoint sub_each (w : world) (p : option nat) (n : Z) (chain : list nat) : outcome world :=
  match chain with
  | [] => Ok w
  | _ :: t => bindO (sub w p n) (fun e => e) (fun w1 => sub_each w1 p n t)
  end.
Fixpoint release_each (w : world) (chain : list nat) : outcome world :=
  match chain with
  | [] => Ok w
  | b :: t => bindO (release w b) (fun e => e) (fun w1 => release_each w1 t)
  end.

(** The counter is raised once per requested size,
    counting_interprocess_allocator.hpp:99-104. *)
Fixpoint add_each (w : world) (p : option nat) (ns : list Z) : outcome world :=
  match ns with
  | [] => Ok w
  | n :: t => bindO (add w p n) (fun e => e) (fun w1 => add_each w1 p t)
  end.

Definition step (w : world) (o : op) : outcome world :=
  match o with
  | NewCounter n => Ok (push_counter (new_cell w (n mod W)) (Some (length (cells w))))
  | CopyCounter h => with_counter w h (fun p => Ok (push_counter w p))
  | MoveCounter h => with_counter w h (fun p => Ok (push_counter (set_counter w h None) p))
  | AssignCounter h h' =>
      with_counter w h (fun _ => with_counter w h' (fun p =>
        if Nat.eqb h h' then Ok w else Ok (set_counter w h p)))
  | MoveAssignCounter h h' =>
      with_counter w h (fun _ => with_counter w h' (fun p =>
        if Nat.eqb h h' then Ok w else Ok (set_counter (set_counter w h p) h' None)))
  | Reset h n => with_counter w h (fun p => at_ptr w p (fun _ => n mod W))
  | DefaultAlloc size =>
      Ok (push_alloc (new_cell w 0) {| a_ptr := Some (length (cells w)); a_size := size |})
  | CounterAlloc h size => with_counter w h (fun p => Ok (push_alloc w {| a_ptr := p; a_size := size |}))
  | Rebind a size => with_alloc w a (fun x => Ok (push_alloc w {| a_ptr := a_ptr x; a_size := size |}))
  | Allocate a n ok =>
      with_alloc w a (fun x => request w (a_ptr x) (n * a_size x) [n * a_size x] ok)
  | Deallocate a b n =>
      with_alloc w a (fun x =>
        match find_block w b with
        | None => UB
        | Some y =>
            if b_bytes y =? n * a_size x
            then bindO (sub w (a_ptr x) (n * a_size x)) (fun e => e) (fun w1 => release w1 b)
            else UB   (* the number must be the one of the allocation *)
        end)
  | AllocateOne a ok =>
      with_alloc w a (fun x => request w (a_ptr x) (a_size x) [a_size x] ok)
  | DeallocateOne a b =>
      with_alloc w a (fun x =>
        match find_block w b with
        | None => UB
        | Some y =>
            if b_bytes y =? a_size x
            then bindO (sub w (a_ptr x) (a_size x)) (fun e => e) (fun w1 => release w1 b)
            else UB
        end)
  | AllocateMany a es num ok =>
      with_alloc w a (fun x =>
        request w (a_ptr x) (Z.of_nat es * a_size x * Z.of_nat num)
          (repeat (Z.of_nat es * a_size x) num) ok)
  | AllocateList a sizes ok =>
      with_alloc w a (fun x =>
        let ns := map (fun s => Z.of_nat s * a_size x) sizes in
        bindO (add_each w (a_ptr x) ns) (fun e => e) (fun w1 =>
          if ok then Ok (take_many w1 (a_ptr x) ns) else Throw w1))
  | AllocateIndividual a num ok =>
      with_alloc w a (fun x =>
        request w (a_ptr x) (a_size x * Z.of_nat num) (repeat (a_size x) num) ok)
  | DeallocateMany a chain =>
      with_alloc w a (fun x =>
        bindO (sub_each w (a_ptr x) (a_size x) chain) (fun e => e) (fun w1 => release_each w1 chain))
  | Command a b n ok =>
      with_alloc w a (fun x =>
        match find_block w b with
        | None => UB
        | Some y =>
            if ok
            then Ok {| cells := cells w; counters := counters w; allocs := allocs w;
                       live := map (fun z => if Nat.eqb (b_id z) b
                                             then {| b_id := b_id z; b_bytes := n * a_size x; b_from := b_from z |}
                                             else z) (live w);
                       kept := kept w; next := next w |}
            else Throw w
        end)
  end.

(** A program: [bad_alloc] is caught by the caller, who goes on. *)
Fixpoint runs (w : world) (l : list op) : outcome world :=
  match l with
  | [] => Ok w
  | o :: t =>
      match step w o with
      | Ok w1 => runs w1 t
      | Throw w1 => runs w1 t
      | UB => UB
      | Fuel => Fuel
      end
  end.

Definition start : world :=
  {| cells := []; counters := []; allocs := []; live := []; kept := 0; next := O |}.

(** ** Several threads

    A thread raises and lowers one shared number.  The plain counter reads the
    number and writes the new one in two steps (allocation_counter.hpp:51-57);
    the thread safe one does it in one (thread_safe_allocation_counter.hpp:52-58).
    Simplification: memory is sequentially consistent; for the plain counter the
    language says even less, any race is undefined. *)
Inductive atom := AAdd (n : Z) | ASub (n : Z).

Definition a_apply (x : Z) (a : atom) : Z :=
  match a with AAdd n => c_add x n | ASub n => c_sub x n end.

(** One thread of the plain counter: what it still has to do, and the number it
    has read if it is in the middle of an operation. *)
Record thread := { todo : list atom; seen : option Z }.

Definition thread_step (cell : Z) (t : thread) : option (Z * thread) :=
  match todo t with
  | [] => None
  | a :: r =>
      match seen t with
      | None => Some (cell, {| todo := a :: r; seen := Some cell |})
      | Some x => Some (a_apply x a, {| todo := r; seen := None |})
      end
  end.

Definition atomic_step (cell : Z) (t : list atom) : option (Z * list atom) :=
  match t with
  | [] => None
  | a :: r => Some (a_apply cell a, r)
  end.

(** A schedule names the thread that moves next; a thread that has finished
    does nothing. *)
Fixpoint schedule {T} (st : Z -> T -> option (Z * T)) (cell : Z) (ts : list T) (s : list nat) : Z * list T :=
  match s with
  | [] => (cell, ts)
  | i :: s' =>
      match nth_error ts i with
      | None => schedule st cell ts s'
      | Some t =>
          match st cell t with
          | None => schedule st cell ts s'
          | Some (c, t') => schedule st c (upd ts i t') s'
          end
      end
  end.

End Counting.
