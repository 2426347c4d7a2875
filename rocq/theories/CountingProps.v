(** * C83: the counters of allocated bytes

    Statements about Counting.v.  [W] is the number of values of [std::size_t];
    nothing but that it is positive is used. *)
From Coq Require Import List ZArith Lia Bool Arith.
From Verif Require Import Base ListAux Counting CountingProofs.
Import ListNotations.
Open Scope Z_scope.

(** Every counter shows what it started with plus the bytes that containers hold
    from its allocators, after any program that behaves ([fair]), however many
    copies of the counter and of the allocators there are. *)
Theorem C83_counts : forall W dealloc l w i x,
  0 < W ->
  along W dealloc fair start l ->
  runs W dealloc start l = Ok w ->
  nth_error (cells w) i = Some x ->
  x = (nth i (inits l) 0 + held i (live w)) mod W.
Proof.
  intros W dealloc l w i x HW HA H Hx.
  destruct (runs_inv W dealloc HW l start w [] start_shape (start_inv W) HA H) as [_ [_ HI]].
  rewrite (HI i x Hx). cbn [app]. unfold zero. f_equal. lia.
Qed.
Print Assumptions C83_counts.

(** When all goes back, every counter is where it started. *)
Theorem C83_empty : forall W dealloc l w i x,
  0 < W ->
  along W dealloc fair start l ->
  runs W dealloc start l = Ok w -> live w = [] ->
  nth_error (cells w) i = Some x ->
  x = nth i (inits l) 0 mod W.
Proof.
  intros W dealloc l w i x HW HA H HL Hx.
  rewrite (C83_counts W dealloc l w i x HW HA H Hx), HL. f_equal. unfold held. cbn. lia.
Qed.
Print Assumptions C83_empty.

(** Containers that swap their memory give blocks back through the allocator of
    another counter: the sum of all counters is still right. *)
Theorem C83_total : forall W dealloc l w,
  0 < W ->
  along W dealloc loose start l ->
  runs W dealloc start l = Ok w ->
  zsum (cells w) mod W = (zsum (inits l) + all_held (live w)) mod W.
Proof.
  intros W dealloc l w HW HA H.
  pose proof (runs_tot W dealloc HW l start w [] start_shape (start_tot W) HA H) as HT.
  unfold tot in HT. rewrite HT. cbn [app]. f_equal. lia.
Qed.
Print Assumptions C83_total.

(** A copy of an allocator, also for another value type, shows the same number
    as the original after whatever happens next. *)
Theorem C83_shared : forall W dealloc w a size w1 l w2 x y,
  0 < W -> shape w ->
  step W dealloc w (Rebind a size) = Ok w1 ->
  runs W dealloc w1 l = Ok w2 ->
  nth_error (allocs w2) a = Some x ->
  nth_error (allocs w2) (length (allocs w)) = Some y ->
  a_size y = size /\ bytes_of w2 (a_ptr x) = bytes_of w2 (a_ptr y).
Proof.
  intros W dealloc w a size w1 l w2 x y HW SH H HR Hx Hy.
  destruct (step_good W dealloc HW w _ w1 SH H) as (S1 & _).
  destruct (runs_allocs W dealloc HW l w1 w2 S1 HR) as (m & Em).
  cbn [step] in H. unfold with_alloc in H. destruct (nth_error (allocs w) a) as [z|] eqn:Ea; [|discriminate H].
  injection H as <-. cbn [push_alloc allocs] in Em. rewrite Em in Hx, Hy.
  rewrite <- app_assoc in Hx, Hy. cbn [app] in Hx, Hy.
  rewrite nth_error_app1 in Hx by (apply nth_error_Some; rewrite Ea; discriminate).
  rewrite nth_error_app2, Nat.sub_diag in Hy by lia. cbn in Hy. injection Hy as <-.
  rewrite Ea in Hx. injection Hx as <-. auto.
Qed.
Print Assumptions C83_shared.

(** The worlds programs reach have the shape asked for above. *)
Theorem C83_shape : forall W dealloc l w,
  0 < W -> runs W dealloc start l = Ok w -> shape w.
Proof. intros W dealloc l w HW H. exact (runs_shape W dealloc HW l start w start_shape H). Qed.
Print Assumptions C83_shape.

(** A refused request hands out nothing, changes no other counter, and leaves
    its own counter raised by the bytes it never got. *)
Theorem C83_refused : forall W dealloc w a n w1,
  0 < W -> shape w ->
  step W dealloc w (Allocate a n false) = Throw w1 ->
  live w1 = live w /\
  exists x j c, nth_error (allocs w) a = Some x /\ a_ptr x = Some j /\
    nth_error (cells w) j = Some c /\
    cells w1 = firstn j (cells w) ++ [(c + n * a_size x) mod W] ++ skipn (S j) (cells w).
Proof.
  intros W dealloc w a n w1 HW SH H.
  destruct (step_throw W dealloc w _ w1 H SH) as (_ & HL & _). split; [exact HL|].
  cbn [step] in H. unfold with_alloc in H. destruct (nth_error (allocs w) a) as [x|] eqn:Ea; [|discriminate H].
  apply request_throw in H. destruct H as [_ H]. apply at_ptr_ok in H. destruct H as (j & c & Ep & Ec & ->).
  exists x, j, c. split; [reflexivity|]. split; [exact Ep|]. split; [exact Ec|]. cbn [cells].
  fold (c_add W c (n * a_size x)). set (v := c_add W c (n * a_size x)). clearbody v.
  clear - Ec. revert j Ec. induction (cells w) as [|z t IH]; intros [|j] Ec; try discriminate Ec; [reflexivity|].
  cbn. f_equal. exact (IH j Ec).
Qed.
Print Assumptions C83_refused.

(** Allocators that give memory back keep none; those of the "fast" mapped files
    never give any back, so what the segment has handed out never shrinks. *)
Theorem C83_given_back : forall W l w,
  0 < W -> runs W true start l = Ok w -> kept w = 0.
Proof. intros W l w HW H. rewrite (runs_kept W true HW l start w start_shape H eq_refl). reflexivity. Qed.
Print Assumptions C83_given_back.

Theorem C83_segment : forall W l l' w w',
  0 < W -> Forall sane (l ++ l') ->
  runs W false start l = Ok w -> runs W false w l' = Ok w' ->
  0 <= all_held (live w) + kept w <= all_held (live w') + kept w'.
Proof.
  intros W l l' w w' HW HF H H'. apply Forall_app in HF. destruct HF as [HF HF'].
  assert (Z0 : sizes_ok start) by (intros x []).
  pose proof (runs_segment W false HW l start w start_shape Z0 HF H eq_refl) as G.
  pose proof (runs_shape W false HW l start w start_shape H) as SH.
  assert (Hz : sizes_ok w).
  { clear - HF H HW. revert H. generalize start_shape. assert (Z0 : sizes_ok start) by (intros x []). revert Z0.
    generalize start. induction l as [|o t IH]; intros w0 Z0 SH H.
    - cbn in H. injection H as <-. exact Z0.
    - pose proof (Forall_inv HF) as Hs. pose proof (Forall_inv_tail HF) as HF'. cbn [runs] in H.
      destruct (step W false w0 o) as [w1|w1| |] eqn:E; try discriminate H.
      + destruct (step_good W false HW w0 o w1 SH E) as (S1 & (m & Em & Pm) & _).
        apply (IH HF' w1); [|exact S1|exact H]. intros x Hx. rewrite Em in Hx. apply in_app_or in Hx.
        destruct Hx as [Hx|Hx]; [exact (Z0 x Hx)|exact (Pm Hs x Hx)].
      + destruct (step_throw W false w0 o w1 E SH) as (S1 & _ & A1 & _).
        apply (IH HF' w1); [|exact S1|exact H]. unfold sizes_ok. rewrite A1. exact Z0. }
  pose proof (runs_segment W false HW l' w w' SH Hz HF' H' eq_refl) as G'. cbn in G. lia.
Qed.
Print Assumptions C83_segment.

(** A counter that has been moved from must not be used. *)
Theorem C83_moved : forall W dealloc w h w1,
  step W dealloc w (MoveCounter h) = Ok w1 ->
  (exists p, nth_error (counters w) h = Some p /\ nth_error (counters w1) (length (counters w)) = Some p) /\
  nth_error (counters w1) h = Some None /\
  (forall n, step W dealloc w1 (Reset h n) = UB) /\
  (forall size n ok,
     runs W dealloc w1 [CounterAlloc h size; Allocate (length (allocs w1)) n ok] = UB).
Proof.
  intros W dealloc w h w1 H. cbn [step] in H. unfold with_counter in H.
  destruct (nth_error (counters w) h) as [p|] eqn:E; [|discriminate H]. injection H as <-.
  assert (Lh : (h < length (counters w))%nat) by (apply nth_error_Some; rewrite E; discriminate).
  assert (U : nth_error (upd (counters w) h None) h = Some None).
  { clear - Lh. revert h Lh. induction (counters w) as [|z t IH]; intros [|h] L; cbn in *; try lia; [reflexivity|].
    apply IH. lia. }
  assert (N : nth_error (upd (counters w) h None ++ [p]) h = Some None)
    by (rewrite nth_error_app1 by (rewrite upd_length; exact Lh); exact U).
  split.
  - exists p. split; [reflexivity|]. cbn [push_counter set_counter counters].
    rewrite nth_error_app2 by (rewrite upd_length; lia). rewrite upd_length, Nat.sub_diag. reflexivity.
  - split; [exact N|]. split.
    + intros n. cbn [step]. unfold with_counter. cbn [push_counter set_counter counters]. rewrite N. reflexivity.
    + intros size n ok. cbn [runs step]. unfold with_counter. cbn [push_counter set_counter counters allocs].
      rewrite N. unfold with_alloc. cbn [push_alloc allocs push_counter set_counter].
      rewrite nth_error_app2, Nat.sub_diag by lia. reflexivity.
Qed.
Print Assumptions C83_moved.

(** ** Threads *)

(** The thread safe counter: whatever the order in which the threads run, when
    all are done the number is what the changes add up to. *)
Theorem C83_threads : forall W cell ts s c ts',
  0 < W -> 0 <= cell < W ->
  schedule (atomic_step W) cell ts s = (c, ts') ->
  (forall t, In t ts' -> t = []) ->
  c = (cell + zsum (map amounts ts)) mod W.
Proof.
  intros W cell ts s c ts' HW HC H HD. destruct (schedule_atomic W HW s cell ts c ts' H) as [E R].
  rewrite <- E. replace (zsum (map amounts ts')) with 0.
  - rewrite Z.add_0_r. symmetry. apply Z.mod_small. exact (R HC).
  - clear - HD. induction ts' as [|t r IH]; [reflexivity|]. cbn. rewrite (HD t (or_introl eq_refl)). cbn.
    apply IH. intros u Hu. apply HD. right. exact Hu.
Qed.
Print Assumptions C83_threads.

(** The plain counter is as good while one thread uses it. *)
Theorem C83_alone : forall W cell l s c t',
  0 < W -> 0 <= cell < W ->
  schedule (thread_step W) cell [{| todo := l; seen := None |}] s = (c, [t']) ->
  todo t' = [] ->
  c = (cell + amounts l) mod W.
Proof.
  intros W cell l s c t' HW HC H HD.
  assert (HO : owed cell {| todo := l; seen := None |}) by (left; reflexivity).
  destruct (schedule_alone W HW s cell _ c _ HO H) as (t & Et & _ & E & R).
  injection Et as <-. rewrite HD in E. unfold amounts at 1 in E. cbn [map zsum todo] in E. rewrite <- E, Z.add_0_r.
  symmetry. apply Z.mod_small. exact (R HC).
Qed.
Print Assumptions C83_alone.

(** Two threads that take memory and give it all back can leave the plain
    counter wrong. *)
Theorem C83_plain_refuted : exists W cell l l' s c t t',
  0 < W /\ 0 <= cell < W /\ amounts l = 0 /\ amounts l' = 0 /\
  schedule (thread_step W) cell [{| todo := l; seen := None |}; {| todo := l'; seen := None |}] s = (c, [t; t']) /\
  todo t = [] /\ todo t' = [] /\ c <> cell.
Proof.
  exists 1000, 0, [AAdd 8; ASub 8], [AAdd 24; ASub 24], [0; 1; 0; 1; 0; 0; 1; 1]%nat, 992,
    {| todo := []; seen := None |}, {| todo := []; seen := None |}.
  vm_compute. repeat split; try reflexivity; try (intros E; discriminate E).
Qed.
Print Assumptions C83_plain_refuted.

(** ** What makes the counters wrong *)

(** The program gives back all it got, one request was refused: the counter
    still shows the refused bytes. *)
Theorem C83_refused_refuted : exists W l w x,
  0 < W /\ runs W true start l = Ok w /\ live w = [] /\ cells w = [x] /\ inits l = [0] /\ x <> 0.
Proof.
  exists 1000, [DefaultAlloc 8; Allocate 0 5 true; Allocate 0 10 false; Deallocate 0 0 5], 
    {| cells := [80]; counters := []; allocs := [{| a_ptr := Some 0%nat; a_size := 8 |}]; live := []; kept := 0; next := 1 |}, 80.
  vm_compute. repeat split; try reflexivity; intros E; discriminate E.
Qed.
Print Assumptions C83_refused_refuted.

(** Two containers with counters of their own swap their memory (allocators of
    this kind always compare equal, counting_allocator.hpp:34): one counter falls
    below zero and wraps around. *)
Theorem C83_swap_refuted : exists W l w x y,
  0 < W /\ along W true loose start l /\ runs W true start l = Ok w /\ live w = [] /\
  cells w = [x; y] /\ inits l = [0; 0] /\ x = 800 /\ y = W - 800.
Proof.
  exists 1000, [DefaultAlloc 8; DefaultAlloc 8; Allocate 0 100 true; Deallocate 1 0 100],
    {| cells := [800; 200]; counters := [];
       allocs := [{| a_ptr := Some 0%nat; a_size := 8 |}; {| a_ptr := Some 1%nat; a_size := 8 |}];
       live := []; kept := 0; next := 1 |}, 800, 200.
  split; [lia|]. split.
  - cbn [along loose]. repeat (split; [trivial|]; intros w1 [E|E]; [|discriminate E]; injection E as <-); exact I.
  - vm_compute. repeat split; reflexivity.
Qed.
Print Assumptions C83_swap_refuted.

(** A chain of blocks of three elements each is counted in full and discounted
    as one element per block. *)
Theorem C83_many_refuted : exists W l w x,
  0 < W /\ runs W true start l = Ok w /\ live w = [] /\ cells w = [x] /\ inits l = [0] /\ x <> 0.
Proof.
  exists 1000, [DefaultAlloc 8; AllocateMany 0 3 2 true; DeallocateMany 0 [0; 1]%nat],
    {| cells := [32]; counters := []; allocs := [{| a_ptr := Some 0%nat; a_size := 8 |}]; live := []; kept := 0; next := 2 |}, 32.
  vm_compute. repeat split; try reflexivity; intros E; discriminate E.
Qed.
Print Assumptions C83_many_refuted.

(** Expanding a block in place is not counted, giving it back is. *)
Theorem C83_command_refuted : exists W l w x,
  0 < W /\ runs W true start l = Ok w /\ live w = [] /\ cells w = [x] /\ inits l = [0] /\ x = W - 40.
Proof.
  exists 1000, [DefaultAlloc 8; Allocate 0 5 true; Command 0 0 10 true; Deallocate 0 0 10],
    {| cells := [960]; counters := []; allocs := [{| a_ptr := Some 0%nat; a_size := 8 |}]; live := []; kept := 0; next := 1 |}, 960.
  vm_compute. repeat split; reflexivity.
Qed.
Print Assumptions C83_command_refuted.

(** ** Examples *)

(** One counter, an allocator of it, a copy for another type; blocks of both. *)
Definition ex_prog : list op :=
  [NewCounter 7; CounterAlloc 0 8; Rebind 0 24; DefaultAlloc 4;
   Allocate 0 10 true; Allocate 1 3 true; AllocateOne 2 true; AllocateIndividual 1 2 true;
   AllocateList 0 [1; 4]%nat true; Deallocate 1 1 3; DeallocateMany 1 [3; 4]%nat; DeallocateOne 2 2].

Definition ex_end : world :=
  {| cells := [127; 0]; counters := [Some 0%nat];
     allocs := [{| a_ptr := Some 0%nat; a_size := 8 |}; {| a_ptr := Some 0%nat; a_size := 24 |};
                {| a_ptr := Some 1%nat; a_size := 4 |}];
     live := [{| b_id := 0; b_bytes := 80; b_from := 0 |}; {| b_id := 5; b_bytes := 8; b_from := 0 |};
              {| b_id := 6; b_bytes := 32; b_from := 0 |}];
     kept := 0; next := 7 |}.

Example ex_runs : runs 1000 true start ex_prog = Ok ex_end.
Proof. reflexivity. Qed.

Example ex_fair : along 1000 true fair start ex_prog.
Proof.
  unfold ex_prog. cbn [along].
  repeat (split; [cbn [fair];
    try exact I; try reflexivity;
    intros y Hy Hb; vm_compute in Hy; repeat (destruct Hy as [<-|Hy]; [vm_compute in Hb; vm_compute; intuition congruence|]); destruct Hy
    |]; intros ?w1 [E|E]; [|discriminate E]; injection E as <-); exact I.
Qed.

Example ex_counts : nth_error (cells ex_end) 0 = Some 127 /\
  127 = (nth 0 (inits ex_prog) 0 + held 0 (live ex_end)) mod 1000 /\ held 0 (live ex_end) = 120.
Proof.
  split; [reflexivity|]. split; [|reflexivity].
  exact (C83_counts 1000 true ex_prog ex_end 0 127 eq_refl ex_fair ex_runs eq_refl).
Qed.

Example ex_shared : bytes_of ex_end (Some 0%nat) = Ok 127.
Proof. reflexivity. Qed.

(** The same with the allocators that give nothing back: the counter is the same,
    the segment keeps the bytes. *)
Example ex_segment : exists w, runs 1000 false start ex_prog = Ok w /\
  cells w = cells ex_end /\ live w = live ex_end /\ kept w = 124.
Proof. eexists. vm_compute. repeat split; reflexivity. Qed.

Example ex_threads :
  schedule (atomic_step 1000) 5 [[AAdd 8; ASub 8]; [AAdd 24]] [1; 0; 0]%nat = (29, [[]; []]).
Proof. reflexivity. Qed.

(** ** Counters as values *)
(** the number a counter shows *)
Definition shown (w : world) (h : nat) : outcome Z :=
  match nth_error (counters w) h with None => UB | Some p => bytes_of w p end.
Lemma upd_get : forall A (l : list A) i v j, (i < length l)%nat ->
  nth_error (upd l i v) j = if Nat.eqb j i then Some v else nth_error l j.
Proof.
  induction l as [|y t IH]; intros i v j H; [cbn in H; lia|]. destruct i, j; cbn; try reflexivity. apply IH. cbn in H. lia.
Qed.
Lemma shown_set : forall w h p k, (h < length (counters w))%nat ->
  shown (set_counter w h p) k = if Nat.eqb k h then bytes_of w p else shown w k.
Proof.
  intros w h p k H. unfold shown, set_counter. cbn [counters]. rewrite (upd_get _ _ h p k H). destruct (Nat.eqb k h); reflexivity.
Qed.
(** An assigned counter shows the number of the other one, nothing else changes. *)
Theorem C83_assign : forall W dealloc w h h' w1, step W dealloc w (AssignCounter h h') = Ok w1 ->
  forall k, shown w1 k = shown w (if Nat.eqb k h then h' else k).
Proof.
  intros W dealloc w h h' w1 H k. cbn in H. unfold with_counter in H.
  destruct (nth_error (counters w) h) as [q|] eqn:Eh; [|discriminate]. destruct (nth_error (counters w) h') as [p|] eqn:Eh'; [|discriminate].
  assert (L : (h < length (counters w))%nat) by (apply nth_error_Some; congruence).
  destruct (Nat.eqb h h') eqn:E; injection H as <-.
  - apply Nat.eqb_eq in E. subst h'. destruct (Nat.eqb k h) eqn:Ek; [apply Nat.eqb_eq in Ek; subst k|]; reflexivity.
  - rewrite shown_set by exact L. destruct (Nat.eqb k h); [|reflexivity]. unfold shown. rewrite Eh'. reflexivity.
Qed.
Print Assumptions C83_assign.
(** So does one assigned by moving; the other one is left empty, unless it is the same. *)
Theorem C83_move_assign : forall W dealloc w h h' w1, step W dealloc w (MoveAssignCounter h h') = Ok w1 ->
  (h = h' -> w1 = w) /\ (h <> h' -> nth_error (counters w1) h' = Some None)
  /\ forall k, h = h' \/ k <> h' -> shown w1 k = shown w (if Nat.eqb k h then h' else k).
Proof.
  intros W dealloc w h h' w1 H. cbn in H. unfold with_counter in H.
  destruct (nth_error (counters w) h) as [q|] eqn:Eh; [|discriminate]. destruct (nth_error (counters w) h') as [p|] eqn:Eh'; [|discriminate].
  assert (L : (h < length (counters w))%nat) by (apply nth_error_Some; congruence). assert (L' : (h' < length (counters w))%nat) by (apply nth_error_Some; congruence).
  destruct (Nat.eqb h h') eqn:E; injection H as <-.
  - apply Nat.eqb_eq in E. subst h'. repeat split; [congruence|]. intros k _. destruct (Nat.eqb k h) eqn:Ek; [apply Nat.eqb_eq in Ek; subst k|]; reflexivity.
  - apply Nat.eqb_neq in E. split; [congruence|]. split.
    + intros _. unfold set_counter. cbn [counters]. rewrite upd_get by (rewrite upd_length; exact L'). rewrite Nat.eqb_refl. reflexivity.
    + intros k [Hk|Hk]; [congruence|]. rewrite shown_set by (unfold set_counter; cbn [counters]; rewrite upd_length; exact L').
      apply Nat.eqb_neq in Hk. rewrite Hk. rewrite shown_set by exact L. destruct (Nat.eqb k h); [|reflexivity]. unfold shown. rewrite Eh'. reflexivity.
Qed.
Print Assumptions C83_move_assign.
(** A counter that is set shows the new number, and so do the counters that share it; the others show what they did. *)
Theorem C83_reset : forall W dealloc w h n w1 p, step W dealloc w (Reset h n) = Ok w1 -> nth_error (counters w) h = Some p ->
  forall k q, nth_error (counters w) k = Some q -> (q = p -> shown w1 k = Ok (n mod W)) /\ (q <> p -> shown w1 k = shown w k).
Proof.
  intros W dealloc w h n w1 p H Hp k q Hq. cbn in H. unfold with_counter in H. rewrite Hp in H. unfold at_ptr in H.
  destruct p as [i|]; [|discriminate]. destruct (nth_error (cells w) i) as [x|] eqn:Ei; [|discriminate].
  assert (L : (i < length (cells w))%nat) by (apply nth_error_Some; congruence). injection H as <-.
  unfold shown. cbn [counters]. rewrite Hq. unfold bytes_of. cbn [cells]. split.
  - intros ->. rewrite upd_get by exact L. rewrite Nat.eqb_refl. reflexivity.
  - intros N. destruct q as [j|]; [|reflexivity]. rewrite upd_get by exact L. destruct (Nat.eqb j i) eqn:E; [|reflexivity].
    apply Nat.eqb_eq in E. congruence.
Qed.
Print Assumptions C83_reset.
(** two counters, a copy of the first, the copy assigned from the second, then the second set *)
Example ex_assign : exists w, runs 1000 true start [NewCounter 3; NewCounter 5; CopyCounter 0; AssignCounter 2 1; Reset 1 9; MoveAssignCounter 0 1] = Ok w
  /\ map (shown w) [0; 1; 2]%nat = [Ok 9; UB; Ok 9].
Proof. eexists. vm_compute. split; reflexivity. Qed.
