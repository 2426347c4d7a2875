(** Proofs about the counters of allocated bytes (Counting.v). *)
From Coq Require Import List ZArith Lia Bool Arith.
From Verif Require Import Base ListAux Counting.
Import ListNotations.
Open Scope Z_scope.

(** Bytes that containers hold, in all and of one counter. *)
Fixpoint zsum (l : list Z) : Z :=
  match l with [] => 0 | x :: t => x + zsum t end.
Definition all_held (l : list block) : Z := zsum (map b_bytes l).
Definition held (i : nat) (l : list block) : Z :=
  zsum (map b_bytes (filter (fun b => Nat.eqb (b_from b) i) l)).

(** The numbers the counters of a program start with, in the order in which they
    are made. *)
Definition inits (l : list op) : list Z :=
  flat_map (fun o => match o with NewCounter n => [n] | DefaultAlloc _ => [0] | _ => [] end) l.

(** What a program must do for the counters to be right: it does not overwrite
    them, no request is refused, a block goes back through an allocator of the
    counter it came from, chains have blocks of one element, and expanding in
    place does not happen. *)
Definition ptr_of (w : world) (a : nat) : option nat :=
  match nth_error (allocs w) a with Some x => a_ptr x | None => None end.
Definition size_of (w : world) (a : nat) : Z :=
  match nth_error (allocs w) a with Some x => a_size x | None => 0 end.

Definition fair (w : world) (o : op) : Prop :=
  match o with
  | Reset _ _ => False
  | Allocate _ _ ok | AllocateOne _ ok | AllocateMany _ _ _ ok | AllocateList _ _ ok
  | AllocateIndividual _ _ ok => ok = true
  | Deallocate a b _ | DeallocateOne a b =>
      forall y, In y (live w) -> b_id y = b -> ptr_of w a = Some (b_from y)
  | DeallocateMany a chain =>
      forall y, In y (live w) -> In (b_id y) chain ->
        ptr_of w a = Some (b_from y) /\ b_bytes y = size_of w a
  | Command _ _ _ ok => ok = false
  | _ => True
  end.

(** The same without the demand that a block goes back to its own counter. *)
Definition loose (w : world) (o : op) : Prop :=
  match o with
  | Reset _ _ => False
  | Allocate _ _ ok | AllocateOne _ ok | AllocateMany _ _ _ ok | AllocateList _ _ ok
  | AllocateIndividual _ _ ok => ok = true
  | DeallocateMany a chain =>
      forall y, In y (live w) -> In (b_id y) chain -> b_bytes y = size_of w a
  | Command _ _ _ ok => ok = false
  | _ => True
  end.

Section P.
Variable W : Z.
Variable dealloc : bool.
Hypothesis HW : 0 < W.

Notation step := (step W dealloc).
Notation runs := (runs W dealloc).

Fixpoint along (P : world -> op -> Prop) (w : world) (l : list op) : Prop :=
  match l with
  | [] => True
  | o :: t =>
      P w o /\ forall w1, (step w o = Ok w1 \/ step w o = Throw w1) -> along P w1 t
  end.

(** *** Lists *)
Lemma zsum_app : forall l l', zsum (l ++ l') = zsum l + zsum l'.
Proof. induction l as [|x t IH]; intros l'; cbn; [reflexivity|]. rewrite IH. lia. Qed.

Lemma upd_nth : forall A (l : list A) i v j x,
  nth_error (upd l i v) j = Some x ->
  (j = i /\ x = v /\ (i < length l)%nat) \/ (j <> i /\ nth_error l j = Some x).
Proof.
  induction l as [|y t IH]; intros i v j x H.
  - destruct i, j; discriminate H.
  - destruct i, j; cbn in H.
    + left. injection H as <-. cbn. split; [reflexivity|split; [reflexivity|lia]].
    + right. split; [lia|exact H].
    + right. split; [lia|exact H].
    + destruct (IH _ _ _ _ H) as [(E & E' & L)|(E & E')].
      * left. cbn. repeat split; [lia|exact E'|lia].
      * right. split; [lia|exact E'].
Qed.

Lemma upd_length : forall A (l : list A) i v, length (upd l i v) = length l.
Proof. induction l as [|y t IH]; intros [|i] v; cbn; [reflexivity..|now rewrite IH]. Qed.

Lemma zsum_upd : forall l i x v,
  nth_error l i = Some x -> zsum (upd l i v) = zsum l - x + v.
Proof.
  induction l as [|y t IH]; intros i x v H; destruct i; try discriminate H; cbn in *.
  - injection H as ->. lia.
  - rewrite (IH _ _ v H). lia.
Qed.

Lemma held_app : forall i l l', held i (l ++ l') = held i l + held i l'.
Proof. intros. unfold held. rewrite filter_app, map_app, zsum_app. reflexivity. Qed.

Lemma all_held_app : forall l l', all_held (l ++ l') = all_held l + all_held l'.
Proof. intros. unfold all_held. rewrite map_app, zsum_app. reflexivity. Qed.

Definition without (b : nat) (l : list block) : list block :=
  filter (fun y => negb (Nat.eqb (b_id y) b)) l.

Lemma without_absent : forall b l, (forall y, In y l -> b_id y <> b) -> without b l = l.
Proof.
  induction l as [|y t IH]; intros H; [reflexivity|]. cbn.
  destruct (Nat.eqb_spec (b_id y) b) as [E|E]; [destruct (H y (or_introl eq_refl) E)|]. cbn.
  f_equal. apply IH. intros z Hz. apply H. right. exact Hz.
Qed.

Lemma without_held : forall b l y,
  NoDup (map b_id l) -> In y l -> b_id y = b ->
  (forall i, held i (without b l) = held i l - (if Nat.eqb (b_from y) i then b_bytes y else 0)) /\
  all_held (without b l) = all_held l - b_bytes y.
Proof.
  induction l as [|z t IH]; intros y ND Hy E; [destruct Hy|].
  inversion ND as [|u v Hn ND' E1]; subst. destruct Hy as [->|Hy].
  - cbn [without filter]. rewrite Nat.eqb_refl. cbn [negb].
    fold (without (b_id y) t). rewrite without_absent.
    + split; [|unfold all_held; cbn; lia].
      intros i. unfold held. cbn. destruct (Nat.eqb (b_from y) i); cbn; lia.
    + intros z Hz E. apply Hn. rewrite <- E. apply in_map. exact Hz.
  - cbn [without filter]. destruct (Nat.eqb_spec (b_id z) (b_id y)) as [E|E].
    + exfalso. apply Hn. rewrite E. apply in_map. exact Hy.
    + cbn [negb]. fold (without (b_id y) t). destruct (IH y ND' Hy eq_refl) as [H1 H2]. split.
      * intros i. specialize (H1 i). unfold held in *. cbn.
        destruct (Nat.eqb (b_from z) i); cbn; lia.
      * unfold all_held in *. cbn. lia.
Qed.

Lemma find_block_some : forall w b y,
  find_block w b = Some y -> In y (live w) /\ b_id y = b.
Proof.
  intros w b y H. unfold find_block in H. apply find_some in H. destruct H as [H E].
  apply Nat.eqb_eq in E. auto.
Qed.

(** *** Shape of the worlds *)
Record shape (w : world) : Prop := {
  sh_nodup : NoDup (map b_id (live w));
  sh_next : forall y, In y (live w) -> (b_id y < next w)%nat;
  sh_from : forall y, In y (live w) -> (b_from y < length (cells w))%nat
}.

(** [inv D]: every number is what it started with plus the bytes held, plus [D]. *)
Definition inv (base : list Z) (D : nat -> Z) (w : world) : Prop :=
  length base = length (cells w) /\
  forall i x, nth_error (cells w) i = Some x ->
    x = (nth i base 0 + held i (live w) + D i) mod W.

Definition tot (base : list Z) (d : Z) (w : world) : Prop :=
  zsum (cells w) mod W = (zsum base + all_held (live w) + d) mod W.

Lemma at_ptr_ok : forall w p f w1,
  at_ptr w p f = Ok w1 ->
  exists i x, p = Some i /\ nth_error (cells w) i = Some x /\
    w1 = {| cells := upd (cells w) i (f x); counters := counters w; allocs := allocs w;
            live := live w; kept := kept w; next := next w |}.
Proof.
  intros w p f w1 H. destruct p as [i|]; [|discriminate H]. cbn in H.
  destruct (nth_error (cells w) i) as [x|] eqn:E; [|discriminate H].
  injection H as <-. exists i, x. auto.
Qed.

Lemma at_ptr_throw : forall w p f w1, at_ptr w p f = Throw w1 -> False.
Proof.
  intros w p f w1 H. destruct p as [i|]; [|discriminate H]. cbn in H.
  destruct (nth_error (cells w) i); discriminate H.
Qed.

Definition bump (D : nat -> Z) (j : nat) (n : Z) : nat -> Z :=
  fun i => D i + if Nat.eqb i j then n else 0.

(** One change of a number. *)
Lemma change_ok : forall w p n w1 (up : bool),
  (if up then add W w p n else sub W w p n) = Ok w1 ->
  exists j, p = Some j /\ (j < length (cells w))%nat /\
    live w1 = live w /\ allocs w1 = allocs w /\ counters w1 = counters w /\ next w1 = next w /\ kept w1 = kept w /\
    length (cells w1) = length (cells w) /\
    (shape w -> shape w1) /\
    (forall base D, inv base D w -> inv base (bump D j (if up then n else - n)) w1) /\
    (forall base d, tot base d w -> tot base (d + if up then n else - n) w1).
Proof.
  intros w p n w1 up H.
  assert (HA : at_ptr w p (fun x => if up then c_add W x n else c_sub W x n) = Ok w1)
    by (destruct up; exact H).
  apply at_ptr_ok in HA. destruct HA as (j & x & -> & E & ->). exists j.
  assert (Lj : (j < length (cells w))%nat) by (apply nth_error_Some; rewrite E; discriminate).
  cbn [cells live allocs counters next kept]. rewrite upd_length.
  split; [reflexivity|]. split; [exact Lj|].
  do 6 (split; [reflexivity|]). split; [|split].
  - intros [A B C]. split; cbn [cells live next]; [exact A|exact B|].
    rewrite upd_length. exact C.
  - intros base D [HL HI]. split; cbn [cells live]; [rewrite upd_length; exact HL|].
    intros i y Hy. unfold bump. apply upd_nth in Hy.
    destruct Hy as [(-> & -> & _)|(Hne & Hy)].
    + rewrite Nat.eqb_refl. rewrite (HI _ _ E). destruct up; unfold c_add, c_sub.
      * rewrite Zplus_mod_idemp_l. f_equal. lia.
      * rewrite Zminus_mod_idemp_l. f_equal. lia.
    + destruct (Nat.eqb_spec i j) as [E'|_]; [contradiction|].
      rewrite (HI _ _ Hy). f_equal. lia.
  - intros base d HT. unfold tot in *. cbn [cells live].
    rewrite (zsum_upd _ _ _ _ E). destruct up; unfold c_add, c_sub.
    + rewrite Zplus_mod, Zmod_mod, <- Zplus_mod.
      replace (zsum (cells w) - x + (x + n)) with (zsum (cells w) + n) by lia.
      rewrite Zplus_mod, HT, <- Zplus_mod. f_equal. lia.
    + rewrite Zplus_mod, Zmod_mod, <- Zplus_mod.
      replace (zsum (cells w) - x + (x - n)) with (zsum (cells w) + - n) by lia.
      rewrite Zplus_mod, HT, <- Zplus_mod. f_equal. lia.
Qed.

Lemma take_many_fields : forall ns w p,
  cells (take_many w p ns) = cells w /\ allocs (take_many w p ns) = allocs w /\
  counters (take_many w p ns) = counters w /\ kept (take_many w p ns) = kept w.
Proof.
  induction ns as [|n t IH]; intros w p; [auto|]. cbn [take_many].
  destruct (IH (take w p n) p) as (A & B & C & D). rewrite A, B, C, D. auto.
Qed.

(** Handing out blocks that are already counted. *)
Lemma take_many_ok : forall ns w j,
  shape w -> (j < length (cells w))%nat ->
  shape (take_many w (Some j) ns) /\
  (forall base D, inv base D w -> inv base (bump D j (- zsum ns)) (take_many w (Some j) ns)) /\
  (forall base d, tot base d w -> tot base (d - zsum ns) (take_many w (Some j) ns)) /\
  all_held (live (take_many w (Some j) ns)) = all_held (live w) + zsum ns.
Proof.
  induction ns as [|n t IH]; intros w j SH Lj; cbn [take_many].
  - split; [exact SH|]. split; [|split].
    + intros base D [A B]. split; [exact A|]. intros i x H. rewrite (B i x H). f_equal.
      unfold bump. cbn. destruct (Nat.eqb i j); lia.
    + intros base d HT. unfold tot in *. rewrite HT. f_equal. cbn. lia.
    + cbn. lia.
  - set (w1 := take w (Some j) n).
    assert (SH1 : shape w1).
    { destruct SH as [A B C]. split; cbn [take live next cells w1].
      - rewrite map_app. cbn. apply NoDup_rev in A. rewrite <- (rev_involutive (map b_id (live w) ++ [next w])).
        apply NoDup_rev. rewrite rev_app_distr. cbn. constructor; [|exact A].
        rewrite <- in_rev. intros Hin. apply in_map_iff in Hin. destruct Hin as (y & E & Hy).
        specialize (B y Hy). lia.
      - intros y Hy. apply in_app_or in Hy. destruct Hy as [Hy|[<-|[]]]; [specialize (B y Hy); lia|cbn; lia].
      - intros y Hy. apply in_app_or in Hy. destruct Hy as [Hy|[<-|[]]]; [exact (C y Hy)|exact Lj]. }
    assert (Lj1 : (j < length (cells w1))%nat) by exact Lj.
    destruct (IH w1 j SH1 Lj1) as (S2 & I2 & T2 & A2).
    split; [exact S2|]. split; [|split].
    + intros base D HI. assert (HI1 : inv base (bump D j (- n)) w1).
      { destruct HI as [HL HI]. split; [exact HL|]. intros i x Hx. cbn [take cells w1] in Hx.
        rewrite (HI i x Hx). cbn [take live w1]. rewrite held_app. f_equal. unfold bump, held at 3. cbn [filter map b_from].
        destruct (Nat.eqb_spec j i) as [->|Hne].
        - rewrite Nat.eqb_refl. cbn. lia.
        - destruct (Nat.eqb_spec i j); [congruence|]. cbn. lia. }
      specialize (I2 base _ HI1). destruct I2 as [L2 I2]. split; [exact L2|].
      intros i x Hx. rewrite (I2 i x Hx). f_equal. unfold bump. cbn. destruct (Nat.eqb i j); lia.
    + intros base d HT. assert (HT1 : tot base (d - n) w1).
      { unfold tot in *. cbn [take cells live w1]. rewrite HT, all_held_app. f_equal. unfold all_held. cbn. lia. }
      specialize (T2 base _ HT1). unfold tot in *. rewrite T2. f_equal. cbn. lia.
    + rewrite A2. cbn [take live w1]. rewrite all_held_app. unfold all_held. cbn. lia.
Qed.

Lemma release_ok : forall w b w1,
  release dealloc w b = Ok w1 -> shape w ->
  exists y, In y (live w) /\ b_id y = b /\ shape w1 /\
    cells w1 = cells w /\ allocs w1 = allocs w /\ counters w1 = counters w /\
    live w1 = without b (live w) /\
    (forall base D, inv base D w -> inv base (bump D (b_from y) (b_bytes y)) w1) /\
    (forall base d, tot base d w -> tot base (d + b_bytes y) w1) /\
    kept w1 = (if dealloc then kept w else kept w + b_bytes y) /\
    all_held (live w1) = all_held (live w) - b_bytes y.
Proof.
  intros w b w1 H SH. unfold release in H. destruct (find_block w b) as [y|] eqn:E; [|discriminate H].
  apply find_block_some in E. destruct E as [Hy Eb]. injection H as <-. exists y.
  cbn [cells live allocs counters kept next].
  destruct (without_held b (live w) y (sh_nodup _ SH) Hy Eb) as [H1 H2].
  split; [exact Hy|]. split; [exact Eb|]. split.
  - destruct SH as [A B C]. split; cbn [live next cells].
    + clear - A. induction (live w) as [|z t IH]; [constructor|]. cbn. inversion A as [|u v Hn A' E1]; subst.
      destruct (negb (Nat.eqb (b_id z) b)); [|exact (IH A')]. cbn. constructor; [|exact (IH A')].
      intros Hin. apply Hn. apply in_map_iff in Hin. destruct Hin as (q & Eq & Hq).
      apply filter_In in Hq. rewrite <- Eq. apply in_map. apply Hq.
    + intros z Hz. apply filter_In in Hz. apply B, Hz.
    + intros z Hz. apply filter_In in Hz. apply C, Hz.
  - do 3 (split; [reflexivity|]). split; [reflexivity|]. split; [|split; [|split]].
    + intros base D [HL HI]. split; [exact HL|]. intros i x Hx. cbn [cells] in Hx. rewrite (HI i x Hx). cbn [live].
      fold (without b (live w)). rewrite H1. f_equal. unfold bump.
      destruct (Nat.eqb_spec (b_from y) i) as [<-|Hne].
      * rewrite Nat.eqb_refl. lia.
      * destruct (Nat.eqb_spec i (b_from y)); [congruence|]. lia.
    + intros base d HT. unfold tot in *. cbn [cells live]. fold (without b (live w)). rewrite HT, H2. f_equal. lia.
    + reflexivity.
    + exact H2.
Qed.

Definition zero : nat -> Z := fun _ => 0.

Lemma inv_ext : forall base D D' w, (forall i, D i = D' i) -> inv base D w -> inv base D' w.
Proof. intros base D D' w E [A B]. split; [exact A|]. intros i x H. rewrite (B i x H), E. reflexivity. Qed.

Lemma tot_ext : forall base d d' w, d = d' -> tot base d w -> tot base d' w.
Proof. intros base d d' w ->. auto. Qed.

(** A request that is served. *)
Lemma request_ok : forall w p counted sizes ok w1,
  request W w p counted sizes ok = Ok w1 -> shape w -> counted = zsum sizes ->
  ok = true /\ shape w1 /\ allocs w1 = allocs w /\ counters w1 = counters w /\ kept w1 = kept w /\
  all_held (live w1) = all_held (live w) + counted /\
  (forall base, inv base zero w -> inv base zero w1) /\
  (forall base, tot base 0 w -> tot base 0 w1).
Proof.
  intros w p counted sizes ok w1 H SH E. unfold request in H.
  destruct (add W w p counted) as [w0|w0| |] eqn:EA; cbn [bindO] in H; try discriminate H.
  destruct ok; [|discriminate H]. injection H as <-.
  destruct (change_ok w p counted w0 true EA)
    as (j & -> & Lj & L0 & A0 & C0 & N0 & K0 & Len & S0 & I0 & T0).
  specialize (S0 SH). rewrite <- Len in Lj.
  destruct (take_many_ok sizes w0 j S0 Lj) as (S1 & I1 & T1 & H1).
  destruct (take_many_fields sizes w0 (Some j)) as (F1 & F2 & F3 & F4).
  split; [reflexivity|]. split; [exact S1|].
  rewrite F2, F3, F4, H1, L0, A0, C0, K0. do 3 (split; [reflexivity|]). split; [lia|]. split.
  - intros base HI. eapply inv_ext; [|exact (I1 base _ (I0 base _ HI))].
    intros i. unfold bump, zero. destruct (Nat.eqb i j); lia.
  - intros base HT. eapply tot_ext; [|exact (T1 base _ (T0 base _ HT))]. cbn. lia.
Qed.

Lemma request_throw : forall w p counted sizes ok w1,
  request W w p counted sizes ok = Throw w1 -> ok = false /\ add W w p counted = Ok w1.
Proof.
  intros w p counted sizes ok w1 H. unfold request in H.
  destruct (add W w p counted) as [w0|w0| |] eqn:EA; cbn [bindO] in H; try discriminate H.
  - destruct ok; [discriminate H|]. injection H as <-. auto.
  - destruct (at_ptr_throw _ _ _ _ EA).
Qed.

Lemma add_each_ok : forall ns w p w1,
  add_each W w p ns = Ok w1 ->
  (ns = [] /\ w1 = w) \/
  exists j, p = Some j /\ (j < length (cells w))%nat /\
    live w1 = live w /\ allocs w1 = allocs w /\ counters w1 = counters w /\ kept w1 = kept w /\
    length (cells w1) = length (cells w) /\
    (shape w -> shape w1) /\
    (forall base D, inv base D w -> inv base (bump D j (zsum ns)) w1) /\
    (forall base d, tot base d w -> tot base (d + zsum ns) w1).
Proof.
  induction ns as [|n t IH]; intros w p w1 H; [left; cbn in H; injection H as <-; auto|]. right.
  cbn [add_each] in H. destruct (add W w p n) as [w0|w0| |] eqn:EA; cbn [bindO] in H; try discriminate H.
  destruct (change_ok w p n w0 true EA)
    as (j & -> & Lj & L0 & A0 & C0 & N0 & K0 & Len & S0 & I0 & T0).
  exists j. split; [reflexivity|]. split; [exact Lj|].
  destruct (IH _ _ _ H) as [(-> & ->)|(j' & E & Lj' & L1 & A1 & C1 & K1 & Len1 & S1 & I1 & T1)].
  - do 5 (split; [assumption|]). split; [exact S0|]. split.
    + intros base D HI. eapply inv_ext; [|exact (I0 base _ HI)]. intros i. unfold bump. cbn.
      destruct (Nat.eqb i j); lia.
    + intros base d HT. eapply tot_ext; [|exact (T0 base _ HT)]. cbn. lia.
  - injection E as <-. rewrite L1, A1, C1, K1, Len1. do 5 (split; [assumption|]).
    split; [intros Hs; exact (S1 (S0 Hs))|]. split.
    + intros base D HI. eapply inv_ext; [|exact (I1 base _ (I0 base _ HI))]. intros i. unfold bump. cbn.
      destruct (Nat.eqb i j); lia.
    + intros base d HT. eapply tot_ext; [|exact (T1 base _ (T0 base _ HT))]. cbn. lia.
Qed.

Lemma add_each_throw : forall ns w p w1, add_each W w p ns = Throw w1 -> False.
Proof.
  induction ns as [|n t IH]; intros w p w1 H; [discriminate H|]. cbn [add_each] in H.
  destruct (add W w p n) as [w0|w0| |] eqn:EA; cbn [bindO] in H; try discriminate H.
  - exact (IH _ _ _ H).
  - exact (at_ptr_throw _ _ _ _ EA).
Qed.

Lemma sub_each_ok : forall chain w p n w1,
  sub_each W w p n chain = Ok w1 ->
  live w1 = live w /\ allocs w1 = allocs w /\ counters w1 = counters w /\ kept w1 = kept w /\
  length (cells w1) = length (cells w) /\
  (shape w -> shape w1) /\
  (forall base D, inv base D w ->
     inv base (fun i => D i - match p with Some j => if Nat.eqb i j then n * Z.of_nat (length chain) else 0 | None => 0 end) w1) /\
  (forall base d, tot base d w -> tot base (d - n * Z.of_nat (length chain)) w1).
Proof.
  induction chain as [|c t IH]; intros w p n w1 H.
  - cbn in H. injection H as <-. do 5 (split; [reflexivity|]). split; [auto|]. split.
    + intros base D HI. eapply inv_ext; [|exact HI]. intros i. cbn.
      destruct p as [j|]; [destruct (Nat.eqb i j)|]; lia.
    + intros base d HT. eapply tot_ext; [|exact HT]. cbn. lia.
  - cbn [sub_each] in H. destruct (sub W w p n) as [w0|w0| |] eqn:EA; cbn [bindO] in H; try discriminate H.
    destruct (change_ok w p n w0 false EA)
      as (j & -> & Lj & L0 & A0 & C0 & N0 & K0 & Len & S0 & I0 & T0).
    destruct (IH _ _ _ _ H) as (L1 & A1 & C1 & K1 & Len1 & S1 & I1 & T1).
    rewrite L1, A1, C1, K1, Len1. do 5 (split; [assumption|]).
    split; [intros Hs; exact (S1 (S0 Hs))|]. cbn [length]. split.
    + intros base D HI. eapply inv_ext; [|exact (I1 base _ (I0 base _ HI))]. intros i. unfold bump.
      destruct (Nat.eqb i j); lia.
    + intros base d HT. eapply tot_ext; [|exact (T1 base _ (T0 base _ HT))]. lia.
Qed.

Lemma sub_each_throw : forall chain w p n w1, sub_each W w p n chain = Throw w1 -> False.
Proof.
  induction chain as [|c t IH]; intros w p n w1 H; [discriminate H|]. cbn [sub_each] in H.
  destruct (sub W w p n) as [w0|w0| |] eqn:EA; cbn [bindO] in H; try discriminate H.
  - exact (IH _ _ _ _ H).
  - exact (at_ptr_throw _ _ _ _ EA).
Qed.

Lemma release_throw : forall w b w1, release dealloc w b = Throw w1 -> False.
Proof. intros w b w1 H. unfold release in H. destruct (find_block w b); discriminate H. Qed.

Lemma release_each_ok : forall chain w w1,
  release_each dealloc w chain = Ok w1 -> shape w ->
  shape w1 /\ allocs w1 = allocs w /\ counters w1 = counters w /\ cells w1 = cells w /\
  (forall n, (forall y, In y (live w) -> In (b_id y) chain -> b_bytes y = n) ->
     (forall base d, tot base d w -> tot base (d + n * Z.of_nat (length chain)) w1) /\
     (forall j, (forall y, In y (live w) -> In (b_id y) chain -> b_from y = j) ->
        forall base D, inv base D w -> inv base (bump D j (n * Z.of_nat (length chain))) w1)) /\
  (dealloc = true -> kept w1 = kept w) /\
  (dealloc = false -> all_held (live w1) + kept w1 = all_held (live w) + kept w).
Proof.
  induction chain as [|c t IH]; intros w w1 H SH.
  - cbn in H. injection H as <-. split; [exact SH|]. do 3 (split; [reflexivity|]). split; [|split; auto].
    intros n _. split.
    + intros base d HT. eapply tot_ext; [|exact HT]. cbn. lia.
    + intros j _ base D HI. eapply inv_ext; [|exact HI]. intros i. unfold bump. cbn. destruct (Nat.eqb i j); lia.
  - cbn [release_each] in H. destruct (release dealloc w c) as [w0|w0| |] eqn:EA; cbn [bindO] in H; try discriminate H.
    destruct (release_ok w c w0 EA SH) as (y & Hy & Eb & S0 & Ce & A0 & C0 & L0 & I0 & T0 & K0 & H0).
    destruct (IH _ _ H S0) as (S1 & A1 & C1 & Ce1 & F1 & K1 & G1).
    split; [exact S1|]. rewrite A1, C1, Ce1. do 3 (split; [assumption|]). split; [|split].
    + intros n Hn. assert (En : b_bytes y = n) by (apply Hn; [exact Hy|left; congruence]).
      assert (Sub : forall z, In z (live w0) -> In z (live w)).
      { intros z Hz. rewrite L0 in Hz. apply filter_In in Hz. apply Hz. }
      destruct (F1 n) as [Ft Fi].
      { intros z Hz Hc. apply Hn; [exact (Sub z Hz)|right; exact Hc]. }
      split.
      * intros base d HT. eapply tot_ext; [|exact (Ft base _ (T0 base _ HT))]. cbn [length]. lia.
      * intros j Hj base D HI. assert (Ej : b_from y = j) by (apply Hj; [exact Hy|left; congruence]).
        eapply inv_ext; [|apply (Fi j); [|exact (I0 base _ HI)]].
        -- intros i. unfold bump. rewrite Ej. cbn [length]. destruct (Nat.eqb i j); lia.
        -- intros z Hz Hc. apply Hj; [exact (Sub z Hz)|right; exact Hc].
    + intros Hd. rewrite (K1 Hd), K0, Hd. reflexivity.
    + intros Hd. rewrite (G1 Hd), K0, H0, Hd. lia.
Qed.

Lemma release_each_throw : forall chain w w1, release_each dealloc w chain = Throw w1 -> False.
Proof.
  induction chain as [|c t IH]; intros w w1 H; [discriminate H|]. cbn [release_each] in H.
  destruct (release dealloc w c) as [w0|w0| |] eqn:EA; cbn [bindO] in H; try discriminate H.
  - exact (IH _ _ H).
  - exact (release_throw _ _ _ EA).
Qed.

(** Giving back one block. *)
Lemma give_back : forall w p n b w1 y,
  bindO (sub W w p n) (fun e => e) (fun w0 => release dealloc w0 b) = Ok w1 -> shape w ->
  find_block w b = Some y -> b_bytes y = n ->
  shape w1 /\ allocs w1 = allocs w /\ counters w1 = counters w /\ length (cells w1) = length (cells w) /\
  (p = Some (b_from y) -> forall base, inv base zero w -> inv base zero w1) /\
  (forall base, tot base 0 w -> tot base 0 w1) /\
  (dealloc = true -> kept w1 = kept w) /\
  (dealloc = false -> all_held (live w1) + kept w1 = all_held (live w) + kept w).
Proof.
  intros w p n b w1 y H SH Ef En.
  destruct (sub W w p n) as [w0|w0| |] eqn:EA; cbn [bindO] in H; try discriminate H.
  destruct (change_ok w p n w0 false EA)
    as (j & -> & Lj & L0 & A0 & C0 & N0 & K0 & Len & S0 & I0 & T0).
  specialize (S0 SH). destruct (release_ok w0 b w1 H S0) as (z & Hz & Eb & S1 & Ce & A1 & C1 & L1 & I1 & T1 & K1 & H1).
  apply find_block_some in Ef. destruct Ef as [Hy Ey].
  assert (z = y) as ->.
  { rewrite L0 in Hz. pose proof (sh_nodup _ SH) as ND. clear - Hz Hy Eb Ey ND.
    induction (live w) as [|u v IH]; [destruct Hy|]. cbn [map] in ND. apply NoDup_cons_iff in ND. destruct ND as [Hn ND'].
    destruct Hz as [->|Hz], Hy as [->|Hy].
    - reflexivity.
    - exfalso. apply Hn. rewrite Eb, <- Ey. apply in_map. exact Hy.
    - exfalso. apply Hn. rewrite Ey, <- Eb. apply in_map. exact Hz.
    - exact (IH Hy Hz ND'). }
  split; [exact S1|]. rewrite A1, C1, Ce. do 3 (split; [assumption|]). split; [|split; [|split]].
  - intros Ej base HI. injection Ej as ->. eapply inv_ext; [|exact (I1 base _ (I0 base _ HI))].
    intros i. unfold bump, zero. destruct (Nat.eqb i (b_from y)); lia.
  - intros base HT. eapply tot_ext; [|exact (T1 base _ (T0 base _ HT))]. lia.
  - intros Hd. rewrite K1, K0, Hd. reflexivity.
  - intros Hd. rewrite K1, H1, L0, K0, Hd. lia.
Qed.

(** Requests for a number of elements that is not negative. *)
Definition sane (o : op) : Prop :=
  match o with
  | DefaultAlloc size | CounterAlloc _ size | Rebind _ size => 0 <= size
  | Allocate _ n _ => 0 <= n
  | Command _ _ _ ok => ok = false
  | _ => True
  end.

Definition sizes_ok (w : world) : Prop := forall x, In x (allocs w) -> 0 <= a_size x.

Lemma zsum_repeat : forall n k, zsum (repeat n k) = n * Z.of_nat k.
Proof. induction k as [|k IH]; [cbn; lia|]. cbn [repeat zsum]. rewrite IH. lia. Qed.

Lemma zsum_nonneg : forall l, (forall x, In x l -> 0 <= x) -> 0 <= zsum l.
Proof.
  induction l as [|x t IH]; intros H; cbn; [lia|].
  pose proof (H x (or_introl eq_refl)). assert (0 <= zsum t) by (apply IH; intros y Hy; apply H; right; exact Hy). lia.
Qed.

Lemma new_cell_inv : forall w base n,
  shape w -> inv base zero w -> inv (base ++ [n]) zero (new_cell w (n mod W)).
Proof.
  intros w base n SH [HL HI]. split; [cbn; rewrite !app_length, HL; reflexivity|].
  intros i x Hx. cbn [new_cell cells live] in *.
  destruct (Nat.lt_ge_cases i (length (cells w))) as [Hi|Hi].
  - rewrite nth_error_app1 in Hx by exact Hi. rewrite (HI i x Hx), app_nth1 by lia. reflexivity.
  - rewrite nth_error_app2 in Hx by exact Hi. rewrite app_nth2 by lia. rewrite HL.
    destruct (i - length (cells w))%nat as [|k] eqn:E; [|destruct k; discriminate Hx].
    cbn in Hx. injection Hx as <-. cbn [nth]. unfold zero.
    replace (held i (live w)) with 0; [f_equal; lia|].
    pose proof (sh_from _ SH) as F. unfold held. clear - F Hi.
    induction (live w) as [|y t IH]; [reflexivity|]. cbn.
    destruct (Nat.eqb_spec (b_from y) i) as [E|E].
    + specialize (F y (or_introl eq_refl)). lia.
    + apply IH. intros z Hz. apply F. right. exact Hz.
Qed.

Lemma new_cell_tot : forall w base n, tot base 0 w -> tot (base ++ [n]) 0 (new_cell w (n mod W)).
Proof.
  intros w base n HT. unfold tot in *. cbn [new_cell cells live]. rewrite !zsum_app. cbn [zsum].
  replace (n mod W + 0) with (n mod W) by lia. rewrite Zplus_mod_idemp_r, Zplus_mod, HT, <- Zplus_mod. f_equal. lia.
Qed.

Lemma new_cell_shape : forall w n, shape w -> shape (new_cell w n).
Proof.
  intros w n [A B C]. split; cbn; [exact A|exact B|]. intros y Hy. specialize (C y Hy). rewrite app_length. lia.
Qed.

(** What one step keeps, in one statement. *)
Definition good (w : world) (o : op) (w1 : world) : Prop :=
  shape w1 /\
  (exists more, allocs w1 = allocs w ++ more /\
     (sane o -> forall x, In x more -> 0 <= a_size x)) /\
  (fair w o -> forall base, inv base zero w -> inv (base ++ inits [o]) zero w1) /\
  (loose w o -> forall base, tot base 0 w -> tot (base ++ inits [o]) 0 w1) /\
  (dealloc = true -> kept w1 = kept w) /\
  (dealloc = false -> sane o -> sizes_ok w ->
     all_held (live w) + kept w <= all_held (live w1) + kept w1).

Lemma same_good : forall w o w1,
  shape w -> cells w1 = cells w -> live w1 = live w -> kept w1 = kept w -> next w1 = next w ->
  inits [o] = [] ->
  (exists more, allocs w1 = allocs w ++ more /\ (sane o -> forall x, In x more -> 0 <= a_size x)) ->
  good w o w1.
Proof.
  intros w o w1 [A B C] E1 E2 E3 E4 E5 E6. split; [|split; [exact E6|]].
  - split; rewrite ?E1, ?E2, ?E4; assumption.
  - rewrite E5, E2, E3. split; [|split; [|split]].
    + intros _ base [HL HI]. rewrite app_nil_r. split; [rewrite E1; exact HL|]. rewrite E1, E2. exact HI.
    + intros _ base HT. rewrite app_nil_r. unfold tot in *. rewrite E1, E2. exact HT.
    + reflexivity.
    + lia.
Qed.

Lemma no_more : forall w o, exists more, allocs w = allocs w ++ more /\ (sane o -> forall x, In x more -> 0 <= a_size x).
Proof. intros w o. exists []. rewrite app_nil_r. split; [reflexivity|]. intros _ x []. Qed.

Lemma request_good : forall w o x counted sizes ok w1,
  shape w -> request W w (a_ptr x) counted sizes ok = Ok w1 -> counted = zsum sizes -> inits [o] = [] ->
  (sane o -> sizes_ok w -> 0 <= counted) -> good w o w1.
Proof.
  intros w o x counted sizes ok w1 SH H E Eo Pos.
  destruct (request_ok _ _ _ _ _ _ H SH E) as (-> & S1 & A1 & C1 & K1 & H1 & I1 & T1).
  split; [exact S1|]. split; [rewrite A1; exact (no_more w _)|]. rewrite Eo, H1, K1. split; [|split; [|split]].
  - intros _ base HI. rewrite app_nil_r. exact (I1 base HI).
  - intros _ base HT. rewrite app_nil_r. exact (T1 base HT).
  - reflexivity.
  - intros _ Hs Hz. specialize (Pos Hs Hz). lia.
Qed.

Lemma step_good : forall w o w1, shape w -> step w o = Ok w1 -> good w o w1.
Proof.
  intros w o w1 SH H. destruct o as [n|h|h|h h'|h h'|h n|size|h size|a size|a n ok|a b n|a ok|a b|a es num ok|a sizes ok|a num ok|a chain|a b n ok];
    cbn [Counting.step] in H; unfold with_counter, with_alloc in H.
  - injection H as <-. split; [|split; [|split; [|split; [|split]]]].
    + destruct (new_cell_shape w (n mod W) SH) as [A B C]. split; assumption.
    + exists []. cbn. rewrite app_nil_r. split; [reflexivity|intros _ x []].
    + intros _ base HI. exact (new_cell_inv w base n SH HI).
    + intros _ base HT. exact (new_cell_tot w base n HT).
    + reflexivity.
    + intros _ _ _. apply Z.le_refl.
  - destruct (nth_error (counters w) h); [|discriminate H]. injection H as <-.
    apply same_good; try reflexivity; [exact SH|exact (no_more w _)].
  - destruct (nth_error (counters w) h); [|discriminate H]. injection H as <-.
    apply same_good; try reflexivity; [exact SH|exact (no_more w _)].
  - destruct (nth_error (counters w) h); [|discriminate H]. destruct (nth_error (counters w) h'); [|discriminate H].
    destruct (Nat.eqb h h'); injection H as <-; apply same_good; try reflexivity; try exact SH; exact (no_more w _).
  - destruct (nth_error (counters w) h); [|discriminate H]. destruct (nth_error (counters w) h'); [|discriminate H].
    destruct (Nat.eqb h h'); injection H as <-; apply same_good; try reflexivity; try exact SH; exact (no_more w _).
  - destruct (nth_error (counters w) h) as [p|]; [|discriminate H].
    apply at_ptr_ok in H. destruct H as (i & x & -> & E & ->). split; [|split; [exact (no_more w _)|split; [|split; [|split]]]].
    + destruct SH as [A B C]. split; cbn; [exact A|exact B|]. rewrite upd_length. exact C.
    + intros [].
    + intros [].
    + reflexivity.
    + intros _ _ _. cbn [live kept new_cell push_counter push_alloc]. lia.
  - injection H as <-. split; [|split; [|split; [|split; [|split]]]].
    + destruct (new_cell_shape w 0 SH) as [A B C]. split; assumption.
    + exists [{| a_ptr := Some (length (cells w)); a_size := size |}]. split; [reflexivity|].
      intros Hs x [<-|[]]. exact Hs.
    + intros _ base HI. pose proof (new_cell_inv w base 0 SH HI) as G. rewrite Z.mod_0_l in G by lia. exact G.
    + intros _ base HT. pose proof (new_cell_tot w base 0 HT) as G. rewrite Z.mod_0_l in G by lia. exact G.
    + reflexivity.
    + intros _ _ _. cbn [live kept new_cell push_counter push_alloc]. lia.
  - destruct (nth_error (counters w) h) as [p|]; [|discriminate H]. injection H as <-.
    apply same_good; try reflexivity; [exact SH|]. exists [{| a_ptr := p; a_size := size |}].
    split; [reflexivity|]. intros Hs x [<-|[]]. exact Hs.
  - destruct (nth_error (allocs w) a) as [x|]; [|discriminate H]. injection H as <-.
    apply same_good; try reflexivity; [exact SH|]. exists [{| a_ptr := a_ptr x; a_size := size |}].
    split; [reflexivity|]. intros Hs y [<-|[]]. exact Hs.
  - destruct (nth_error (allocs w) a) as [x|] eqn:Ea; [|discriminate H].
    eapply request_good; [exact SH|exact H|cbn; lia|reflexivity|].
    intros Hs Hz. cbn in Hs. specialize (Hz x (nth_error_In _ _ Ea)). nia.
  - destruct (nth_error (allocs w) a) as [x|] eqn:Ea; [|discriminate H].
    destruct (find_block w b) as [y|] eqn:Ef; [|discriminate H].
    destruct (Z.eqb_spec (b_bytes y) (n * a_size x)) as [En|]; [|discriminate H].
    destruct (give_back _ _ _ _ _ _ H SH Ef En) as (S1 & A1 & C1 & L1 & I1 & T1 & K1 & G1).
    split; [exact S1|]. split; [rewrite A1; exact (no_more w _)|]. cbn [inits flat_map app]. split; [|split; [|split]].
    + intros HF base HI. rewrite app_nil_r. apply I1; [|exact HI]. cbn [fair] in HF.
      destruct (find_block_some _ _ _ Ef) as [Hy Eb]. specialize (HF y Hy Eb). unfold ptr_of in HF. rewrite Ea in HF. exact HF.
    + intros _ base HT. rewrite app_nil_r. exact (T1 base HT).
    + exact K1.
    + intros Hd _ _. rewrite (G1 Hd). lia.
  - destruct (nth_error (allocs w) a) as [x|] eqn:Ea; [|discriminate H].
    eapply request_good; [exact SH|exact H|cbn; lia|reflexivity|].
    intros Hs Hz. exact (Hz x (nth_error_In _ _ Ea)).
  - destruct (nth_error (allocs w) a) as [x|] eqn:Ea; [|discriminate H].
    destruct (find_block w b) as [y|] eqn:Ef; [|discriminate H].
    destruct (Z.eqb_spec (b_bytes y) (a_size x)) as [En|]; [|discriminate H].
    destruct (give_back _ _ _ _ _ _ H SH Ef En) as (S1 & A1 & C1 & L1 & I1 & T1 & K1 & G1).
    split; [exact S1|]. split; [rewrite A1; exact (no_more w _)|]. cbn [inits flat_map app]. split; [|split; [|split]].
    + intros HF base HI. rewrite app_nil_r. apply I1; [|exact HI]. cbn [fair] in HF.
      destruct (find_block_some _ _ _ Ef) as [Hy Eb]. specialize (HF y Hy Eb). unfold ptr_of in HF. rewrite Ea in HF. exact HF.
    + intros _ base HT. rewrite app_nil_r. exact (T1 base HT).
    + exact K1.
    + intros Hd _ _. rewrite (G1 Hd). lia.
  - destruct (nth_error (allocs w) a) as [x|] eqn:Ea; [|discriminate H].
    eapply request_good; [exact SH|exact H|rewrite zsum_repeat; lia|reflexivity|].
    intros Hs Hz. specialize (Hz x (nth_error_In _ _ Ea)). nia.
  - destruct (nth_error (allocs w) a) as [x|] eqn:Ea; [|discriminate H].
    set (ns := map (fun s => Z.of_nat s * a_size x) sizes) in H.
    destruct (add_each W w (a_ptr x) ns) as [w0|w0| |] eqn:EA; cbn [bindO] in H; try discriminate H.
    destruct ok; [|discriminate H]. injection H as <-.
    destruct (add_each_ok _ _ _ _ EA) as [(En & ->)|(j & Ep & Lj & L0 & A0 & C0 & K0 & Len & S0 & I0 & T0)].
    + rewrite En. cbn [take_many]. apply same_good; try reflexivity; [exact SH|exact (no_more w _)].
    + rewrite Ep. rewrite <- Len in Lj. specialize (S0 SH).
      destruct (take_many_ok ns w0 j S0 Lj) as (S1 & I1 & T1 & H1).
      destruct (take_many_fields ns w0 (Some j)) as (F1 & F2 & F3 & F4).
      split; [exact S1|]. split; [rewrite F2, A0; exact (no_more w _)|]. cbn [inits flat_map app].
      rewrite H1, F4, L0, K0. split; [|split; [|split]].
      * intros _ base HI. rewrite app_nil_r. eapply inv_ext; [|exact (I1 base _ (I0 base _ HI))].
        intros i. unfold bump, zero. destruct (Nat.eqb i j); lia.
      * intros _ base HT. rewrite app_nil_r. eapply tot_ext; [|exact (T1 base _ (T0 base _ HT))]. lia.
      * reflexivity.
      * intros _ _ Hz. specialize (Hz x (nth_error_In _ _ Ea)).
        assert (0 <= zsum ns); [|lia]. apply zsum_nonneg. intros z Hin. apply in_map_iff in Hin.
        destruct Hin as (q & <- & _). nia.
  - destruct (nth_error (allocs w) a) as [x|] eqn:Ea; [|discriminate H].
    eapply request_good; [exact SH|exact H|rewrite zsum_repeat; lia|reflexivity|].
    intros Hs Hz. specialize (Hz x (nth_error_In _ _ Ea)). nia.
  - destruct (nth_error (allocs w) a) as [x|] eqn:Ea; [|discriminate H].
    destruct (sub_each W w (a_ptr x) (a_size x) chain) as [w0|w0| |] eqn:EA; cbn [bindO] in H; try discriminate H.
    destruct (sub_each_ok _ _ _ _ _ EA) as (L0 & A0 & C0 & K0 & Len & S0 & I0 & T0).
    destruct (release_each_ok _ _ _ H (S0 SH)) as (S1 & A1 & C1 & Ce1 & F1 & K1 & G1).
    split; [exact S1|]. split; [rewrite A1, A0; exact (no_more w _)|]. cbn [inits flat_map app].
    split; [|split; [|split]].
    + intros HF base HI. rewrite app_nil_r. cbn [fair] in HF. unfold ptr_of, size_of in HF. rewrite Ea in HF.
      destruct chain as [|c t].
      * cbn in H. injection H as <-. eapply inv_ext; [|exact (I0 base _ HI)]. intros i. unfold zero. cbn.
        destruct (a_ptr x) as [j|]; [destruct (Nat.eqb i j)|]; lia.
      * destruct (F1 (a_size x)) as [_ Fi].
        { rewrite L0. intros y Hy Hc. apply (HF y Hy Hc). }
        assert (Hj : exists j, a_ptr x = Some j).
        { cbn [sub_each] in EA. destruct (sub W w (a_ptr x) (a_size x)) eqn:E2; try discriminate EA.
          destruct (at_ptr_ok _ _ _ _ E2) as (j & ? & -> & _). eexists; reflexivity. }
        destruct Hj as (j & Ej). specialize (Fi j).
        eapply inv_ext; [|apply Fi; [|exact (I0 base _ HI)]].
        -- intros i. unfold bump, zero. rewrite Ej. destruct (Nat.eqb i j); lia.
        -- rewrite L0. intros y Hy Hc. destruct (HF y Hy Hc) as [E _]. congruence.
    + intros HF base HT. rewrite app_nil_r. cbn [loose] in HF. unfold size_of in HF. rewrite Ea in HF.
      destruct (F1 (a_size x)) as [Ft _].
      { rewrite L0. exact HF. }
      eapply tot_ext; [|exact (Ft base _ (T0 base _ HT))]. lia.
    + intros Hd. rewrite (K1 Hd). exact K0.
    + intros Hd _ _. rewrite (G1 Hd), L0, K0. lia.
  - destruct (nth_error (allocs w) a) as [x|] eqn:Ea; [|discriminate H].
    destruct (find_block w b) as [y|] eqn:Ef; [|discriminate H]. destruct ok; [|discriminate H]. injection H as <-.
    split; [|split; [exact (no_more w _)|split; [|split; [|split]]]].
    + set (f := fun z => if Nat.eqb (b_id z) b then {| b_id := b_id z; b_bytes := n * a_size x; b_from := b_from z |} else z).
      assert (Fid : forall z, b_id (f z) = b_id z) by (intros z; unfold f; destruct (Nat.eqb (b_id z) b); reflexivity).
      assert (Ffr : forall z, b_from (f z) = b_from z) by (intros z; unfold f; destruct (Nat.eqb (b_id z) b); reflexivity).
      destruct SH as [A B C]. split; cbn [live next cells].
      * rewrite map_map. erewrite map_ext; [exact A|]. exact Fid.
      * intros z Hz. apply in_map_iff in Hz. destruct Hz as (q & <- & Hq). fold (f q). rewrite Fid. exact (B q Hq).
      * intros z Hz. apply in_map_iff in Hz. destruct Hz as (q & <- & Hq). fold (f q). rewrite Ffr. exact (C q Hq).
    + intros HF. discriminate HF.
    + intros HF. discriminate HF.
    + reflexivity.
    + intros _ Hs. discriminate Hs.
Qed.

(** A step that is left by an exception has only raised the counter. *)
Lemma step_throw : forall w o w1,
  step w o = Throw w1 -> shape w ->
  shape w1 /\ live w1 = live w /\ allocs w1 = allocs w /\ counters w1 = counters w /\ kept w1 = kept w /\
  inits [o] = [] /\ ((fair w o \/ loose w o) -> w1 = w).
Proof.
  intros w o w1 H SH. destruct o as [n|h|h|h h'|h h'|h n|size|h size|a size|a n ok|a b n|a ok|a b|a es num ok|a sizes ok|a num ok|a chain|a b n ok];
    cbn [Counting.step] in H; unfold with_counter, with_alloc in H;
    repeat match type of H with
    | context [match nth_error ?l ?i with _ => _ end] => destruct (nth_error l i); try discriminate H
    | context [match find_block ?l ?i with _ => _ end] => destruct (find_block l i); try discriminate H
    | context [if Nat.eqb ?x ?y then _ else _] => destruct (Nat.eqb x y); try discriminate H
    | context [if Z.eqb ?x ?y then _ else _] => destruct (Z.eqb x y); try discriminate H
    end;
    try discriminate H;
    try (apply request_throw in H; destruct H as [-> EA];
         destruct (change_ok _ _ _ _ true EA) as (j & _ & Lj & L0 & A0 & C0 & N0 & K0 & Len & S0 & _ & _);
         repeat split; try assumption; try reflexivity; try (apply (S0 SH)); intros [F|F]; discriminate F).
  - destruct (at_ptr_throw _ _ _ _ H).
  - destruct (sub W w _ _) as [w0|w0| |] eqn:EA; cbn [bindO] in H; try discriminate H.
    + destruct (release_throw _ _ _ H).
    + destruct (at_ptr_throw _ _ _ _ EA).
  - destruct (sub W w _ _) as [w0|w0| |] eqn:EA; cbn [bindO] in H; try discriminate H.
    + destruct (release_throw _ _ _ H).
    + destruct (at_ptr_throw _ _ _ _ EA).
  - destruct (add_each W w _ _) as [w0|w0| |] eqn:EA; cbn [bindO] in H; try discriminate H.
    + destruct ok; [discriminate H|]. injection H as <-.
      destruct (add_each_ok _ _ _ _ EA) as [(En & ->)|(j & Ep & Lj & L0 & A0 & C0 & K0 & Len & S0 & I0 & T0)].
      * repeat split; try (apply SH). 
      * repeat split; try assumption; try (apply (S0 SH)); intros [F|F]; discriminate F.
    + destruct (add_each_throw _ _ _ _ EA).
  - destruct (sub_each W w _ _ _) as [w0|w0| |] eqn:EA; cbn [bindO] in H; try discriminate H.
    + destruct (release_each_throw _ _ _ H).
    + destruct (sub_each_throw _ _ _ _ _ EA).
  - destruct ok; [discriminate H|]. injection H as <-. repeat split; try (apply SH).
Qed.

Lemma inits_cons : forall o l, inits (o :: l) = inits [o] ++ inits l.
Proof. intros o l. unfold inits. cbn [flat_map]. rewrite app_nil_r. reflexivity. Qed.

Lemma runs_inv : forall l w w1 base,
  shape w -> inv base zero w -> along fair w l -> runs w l = Ok w1 ->
  shape w1 /\ inv (base ++ inits l) zero w1.
Proof.
  induction l as [|o t IH]; intros w w1 base SH HI HA H.
  - cbn in H. injection H as <-. cbn. rewrite app_nil_r. auto.
  - cbn [Counting.runs] in H. cbn [along] in HA. destruct HA as [HF HA].
    rewrite inits_cons, app_assoc.
    destruct (step w o) as [w0|w0| |] eqn:E; try discriminate H.
    + destruct (step_good w o w0 SH E) as (S0 & _ & I0 & _).
      exact (IH w0 w1 _ S0 (I0 HF base HI) (HA w0 (or_introl eq_refl)) H).
    + destruct (step_throw w o w0 E SH) as (_ & _ & _ & _ & _ & Eo & G).
      rewrite Eo, app_nil_r. assert (w0 = w) as -> by (apply G; left; exact HF).
      exact (IH w w1 _ SH HI (HA w (or_intror eq_refl)) H).
Qed.

Lemma runs_tot : forall l w w1 base,
  shape w -> tot base 0 w -> along loose w l -> runs w l = Ok w1 ->
  tot (base ++ inits l) 0 w1.
Proof.
  induction l as [|o t IH]; intros w w1 base SH HI HA H.
  - cbn in H. injection H as <-. cbn. rewrite app_nil_r. auto.
  - cbn [Counting.runs] in H. cbn [along] in HA. destruct HA as [HF HA].
    rewrite inits_cons, app_assoc.
    destruct (step w o) as [w0|w0| |] eqn:E; try discriminate H.
    + destruct (step_good w o w0 SH E) as (S0 & _ & _ & T0 & _).
      exact (IH w0 w1 _ S0 (T0 HF base HI) (HA w0 (or_introl eq_refl)) H).
    + destruct (step_throw w o w0 E SH) as (_ & _ & _ & _ & _ & Eo & G).
      rewrite Eo, app_nil_r. assert (w0 = w) as -> by (apply G; right; exact HF).
      exact (IH w w1 _ SH HI (HA w (or_intror eq_refl)) H).
Qed.

Lemma runs_shape : forall l w w1, shape w -> runs w l = Ok w1 -> shape w1.
Proof.
  induction l as [|o t IH]; intros w w1 SH H.
  - cbn in H. injection H as <-. exact SH.
  - cbn [Counting.runs] in H. destruct (step w o) as [w0|w0| |] eqn:E; try discriminate H.
    + destruct (step_good w o w0 SH E) as (S0 & _). exact (IH _ _ S0 H).
    + destruct (step_throw w o w0 E SH) as (S0 & _). exact (IH _ _ S0 H).
Qed.

Lemma runs_allocs : forall l w w1, shape w -> runs w l = Ok w1 -> exists more, allocs w1 = allocs w ++ more.
Proof.
  induction l as [|o t IH]; intros w w1 SH H.
  - cbn in H. injection H as <-. exists []. rewrite app_nil_r. reflexivity.
  - cbn [Counting.runs] in H. destruct (step w o) as [w0|w0| |] eqn:E; try discriminate H.
    + destruct (step_good w o w0 SH E) as (S0 & (m & Em & _) & _). destruct (IH _ _ S0 H) as (m' & Em').
      exists (m ++ m'). rewrite Em', Em, app_assoc. reflexivity.
    + destruct (step_throw w o w0 E SH) as (S0 & _ & A0 & _). destruct (IH _ _ S0 H) as (m' & Em').
      exists m'. rewrite Em', A0. reflexivity.
Qed.

Lemma runs_kept : forall l w w1, shape w -> runs w l = Ok w1 -> dealloc = true -> kept w1 = kept w.
Proof.
  induction l as [|o t IH]; intros w w1 SH H Hd.
  - cbn in H. injection H as <-. reflexivity.
  - cbn [Counting.runs] in H. destruct (step w o) as [w0|w0| |] eqn:E; try discriminate H.
    + destruct (step_good w o w0 SH E) as (S0 & _ & _ & _ & K0 & _). rewrite (IH _ _ S0 H Hd). exact (K0 Hd).
    + destruct (step_throw w o w0 E SH) as (S0 & _ & _ & _ & K0 & _). rewrite (IH _ _ S0 H Hd). exact K0.
Qed.

Lemma runs_segment : forall l w w1,
  shape w -> sizes_ok w -> Forall sane l -> runs w l = Ok w1 -> dealloc = false ->
  all_held (live w) + kept w <= all_held (live w1) + kept w1.
Proof.
  induction l as [|o t IH]; intros w w1 SH Hz HF H Hd.
  - cbn in H. injection H as <-. lia.
  - pose proof (Forall_inv HF) as Hs. pose proof (Forall_inv_tail HF) as HF'. cbn [Counting.runs] in H.
    destruct (step w o) as [w0|w0| |] eqn:E; try discriminate H.
    + destruct (step_good w o w0 SH E) as (S0 & (m & Em & Pm) & _ & _ & _ & G0).
      assert (Hz0 : sizes_ok w0).
      { intros x Hx. rewrite Em in Hx. apply in_app_or in Hx. destruct Hx as [Hx|Hx]; [exact (Hz x Hx)|exact (Pm Hs x Hx)]. }
      specialize (IH _ _ S0 Hz0 HF' H Hd). specialize (G0 Hd Hs Hz). lia.
    + destruct (step_throw w o w0 E SH) as (S0 & L0 & A0 & C0 & K0 & _).
      assert (Hz0 : sizes_ok w0) by (unfold sizes_ok; rewrite A0; exact Hz).
      specialize (IH _ _ S0 Hz0 HF' H Hd). rewrite L0, K0 in IH. exact IH.
Qed.

Lemma start_shape : shape start.
Proof. split; cbn; [constructor|intros y []|intros y []]. Qed.

Lemma start_inv : inv [] zero start.
Proof. split; [reflexivity|]. intros i x H. destruct i; discriminate H. Qed.

Lemma start_tot : tot [] 0 start.
Proof. reflexivity. Qed.

(** *** Threads *)
Definition amount (a : atom) : Z := match a with AAdd n => n | ASub n => - n end.
Definition amounts (l : list atom) : Z := zsum (map amount l).

Lemma a_apply_amount : forall x a, a_apply W x a = (x + amount a) mod W.
Proof. intros x [n|n]; cbn; unfold c_add, c_sub; f_equal; lia. Qed.

Lemma zsum_map_upd : forall A (f : A -> Z) l i x v,
  nth_error l i = Some x -> zsum (map f (upd l i v)) = zsum (map f l) - f x + f v.
Proof.
  induction l as [|y t IH]; intros i x v H; destruct i; try discriminate H; cbn in *.
  - injection H as ->. lia.
  - rewrite (IH _ _ v H). lia.
Qed.

Lemma schedule_atomic : forall s cell ts c ts',
  schedule (atomic_step W) cell ts s = (c, ts') ->
  (c + zsum (map amounts ts')) mod W = (cell + zsum (map amounts ts)) mod W /\
  (0 <= cell < W -> 0 <= c < W).
Proof.
  induction s as [|i s IH]; intros cell ts c ts' H.
  - cbn in H. injection H as <- <-. auto.
  - cbn [schedule] in H. destruct (nth_error ts i) as [t|] eqn:E; [|exact (IH _ _ _ _ H)].
    destruct t as [|a r]; [exact (IH _ _ _ _ H)|]. cbn [atomic_step] in H.
    destruct (IH _ _ _ _ H) as [E1 R1]. split.
    + rewrite E1, a_apply_amount, Zplus_mod_idemp_l. f_equal. rewrite (zsum_map_upd _ amounts _ _ _ r E).
      change (amounts (a :: r)) with (amount a + amounts r). lia.
    + intros _. apply R1. rewrite a_apply_amount. apply Z.mod_pos_bound. exact HW.
Qed.

Definition owed (cell : Z) (t : thread) : Prop := seen t = None \/ seen t = Some cell.

Lemma schedule_alone : forall s cell t c ts',
  owed cell t -> schedule (thread_step W) cell [t] s = (c, ts') ->
  exists t', ts' = [t'] /\ owed c t' /\ (c + amounts (todo t')) mod W = (cell + amounts (todo t)) mod W /\
    (0 <= cell < W -> 0 <= c < W).
Proof.
  induction s as [|i s IH]; intros cell t c ts' HO H.
  - cbn in H. injection H as <- <-. exists t. auto.
  - cbn [schedule] in H. destruct i as [|i]; [|destruct i; exact (IH _ _ _ _ HO H)].
    cbn [nth_error] in H. destruct t as [[|a r] sn]; unfold thread_step in H; cbn [todo seen] in H; [exact (IH _ _ _ _ HO H)|].
    destruct sn as [x|]; cbn [upd] in H.
    + destruct HO as [HO|HO]; [discriminate HO|]. cbn in HO. injection HO as ->.
      assert (HO : owed (a_apply W cell a) {| todo := r; seen := None |}) by (left; reflexivity).
      destruct (IH _ _ _ _ HO H) as (t' & -> & O & E & R). exists t'.
      split; [reflexivity|]. split; [exact O|]. split.
      * rewrite E, a_apply_amount, Zplus_mod_idemp_l. cbn [todo]. f_equal. unfold amounts. cbn. lia.
      * intros _. apply R. rewrite a_apply_amount. apply Z.mod_pos_bound. exact HW.
    + assert (HO' : owed cell {| todo := a :: r; seen := Some cell |}) by (right; reflexivity).
      exact (IH _ _ _ _ HO' H).
Qed.

End P.
