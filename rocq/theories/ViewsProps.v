(** C88: views and subviews give exactly their elements. *)
From Coq Require Import ZArith Lia.
From Verif Require Import Base ListAux Views.

Section C88.
  Context {A : Type}.
  Implicit Types l : list A.

  (** The elements from [start] to before [stop]. *)
  Definition slice l (start stop : nat) : list A := firstn (stop - start) (skipn start l).

  Lemma elem_nat l i : elem l (Z.of_nat i) = match nth_error l i with Some a => Got a | None => Undefined end.
  Proof. unfold elem. destruct (Z.ltb_spec (Z.of_nat i) 0); [lia|]. rewrite Nat2Z.id. reflexivity. Qed.

  Lemma elem_some l i : i < length l -> exists a, nth_error l i = Some a /\ elem l (Z.of_nat i) = Got a.
  Proof.
    intros H. rewrite elem_nat. destruct (nth_error l i) eqn:E; [eauto|]. apply nth_error_None in E. lia.
  Qed.

  (** Positions count from the front or, if negative, from the back; what lies outside is refused. *)
  Theorem C88_at l pos :
    (forall i a, nth_error l i = Some a -> pos = Z.of_nat i -> view_at l pos = Got a)
    /\ (forall i a, nth_error l i = Some a -> i <> 0 -> pos = (Z.of_nat i - Z.of_nat (length l))%Z -> view_at l pos = Got a)
    /\ ((pos <> 0)%Z -> (Z.of_nat (length l) <= Z.abs pos)%Z -> view_at l pos = Refused).
  Proof.
    unfold view_at, zsize. repeat split.
    - intros i a E ->. assert (i < length l) by (apply nth_error_Some; congruence).
      destruct (Z.gtb_spec (Z.of_nat i) 0).
      + destruct (Z.geb_spec (Z.of_nat i) (Z.of_nat (length l))); [lia|]. rewrite Z.add_0_l, elem_nat, E. reflexivity.
      + destruct (Z.ltb_spec (Z.of_nat i) 0); [lia|]. assert (i = 0) as -> by lia.
        change 0%Z with (Z.of_nat 0). rewrite elem_nat, E. reflexivity.
    - intros i a E I ->. assert (i < length l) by (apply nth_error_Some; congruence).
      destruct (Z.gtb_spec (Z.of_nat i - Z.of_nat (length l)) 0); [lia|].
      destruct (Z.ltb_spec (Z.of_nat i - Z.of_nat (length l)) 0); [|lia].
      destruct (Z.geb_spec (Z.abs (Z.of_nat i - Z.of_nat (length l))) (Z.of_nat (length l))); [lia|].
      replace (Z.of_nat (length l) - Z.abs (Z.of_nat i - Z.of_nat (length l)))%Z with (Z.of_nat i) by lia.
      rewrite elem_nat, E. reflexivity.
    - intros N B. destruct (Z.gtb_spec pos 0).
      + destruct (Z.geb_spec pos (Z.of_nat (length l))); [reflexivity | lia].
      + destruct (Z.ltb_spec pos 0); [|lia].
        destruct (Z.geb_spec (Z.abs pos) (Z.of_nat (length l))); [reflexivity | lia].
  Qed.

  (** The first element counted from the back is refused, although every other one can be had that way. *)
  Theorem C88_first_from_back_refuted l a : hd_error l = Some a ->
    view_at l 0 = Got a /\ view_at l (- Z.of_nat (length l)) = Refused.
  Proof.
    intros H. split.
    - destruct l as [|b l]; [discriminate H|]. injection H as ->. reflexivity.
    - apply C88_at; [|lia]. destruct l; [discriminate H|]. cbn. lia.
  Qed.

  (** Undefined is only position zero of an empty view; front and back likewise. *)
  Theorem C88_defined l :
    (forall pos, view_at l pos = Undefined <-> l = [] /\ pos = 0%Z)
    /\ (view_front l = Undefined <-> l = []) /\ (view_back l = Undefined <-> l = []).
  Proof.
    assert (F : elem l 0 = Undefined <-> l = []).
    { destruct l; cbn; split; intros H; auto; discriminate H. }
    split; [|split].
    - intros pos. destruct (C88_at l pos) as (H1 & H2 & H3). split.
      + intros U. destruct (Z.eq_dec pos 0) as [-> | N].
        { split; [|reflexivity]. apply F. exact U. }
        exfalso. destruct (Z_le_gt_dec (Z.of_nat (length l)) (Z.abs pos)) as [B|B].
        { rewrite (H3 N B) in U. discriminate U. }
        destruct (Z_lt_ge_dec pos 0) as [S|S].
        * destruct (elem_some l (Z.to_nat (Z.of_nat (length l) + pos)) ltac:(lia)) as (a & E & _).
          rewrite (H2 _ a E) in U; [discriminate U | lia | lia].
        * destruct (elem_some l (Z.to_nat pos) ltac:(lia)) as (a & E & _).
          rewrite (H1 _ a E) in U; [discriminate U | lia].
      + intros [-> ->]. reflexivity.
    - exact F.
    - unfold view_back, zsize. split.
      + intros U. destruct l as [|a l]; [reflexivity|]. exfalso.
        destruct (elem_some (a :: l) (length l) ltac:(cbn; lia)) as (b & _ & E).
        replace (Z.of_nat (length (a :: l)) - 1)%Z with (Z.of_nat (length l)) in U by (cbn [length]; lia). congruence.
      + intros ->. reflexivity.
  Qed.

  Lemma walk_slice l n fuel start : n < fuel -> start + n <= length l ->
    walk fuel l (Z.of_nat start) (Z.of_nat (start + n)) = Got (firstn n (skipn start l)).
  Proof.
    revert fuel start. induction n as [|n IH]; intros fuel start F B; destruct fuel as [|fuel]; try lia.
    - cbn [walk]. rewrite Nat.add_0_r, Z.eqb_refl. destruct (skipn start l); reflexivity.
    - cbn [walk]. destruct (Z.eqb_spec (Z.of_nat start) (Z.of_nat (start + S n))); [lia|].
      destruct (elem_some l start ltac:(lia)) as (a & E & ->).
      replace (Z.of_nat start + 1)%Z with (Z.of_nat (S start)) by lia.
      replace (start + S n) with (S start + n) by lia. rewrite IH by lia.
      assert (S' : skipn start l = a :: skipn (S start) l).
      { clear - E. revert l E. induction start as [|k IH]; intros [|b l] E; cbn in E; try discriminate E.
        - injection E as ->. reflexivity.
        - apply IH. exact E. }
      rewrite S'. reflexivity.
  Qed.

  (** A loop over a view visits all elements once and in order, one over a subview those of its range. *)
  Theorem C88_walk l :
    view_walk l = Got l
    /\ forall start stop s, make_sub l start stop = Got s -> sub_walk l s = Got (slice l start stop).
  Proof.
    split.
    - unfold view_walk, zsize. change 0%Z with (Z.of_nat 0). rewrite (walk_slice l (length l) _ 0); [|lia|lia].
      cbn [skipn]. rewrite firstn_all. reflexivity.
    - intros start stop s M. unfold make_sub in M.
      destruct (Nat.ltb_spec (length l) start); cbn [orb] in M; [discriminate M|].
      destruct (Nat.ltb_spec (length l) stop); cbn [orb] in M; [discriminate M|].
      destruct (Nat.ltb_spec stop start); [discriminate M|]. injection M as <-.
      unfold sub_walk, sub_begin, sub_end, sub_size, slice. cbn [s_start s_stop].
      replace stop with (start + (stop - start)) at 2 by lia. apply walk_slice; lia.
  Qed.

  (** A subview is refused exactly if its range is not one of the container; its size is that of its range. *)
  Theorem C88_make l start stop :
    (make_sub l start stop = Refused <-> ~ (start <= stop <= length l))
    /\ (start <= stop <= length l -> make_sub l start stop = Got (mkSub start stop))
    /\ forall s, make_sub l start stop = Got s ->
         sub_size s = length (slice l start stop) /\ (sub_empty l s = true <-> slice l start stop = []).
  Proof.
    unfold make_sub. destruct (Nat.ltb_spec (length l) start); cbn [orb];
      [repeat split; intros; try lia; try discriminate; reflexivity|].
    destruct (Nat.ltb_spec (length l) stop); cbn [orb];
      [repeat split; intros; try lia; try discriminate; reflexivity|].
    destruct (Nat.ltb_spec stop start); [repeat split; intros; try lia; try discriminate; reflexivity|].
    assert (LS : length (slice l start stop) = stop - start).
    { unfold slice. rewrite firstn_length, skipn_length. lia. }
    split; [split; [discriminate | lia]|]. split; [reflexivity|]. intros s [= <-].
    split; [symmetry; exact LS|].
    unfold sub_empty. cbn [s_start s_stop]. rewrite orb_true_iff, Nat.eqb_eq. split.
    - intros [E|E].
      + destruct l; [|discriminate E]. unfold slice. rewrite skipn_nil, firstn_nil. reflexivity.
      + apply length_zero_iff_nil. lia.
    - intros E. right. rewrite E in LS. cbn in LS. lia.
  Qed.

  Lemma slice_nth l start stop i : i < stop - start -> nth_error (slice l start stop) i = nth_error l (start + i).
  Proof.
    intros H. unfold slice.
    assert (F : forall (m : list A) n j, j < n -> nth_error (firstn n m) j = nth_error m j).
    { induction m as [|x m IH]; intros [|n] [|j] K; cbn; try reflexivity; try lia. apply IH. lia. }
    rewrite F by exact H. clear.
    revert l. induction start as [|k IH]; intros l; [reflexivity|]. destruct l; [destruct i; reflexivity|]. apply IH.
  Qed.

  (** Front and back of a subview are those of its range and refused if that is empty. *)
  Theorem C88_ends l start stop s : make_sub l start stop = Got s ->
    sub_front l s = match slice l start stop with a :: _ => Got a | [] => Refused end
    /\ sub_back l s = match rev (slice l start stop) with a :: _ => Got a | [] => Refused end.
  Proof.
    intros M. destruct (C88_make l start stop) as (H1 & H2 & H3).
    assert (B : start <= stop <= length l).
    { destruct (le_lt_dec start stop), (le_lt_dec stop (length l)); try lia;
        rewrite (proj2 H1) in M by lia; discriminate M. }
    rewrite (H2 B) in M. injection M as <-. destruct (H3 _ (H2 B)) as [LS E].
    unfold sub_size in LS. cbn [s_start s_stop] in LS.
    unfold sub_front, sub_back. destruct (sub_empty l (mkSub start stop)) eqn:Em.
    - rewrite (proj1 E eq_refl). auto.
    - assert (N : slice l start stop <> []) by (intros H; apply E in H; discriminate H).
      assert (P : start < stop). { destruct (slice l start stop); [congruence|]. cbn in LS. lia. }
      unfold sub_begin, sub_end. cbn [s_start s_stop orb]. split.
      + pose proof (slice_nth l start stop 0 ltac:(lia)) as S0. rewrite Nat.add_0_r in S0.
        rewrite elem_nat, <- S0. destruct (slice l start stop); [congruence | reflexivity].
      + destruct (Nat.eqb_spec stop 0); [lia|].
        replace (Z.of_nat stop - 1)%Z with (Z.of_nat (start + (stop - start - 1))) by lia.
        rewrite elem_nat, <- (slice_nth l start stop) by lia. rewrite LS.
        destruct (rev (slice l start stop)) as [|x r] eqn:R.
        { apply (f_equal (@rev A)) in R. rewrite rev_involutive in R. cbn in R. congruence. }
        apply (f_equal (@rev A)) in R. rewrite rev_involutive in R. cbn in R. rewrite R.
        rewrite app_length, rev_length. cbn [length]. replace (length r + 1 - 1) with (length r) by lia.
        rewrite nth_error_app2 by (rewrite rev_length; lia). rewrite rev_length, Nat.sub_diag. reflexivity.
  Qed.

  (** The bounds are not checked again: a container that has become empty is noticed, ... *)
  Theorem C88_emptied l start stop s : make_sub l start stop = Got s -> sub_front (@nil A) s = Refused /\ sub_back (@nil A) s = Refused.
  Proof. intros _. split; reflexivity. Qed.
  (** ... one that has only become shorter than the range is not. *)
  Theorem C88_shrunk_refuted (a b c : A) : exists l l' start stop s, make_sub l start stop = Got s /\ l' <> [] /\ length l' < length l
    /\ sub_empty l' s = false /\ sub_front l' s = Undefined /\ sub_back l' s = Undefined.
  Proof. exists [a; b; c], [a], 1, 3, (mkSub 1 3). repeat split; cbn; try discriminate; lia. Qed.

  (** Within its range a subview gives the elements of its range. *)
  Theorem C88_sub_at l start stop s i a : make_sub l start stop = Got s ->
    nth_error (slice l start stop) i = Some a -> sub_at l s (Z.of_nat i) = Got a.
  Proof.
    intros M E. destruct (C88_make l start stop) as (H1 & H2 & H3).
    assert (B : start <= stop <= length l).
    { destruct (le_lt_dec start stop), (le_lt_dec stop (length l)); try lia;
        rewrite (proj2 H1) in M by lia; discriminate M. }
    rewrite (H2 B) in M. injection M as <-. destruct (H3 _ (H2 B)) as [LS _].
    unfold sub_size in LS. cbn [s_start s_stop] in LS.
    assert (I : i < stop - start). { rewrite LS. apply nth_error_Some. congruence. }
    rewrite slice_nth in E by exact I. unfold sub_at, sub_begin. cbn [s_start].
    destruct (Z.gtb_spec (Z.of_nat i) 0).
    - rewrite <- Nat2Z.inj_add, elem_nat, E. reflexivity.
    - assert (i = 0) as -> by lia. rewrite Nat.add_0_r in E. rewrite elem_nat, E. reflexivity.
  Qed.

  (** Beyond its range it gives an element of the container that is not its own, or reads behind the container; a negative
      position gives its first element, and even an empty subview gives an element. *)
  Theorem C88_sub_at_outside l start stop s i : make_sub l start stop = Got s -> length (slice l start stop) <= i -> 0 < i ->
    sub_at l s (Z.of_nat i) = match nth_error l (start + i) with Some a => Got a | None => Undefined end
    /\ sub_at l s (- Z.of_nat i) = sub_at l s 0.
  Proof.
    intros M _ I.
    assert (s = mkSub start stop) as ->.
    { unfold make_sub in M. destruct (_ || _ || _); [discriminate M | congruence]. }
    unfold sub_at, sub_begin. cbn [s_start]. split.
    - destruct (Z.gtb_spec (Z.of_nat i) 0); [|lia]. rewrite <- Nat2Z.inj_add, elem_nat. reflexivity.
    - destruct (Z.gtb_spec (- Z.of_nat i) 0); [lia|]. reflexivity.
  Qed.

  (** Ranges that follow each other share out the container: the loops over the subviews together visit what the loop
      over the view visits. *)
  Fixpoint slices l (offsets : list nat) : list (list A) :=
    match offsets with
    | a :: ((b :: _) as rest) => slice l a b :: slices l rest
    | _ => []
    end.
  Fixpoint ascending (offsets : list nat) : Prop :=
    match offsets with
    | a :: ((b :: _) as rest) => a <= b /\ ascending rest
    | _ => True
    end.
  Theorem C88_shared_out l offsets : ascending (0 :: offsets) -> last offsets 0 = length l ->
    (forall o, In o offsets -> o <= length l) ->
    concat (slices l (0 :: offsets)) = l.
  Proof.
    intros As La Bo.
    assert (G : forall os o, ascending (o :: os) -> last (o :: os) 0 = length l -> (forall x, In x (o :: os) -> x <= length l) ->
      concat (slices l (o :: os)) = skipn o l).
    { clear. induction os as [|p os IH]; intros o As La Bo.
      - cbn in La |- *. subst. symmetry. apply skipn_all2. lia.
      - destruct As as [H1 H2]. change (slices l (o :: p :: os)) with (slice l o p :: slices l (p :: os)).
        cbn [concat]. rewrite (IH p H2).
        + unfold slice. replace (skipn p l) with (skipn (p - o) (skipn o l)).
          * apply firstn_skipn.
          * replace p with (o + (p - o)) at 2 by lia. generalize (p - o). clear. revert l.
            induction o as [|k IH]; intros l n; [reflexivity|]. destruct l; [cbn; apply skipn_nil | apply IH].
        + exact La.
        + intros x I. apply Bo. right. exact I. }
    destruct offsets as [|o os].
    - cbn in La |- *. destruct l; [reflexivity | discriminate La].
    - apply (G (o :: os) 0); [exact As | exact La |]. intros x [<- | I]; [lia | auto].
  Qed.
End C88.

(** *** Examples *)
Example ex_view : view_at [5; 6; 7] 2 = Got 7 /\ view_at [5; 6; 7] (-1) = Got 7 /\ view_at [5; 6; 7] (-2) = Got 6
  /\ view_at [5; 6; 7] 3 = Refused /\ view_at (@nil nat) 0 = Undefined.
Proof. repeat split. Qed.
Example ex_sub : exists s, make_sub [5; 6; 7; 8] 1 3 = Got s /\ sub_walk [5; 6; 7; 8] s = Got [6; 7]
  /\ sub_front [5; 6; 7; 8] s = Got 6 /\ sub_back [5; 6; 7; 8] s = Got 7 /\ sub_size s = 2.
Proof. eexists. repeat split. Qed.
(** The neighbour's element, and one of an empty subview. *)
Theorem C88_neighbour_refuted : exists (l : list nat) s t,
  make_sub l 1 3 = Got s /\ sub_at l s 2 = Got 8 /\ ~ In 8 (slice l 1 3)
  /\ make_sub l 1 1 = Got t /\ sub_empty l t = true /\ sub_at l t 0 = Got 6 /\ sub_at l s 9 = Undefined.
Proof.
  exists [5; 6; 7; 8], (mkSub 1 3), (mkSub 1 1). repeat split; try reflexivity.
  vm_compute. intros [H|[H|[]]]; discriminate H.
Qed.
Example ex_shared_out : ascending [0; 2; 2; 3] /\ slices [5; 6; 7] [0; 2; 2; 3] = [[5; 6]; []; [7]].
Proof. cbn. repeat split; lia. Qed.

Print Assumptions C88_at.
Print Assumptions C88_first_from_back_refuted.
Print Assumptions C88_defined.
Print Assumptions C88_walk.
Print Assumptions C88_make.
Print Assumptions C88_ends.
Print Assumptions C88_emptied.
Print Assumptions C88_shrunk_refuted.
Print Assumptions C88_sub_at.
Print Assumptions C88_sub_at_outside.
Print Assumptions C88_shared_out.
Print Assumptions C88_neighbour_refuted.
