(** C93: what the named objects of the tag storage and of the index storage show over their life, TagStore.v. *)
From Verif Require Import Base TagStore.

(** the three maps from texts and tags to numbers, which are only needed while tags are added *)
Definition reverse (x : name) : bool := match x with KeyId | ValueId | IdsMap => true | _ => false end.

Lemma name_eqb_eq x y : name_eqb x y = true <-> x = y.
Proof. destruct x, y; cbn; split; congruence. Qed.
Lemma set_same {A} (f : name -> A) x a : set f x a x = a.
Proof. unfold set. now rewrite (proj2 (name_eqb_eq x x) eq_refl). Qed.
Lemma set_other {A} (f : name -> A) x a y : y <> x -> set f x a y = f y.
Proof. intros H. unfold set. destruct (name_eqb y x) eqn:E; auto. apply name_eqb_eq in E. contradiction. Qed.
Lemma names_all x : In x names.
Proof. destruct x; cbn; tauto. Qed.

Section Props.
  Context {V : Type}.
  Variable empty : V.
  Variable used : list (name * value V) -> nat.
  Notation fits := (fits used).
  Notation store := (store V).
  Notation value := (value V).

  (** ** What a user sees: a size, what is stored under the ten names, and whether it may be changed.  No mappings and no pointers. *)
  Record plain := mkPlain { p_size : nat; p_data : name -> option value; p_rw : bool }.
  Inductive op := Put (x : name) (v : V) | Get (x : name) | Finalize | Grow (n : nat) | Reopen (shrink : bool).
  Inductive answer := Done | Value (v : value) | Failed (e : option error).
  Definition absent (d : name -> option value) (x : name) : bool := match d x with None => true | Some _ => false end.
  Definition finalized_data (d : name -> option value) (x : name) : option value :=
    if reverse x then None else match x with Finalized => Some (Flag true) | _ => d x end.
  Definition with_data (d : name -> option value) (x : name) (v : V) (y : name) : option value := if name_eqb y x then Some (Data v) else d y.

  (** [None]: undefined behaviour *)
  Definition plain_step (o : op) (p : plain) : option (plain * answer) :=
    let n := p_size p in let d := p_data p in
    match o with
    | Get x => match d x with Some v => Some (p, Value v) | None => None end
    | Put x v =>
        if absent d x || negb (p_rw p) then None
        else if fits n (with_data d x v) then Some (mkPlain n (with_data d x v) true, Done)
        else match find (absent d) names with
             | Some y => Some (mkPlain (2 * n) d true, Failed (Some (CouldNotFind y)))
             | None => if fits (2 * n) (with_data d x v) then Some (mkPlain (2 * n) (with_data d x v) true, Done)
                       else Some (mkPlain (4 * n) d true, Failed (Some Refused))
             end
    | Finalize => if absent d Finalized || negb (p_rw p) then None else Some (mkPlain n (finalized_data d) true, Done)
    | Grow m => Some (mkPlain (Nat.max n m) d (p_rw p || (n <? m)),
                      match find (absent d) names with Some y => Failed (Some (CouldNotFind y)) | None => Done end)
    | Reopen shrink => Some (mkPlain (if shrink then Nat.min n (used (listing d)) else n) d false, Done)
    end.
  Fixpoint plain_run (l : list op) (p : plain) : list answer * bool :=
    match l with
    | [] => ([], true)
    | o :: l => match plain_step o p with Some (p, a) => let r := plain_run l p in (a :: fst r, snd r) | None => ([], false) end
    end.

  (** ** The same for the memory mapped storage; the caller catches what is thrown *)
  Definition caught (x : outcome (store * option error)) : option (store * answer) :=
    match x with Ok (s, _) => Some (s, Done) | Throw (s, e) => Some (s, Failed e) | _ => None end.
  Definition store_step (o : op) (s : store) : option (store * answer) :=
    match o with
    | Get x => match access s x with Ok v => Some (s, Value v) | _ => None end
    | Put x v => caught (put used x (Data v) s)
    | Finalize => match finalize s with Ok s => Some (s, Done) | _ => None end
    | Grow m => caught (grow m s)
    | Reopen shrink => Some (if shrink then shrink_reopen used s else reopen s, Done)
    end.
  Fixpoint store_run (l : list op) (s : store) : list answer * bool :=
    match l with
    | [] => ([], true)
    | o :: l => match store_step o s with Some (s, a) => let r := store_run l s in (a :: fst r, snd r) | None => ([], false) end
    end.

  (** the size is right, every object is there and its pointer is into the mapping of now *)
  Definition holds (s : store) (p : plain) : Prop :=
    size s = p_size p /\ writable s = p_rw p /\ (forall x, objects s x = p_data p x) /\ (forall x, p_data p x <> None -> ptr s x = Some (mapping s)).

  Lemma listing_ext (f g : name -> option value) : (forall x, f x = g x) -> listing f = listing g.
  Proof. intros H. unfold listing. induction names; cbn; auto. now rewrite H, IHl. Qed.
  Lemma fits_ext n (f g : name -> option value) : (forall x, f x = g x) -> fits n f = fits n g.
  Proof. intros H. unfold TagStore.fits. now rewrite (listing_ext _ _ H). Qed.
  Lemma find_ext {A} (f g : A -> bool) l : (forall x, f x = g x) -> find f l = find g l.
  Proof. intros H. induction l; cbn; auto. now rewrite H, IHl. Qed.

  Lemma holds_access s p x : holds s p -> access s x = match p_data p x with Some v => Ok v | None => UB end.
  Proof.
    intros (A & B & C & D). unfold access. rewrite C. specialize (D x). destruct (p_data p x); [|destruct (ptr s x); auto].
    rewrite D by congruence. now rewrite Nat.eqb_refl.
  Qed.

  Lemma open_holds s n d w : size s = n -> (forall x, objects s x = d x) -> writable s = w -> holds (open s) (mkPlain n d w).
  Proof. intros A B C. repeat split; cbn; auto. intros x H. rewrite B. destruct (d x); congruence. Qed.

  Lemma missing_open s (d : name -> option value) : (forall x, objects s x = d x) -> missing (open s) = find (absent d) names.
  Proof. intros H. unfold missing. apply find_ext. intros x. unfold absent. cbn. rewrite H. destruct (d x); auto. Qed.

  Lemma grow_holds s p m : holds s p -> exists s', holds s' (mkPlain (Nat.max (p_size p) m) (p_data p) (p_rw p || (p_size p <? m))) /\
    grow m s = match find (absent (p_data p)) names with Some y => Throw (s', Some (CouldNotFind y)) | None => Ok (s', None) end.
  Proof.
    intros (A & B & C & D). unfold grow.
    set (s1 := if size s <? m then _ else s).
    assert (E1 : size s1 = Nat.max (p_size p) m). { unfold s1. rewrite A. destruct (Nat.ltb_spec (p_size p) m); cbn; lia. }
    assert (E2 : forall x, objects s1 x = p_data p x). { intros x. unfold s1. destruct (size s <? m); cbn; auto. }
    assert (E3 : writable s1 = p_rw p || (p_size p <? m)).
    { unfold s1. rewrite A, <- B. destruct (p_size p <? m); cbn; rewrite ?Bool.orb_true_r, ?Bool.orb_false_r; auto. }
    exists (open s1). split; [apply open_holds; auto|]. unfold check. rewrite (missing_open _ _ E2). destruct (find _ names); auto.
  Qed.

  Lemma change_holds s p x v : holds s p -> change used x (Data v) s =
    if absent (p_data p) x || negb (p_rw p) then UB
    else if fits (p_size p) (with_data (p_data p) x v)
         then Ok (mkStore (size s) (set (objects s) x (Some (Data v))) (mapping s) (writable s) (ptr s)) else Throw s.
  Proof.
    intros H. unfold change. rewrite (holds_access _ _ _ H). destruct H as (A & B & C & D). unfold absent. destruct (p_data p x) eqn:E; cbn; auto.
    rewrite B. destruct (p_rw p); cbn; auto. rewrite A. rewrite (fits_ext _ _ (with_data (p_data p) x v)); auto.
    intros y. unfold set, with_data. destruct (name_eqb y x); auto.
  Qed.

  Lemma changed_holds s p x v : holds s p -> absent (p_data p) x = false ->
    holds (mkStore (size s) (set (objects s) x (Some (Data v))) (mapping s) (writable s) (ptr s)) (mkPlain (p_size p) (with_data (p_data p) x v) (p_rw p)).
  Proof.
    intros (A & B & C & D) N. repeat split; cbn; auto.
    - intros y. unfold set, with_data. destruct (name_eqb y x); auto.
    - intros y. unfold with_data. destruct (name_eqb y x) eqn:E; intros Hy; apply D; auto. apply name_eqb_eq in E. subst y.
      unfold absent in N. destruct (p_data p x); congruence.
  Qed.

  Lemma step_holds o s p : holds s p ->
    match plain_step o p with
    | Some (p', a) => exists s', store_step o s = Some (s', a) /\ holds s' p'
    | None => store_step o s = None
    end.
  Proof.
    intros H. destruct o as [x v|x| |m|b].
    - cbn [plain_step store_step]. unfold put. cbn [put_retry]. rewrite (change_holds _ _ _ _ H).
      destruct (absent (p_data p) x || negb (p_rw p)) eqn:N; [reflexivity|]. apply Bool.orb_false_iff in N. destruct N as [N W].
      apply Bool.negb_false_iff in W.
      destruct (fits (p_size p) _) eqn:F.
      + cbn. eexists. split; [reflexivity|]. rewrite <- W at 1. apply changed_holds; auto.
      + cbv beta iota. destruct (grow_holds _ _ (2 * size s) H) as (s1 & H1 & G). rewrite G.
        assert (Es : size s = p_size p) by apply H. rewrite Es in *. clear G.
        replace (Nat.max (p_size p) (2 * p_size p)) with (2 * p_size p) in H1 by lia. rewrite W in H1. cbn [orb] in H1.
        destruct (find (absent (p_data p)) names) eqn:Fd; cbn [bindO caught fst].
        * eexists. split; [reflexivity|exact H1].
        * rewrite (change_holds _ _ _ _ H1). cbn [p_data p_rw p_size]. rewrite N. cbn [orb negb].
          destruct (fits (2 * p_size p) _) eqn:F2.
          -- cbn [caught]. eexists. split; [reflexivity|]. apply (changed_holds _ _ x v) in H1; auto.
          -- destruct (grow_holds _ _ (2 * size s1) H1) as (s2 & H2 & G2). rewrite G2. cbn [p_data] in *. rewrite Fd.
             cbn [bindO caught fst]. eexists. split; [reflexivity|].
             assert (E1 : size s1 = 2 * p_size p) by apply H1. rewrite E1 in H2. cbn [p_size p_rw orb] in H2.
             replace (Nat.max (2 * p_size p) (2 * (2 * p_size p))) with (4 * p_size p) in H2 by lia. exact H2.
    - cbn. rewrite (holds_access _ _ _ H). destruct (p_data p x); eauto.
    - cbn [plain_step store_step]. pose proof (holds_access _ _ Finalized H) as AF. destruct H as (A & B & C & D). unfold finalize. rewrite B.
      unfold absent. destruct (p_rw p); cbn [negb]; [|destruct (p_data p Finalized); reflexivity].
      unfold access in *. cbn [destroy objects ptr mapping]. change (set (set (set (objects s) KeyId None) ValueId None) IdsMap None Finalized) with (objects s Finalized).
      destruct (p_data p Finalized) eqn:E; cbn [orb].
      + rewrite AF. eexists. split; [reflexivity|]. repeat split; cbn; auto.
        * intros x. unfold finalized_data. destruct x; cbn; auto; apply C.
        * intros x Hx. apply D. unfold finalized_data in Hx. destruct x; cbn in Hx; congruence.
      + destruct (ptr s Finalized), (objects s Finalized); try reflexivity. destruct (n =? mapping s); [discriminate|reflexivity].
    - cbn [plain_step store_step]. destruct (grow_holds _ _ m H) as (s' & H' & ->). destruct (find _ names); cbn; eauto.
    - cbn [plain_step store_step]. eexists. split; [reflexivity|]. destruct H as (A & B & C & D). destruct b.
      + unfold shrink_reopen, reopen. apply open_holds; cbn; auto. rewrite A. f_equal. f_equal. apply listing_ext. auto.
      + unfold reopen. apply open_holds; cbn; auto.
  Qed.

  (** Whatever is done with a storage, the memory mapped storage answers like the plain one: after every change, growth, refusal and reopening every
      object that is there is found with what was last put into it, and what is not there is never read. *)
  Theorem C93_life : forall l s p, holds s p -> store_run l s = plain_run l p.
  Proof.
    induction l as [|o l IH]; intros s p H; cbn [store_run plain_run]; auto. pose proof (step_holds o _ _ H) as S.
    destruct (plain_step o p) as [[p' a]|].
    - destruct S as (s' & -> & H'). now rewrite (IH _ _ H').
    - now rewrite S.
  Qed.

  (** ** A new storage *)
  Definition new_data (x : name) : option value := Some (match x with Finalized => Flag false | _ => Data empty end).
  Definition first_names (k : nat) (x : name) : option value := if existsb (name_eqb x) (firstn k names) then new_data x else None.

  Lemma create_prefix : forall k s, k <= 10 -> (forall x, objects s x = first_names (10 - k) x) -> (forall j, j <= 10 -> fits (size s) (first_names j) = true) ->
    exists s', foldO (fun s x => construct used x (fresh empty x) s) (skipn (10 - k) names) s = Ok s' /\ size s' = size s /\ writable s' = writable s /\
      mapping s' = mapping s /\ (forall x, objects s' x = new_data x) /\
      (forall x, In x (skipn (10 - k) names) -> ptr s' x = Some (mapping s)) /\ (forall x, ~ In x (skipn (10 - k) names) -> ptr s' x = ptr s x).
  Proof.
    induction k as [|k IH]; intros s Hk O F.
    - cbn [Nat.sub] in *. cbn [skipn names]. exists s. repeat split; auto; [|contradiction]. intros x. rewrite O. unfold first_names, new_data. destruct x; reflexivity.
    - assert (exists x, skipn (10 - S k) names = x :: skipn (10 - k) names /\ first_names (10 - S k) x = None /\ ~ In x (skipn (10 - k) names) /\
        (forall y, set (first_names (10 - S k)) x (Some (fresh empty x)) y = first_names (10 - k) y)) as (x & E & N & NI & S1).
      { do 10 (destruct k as [|k]; [eexists; split; [reflexivity|]; split; [reflexivity|]; split; [cbn; intuition discriminate|intros y; destruct y; reflexivity]|]). lia. }
      rewrite E. cbn [foldO]. unfold construct at 1. rewrite O, N.
      assert (S2 : forall y, set (objects s) x (Some (fresh empty x)) y = first_names (10 - k) y).
      { intros y. rewrite <- S1. unfold set. destruct (name_eqb y x); auto. }
      rewrite (fits_ext _ _ _ S2), F by lia. cbn [bindO].
      destruct (IH (mkStore (size s) (set (objects s) x (Some (fresh empty x))) (mapping s) (writable s) (set (ptr s) x (Some (mapping s)))) ltac:(lia) S2 F)
        as (s' & R & A & B & C & D & G & K).
      cbn [size writable mapping ptr] in *. exists s'. split; [exact R|]. repeat split; auto.
      + intros y [<-|I]; auto. rewrite K, set_same; auto.
      + intros y I. rewrite K; [|intros J; apply I; now right]. apply set_other. intros ->. apply I. now left.
  Qed.

  (** A new storage with place for the ten objects is empty, not finalized and may be changed. *)
  Theorem C93_new : forall n m, (forall j, j <= 10 -> fits n (first_names j) = true) ->
    exists s, new_store empty used n m = Ok s /\ holds s (mkPlain n new_data true).
  Proof.
    intros n m F. destruct (create_prefix 10 (mkStore n (fun _ => None) m true (fun _ => None))) as (s & R & A & B & C & D & G & K); auto.
    exists s. split; [exact R|]. repeat split; auto. intros x _. rewrite C. apply G. apply names_all.
  Qed.

  (** Without place for the ten objects there is no storage: creating throws. *)
  Lemma create_short : forall k s, k <= 10 -> (forall x, objects s x = first_names (10 - k) x) -> (exists j, 10 - k < j <= 10 /\ fits (size s) (first_names j) = false) ->
    exists s', foldO (fun s x => construct used x (fresh empty x) s) (skipn (10 - k) names) s = Throw s'.
  Proof.
    induction k as [|k IH]; intros s Hk O (j & Hj & F); [lia|].
    assert (exists x, skipn (10 - S k) names = x :: skipn (10 - k) names /\ first_names (10 - S k) x = None /\
      (forall y, set (first_names (10 - S k)) x (Some (fresh empty x)) y = first_names (10 - k) y)) as (x & E & N & S1).
    { do 10 (destruct k as [|k]; [eexists; split; [reflexivity|]; split; [reflexivity|intros y; destruct y; reflexivity]|]). lia. }
    rewrite E. cbn [foldO]. unfold construct at 1. rewrite O, N.
    assert (S2 : forall y, set (objects s) x (Some (fresh empty x)) y = first_names (10 - k) y).
    { intros y. rewrite <- S1. unfold set. destruct (name_eqb y x); auto. }
    destruct (fits (size s) (set (objects s) x (Some (fresh empty x)))) eqn:Fk; cbn [bindO]; [|eauto].
    apply (IH (mkStore (size s) (set (objects s) x (Some (fresh empty x))) (mapping s) (writable s) (set (ptr s) x (Some (mapping s)))) ltac:(lia) S2).
    exists j. cbn [size]. split; auto. rewrite (fits_ext _ _ _ S2) in Fk. assert (j <> 10 - k) by (intros ->; congruence). lia.
  Qed.
  Theorem C93_no_place : forall n m j, 0 < j <= 10 -> fits n (first_names j) = false ->
    (exists s, new_store empty used n m = Throw s) /\ forall s p, holds s p -> p_size p < n -> exists s', drop_grow empty used n s = Throw (s', Some Refused).
  Proof.
    intros n m j Hj F. split.
    - apply (create_short 10 (mkStore n (fun _ => None) m true (fun _ => None))); auto. exists j. split; auto; lia.
    - intros s p (A & _) L. unfold drop_grow. rewrite A, (proj2 (Nat.ltb_lt _ _) L). unfold create.
      destruct (create_short 10 (mkStore n (fun _ => None) (S (mapping s)) true (ptr s))) as (s' & E); auto; [exists j; split; auto; lia|].
      cbn [Nat.sub skipn] in E. rewrite E. cbn [bindO]. eauto.
  Qed.

  (** Dropping for a larger size gives the same as a new storage, whatever was there before, also after finalizing. *)
  Theorem C93_drop : forall s p n, holds s p -> p_size p < n -> (forall j, j <= 10 -> fits n (first_names j) = true) ->
    exists s', drop_grow empty used n s = Ok (s', None) /\ holds s' (mkPlain n new_data true).
  Proof.
    intros s p n (A & B & C & D) L F. unfold drop_grow. rewrite A, (proj2 (Nat.ltb_lt _ _) L).
    destruct (create_prefix 10 (mkStore n (fun _ => None) (S (mapping s)) true (ptr s))) as (s' & R & E1 & E2 & E3 & E4 & E5 & _); auto.
    unfold create. cbn [Nat.sub skipn] in R. rewrite R. cbn [bindO].
    assert (P : forall x, ptr s' x = Some (mapping s')). { intros x. rewrite E3. apply E5, names_all. }
    unfold check, missing. rewrite (find_ext _ (fun _ => false)) by (intros x; now rewrite P). cbn [find names].
    exists s'. split; auto. repeat split; auto.
  Qed.

  (** Dropping for a size that is not larger fails and changes nothing. *)
  Theorem C93_drop_refused : forall s p n, holds s p -> n <= p_size p -> p_data p IdKey <> None -> drop_grow empty used n s = Throw (s, Some Refused).
  Proof.
    intros s p n (A & B & C & D) L N. unfold drop_grow. rewrite A, (proj2 (Nat.ltb_ge _ _) L). unfold create. cbn [names foldO]. unfold construct at 1.
    rewrite C. destruct (p_data p IdKey); [reflexivity|congruence].
  Qed.

  (** ** Finalizing *)
  Definition final_data (p : plain) : Prop :=
    p_data p Finalized = Some (Flag true) /\ forall x, reverse x = true <-> p_data p x = None.

  Theorem C93_finalize : forall s p, holds s p -> p_rw p = true -> (forall x, p_data p x <> None) ->
    exists s', finalize s = Ok s' /\ access s' Finalized = Ok (Flag true) /\
      (forall x, x <> Finalized -> access s' x = if reverse x then UB else access s x) /\
      exists p', holds s' p' /\ final_data p' /\ p_size p' = p_size p /\ p_rw p' = true.
  Proof.
    intros s p H W F. pose proof (step_holds Finalize _ _ H) as S. cbn [plain_step] in S. unfold absent in S. pose proof (F Finalized) as N.
    destruct (p_data p Finalized) eqn:E; [|congruence]. rewrite W in S. cbn [orb negb] in S. destruct S as (s' & R & H'). cbn [store_step] in R.
    destruct (finalize s) as [s1| | |] eqn:Fi; try discriminate. injection R as ->. exists s'. split; auto.
    split; [now rewrite (holds_access _ _ _ H')|]. split.
    - intros x Nx. rewrite (holds_access _ _ _ H'), (holds_access _ _ _ H). cbn. unfold finalized_data. destruct x; cbn; congruence.
    - eexists. split; [exact H'|]. split; [|auto]. split; [reflexivity|]. intros x. cbn. unfold finalized_data. split.
      + now intros ->.
      + destruct (reverse x) eqn:R; auto. pose proof (F x). destruct x; cbn in *; congruence.
  Qed.

  (** The code says "will not change anymore", and it must not: a finalized storage that has to grow throws instead, whatever the size.
      What is left in it can still be read afterwards. *)
  Theorem C93_grow_finalized : forall s p n, holds s p -> final_data p ->
    exists s', grow n s = Throw (s', Some (CouldNotFind KeyId)) /\ forall x, access s' x = access s x.
  Proof.
    intros s p n H [F1 F2]. destruct (grow_holds _ _ n H) as (s' & H' & ->).
    assert (find (absent (p_data p)) names = Some KeyId) as ->.
    { unfold absent. cbn [find names]. destruct (p_data p IdKey) eqn:E1; [|apply F2 in E1; discriminate].
      destruct (p_data p KeyId) eqn:E2; auto. assert (p_data p KeyId = None) by now apply F2. congruence. }
    exists s'. split; auto. intros x. rewrite (holds_access _ _ _ H'), (holds_access _ _ _ H). reflexivity.
  Qed.

  Theorem C93_put_finalized : forall s p x v, holds s p -> final_data p -> p_rw p = true -> reverse x = false ->
    fits (p_size p) (with_data (p_data p) x v) = false ->
    exists s', put used x (Data v) s = Throw (s', Some (CouldNotFind KeyId)) /\ forall y, access s' y = access s y.
  Proof.
    intros s p x v H F W R P. unfold put. cbn [put_retry]. rewrite (change_holds _ _ _ _ H). unfold absent.
    assert (p_data p x <> None) as N by (intros E; apply (proj2 F) in E; congruence). destruct (p_data p x) eqn:E; [|congruence].
    rewrite W, P. cbn [orb negb]. destruct (C93_grow_finalized _ _ (2 * size s) H F) as (s' & -> & A). cbn [bindO]. eauto.
  Qed.

  (** After finalizing, whatever is done (short of dropping everything), asking for one of the three maps is undefined behaviour. *)
  Theorem C93_reverse_gone : forall l s p x, holds s p -> (forall x, reverse x = true <-> p_data p x = None) -> reverse x = true ->
    snd (store_run (l ++ [Get x]) s) = false.
  Proof.
    intros l s p x H F R. rewrite (C93_life _ _ _ H). clear s H. revert p F. induction l as [|o l IH]; intros p F; cbn [app plain_run].
    - cbn [plain_step]. assert (p_data p x = None) as -> by now apply F. reflexivity.
    - destruct (plain_step o p) as [[p' a]|] eqn:E; [|reflexivity]. cbn [snd]. apply IH. clear IH.
      destruct o as [y v|y| |m|b]; cbn [plain_step] in E.
      + destruct (absent (p_data p) y || negb (p_rw p)) eqn:N; [discriminate|]. apply Bool.orb_false_iff in N. destruct N as [N _]. unfold absent in N.
        assert (D : forall z, reverse z = true <-> with_data (p_data p) y v z = None).
        { intros z. unfold with_data. destruct (name_eqb z y) eqn:Ez; auto. apply name_eqb_eq in Ez. subst. split; [|discriminate].
          intros Rz. apply F in Rz. rewrite Rz in N. discriminate. }
        destruct (fits (p_size p) _); [injection E as <- _; auto|]. destruct (find _ names); [injection E as <- _; auto|].
        destruct (fits (2 * p_size p) _); injection E as <- _; auto.
      + destruct (p_data p y); [|discriminate]. injection E as <- _. auto.
      + destruct (absent (p_data p) Finalized || negb (p_rw p)); [discriminate|]. injection E as <- _. cbn.
        intros z. unfold finalized_data. specialize (F z). destruct (reverse z) eqn:Rz; [tauto|]. destruct z; cbn in *; try tauto; split; congruence.
      + injection E as <- _. auto.
      + injection E as <- _. auto.
  Qed.

  (** ** The storage in memory *)
  Definition memory_op (o : op) : bool := match o with Grow _ | Reopen _ => false | Put Finalized _ => false | _ => true end.
  Definition mem_step (o : op) (m : memory V) : option (memory V * answer) :=
    match o with
    | Get x => match mem_access m x with Ok v => Some (m, Value v) | _ => None end
    | Put x v => match mem_change x v m with Ok m => Some (m, Done) | _ => None end
    | Finalize => Some (mem_finalize m, Done)
    | _ => None
    end.
  Fixpoint mem_run (l : list op) (m : memory V) : list answer * bool :=
    match l with
    | [] => ([], true)
    | o :: l => match mem_step o m with Some (m, a) => let r := mem_run l m in (a :: fst r, snd r) | None => ([], false) end
    end.
  Definition mem_data (m : memory V) (x : name) : option value :=
    match x with Finalized => Some (Flag (flag m)) | _ => option_map Data (cell m x) end.

  (** The storage in memory and the memory mapped one give the same answers and have undefined behaviour in the same cases, as long as there is place. *)
  Theorem C93_same : forall l m s p, holds s p -> p_rw p = true -> (forall x, p_data p x = mem_data m x) -> (forall f, fits (p_size p) f = true) ->
    forallb memory_op l = true -> store_run l s = mem_run l m.
  Proof.
    intros l m s p H W D F M. rewrite (C93_life _ _ _ H). clear s H. revert m p W D F M.
    induction l as [|o l IH]; intros m p W D F M; cbn [plain_run mem_run]; auto. cbn [forallb] in M. apply andb_prop in M. destruct M as [M1 M2].
    destruct o as [x v|x| | |]; try discriminate.
    - assert (x <> Finalized) as Nx by (intros ->; discriminate). cbn [plain_step mem_step]. unfold absent, mem_change. rewrite D.
      replace (mem_data m x) with (option_map (@Data V) (cell m x)) by (destruct x; try reflexivity; congruence).
      destruct (cell m x) as [c|] eqn:E; cbn [option_map orb]; [|reflexivity]. rewrite W, F. cbn [negb].
      rewrite (IH (mkMemory (set (cell m) x (Some v)) (flag m)) (mkPlain (p_size p) (with_data (p_data p) x v) true)); auto.
      intros y. cbn [p_data]. unfold with_data. destruct (name_eqb y x) eqn:Ey.
      + apply name_eqb_eq in Ey. subst y. unfold mem_data. cbn [cell]. rewrite set_same. destruct x; try reflexivity. congruence.
      + rewrite D. unfold mem_data. cbn [cell flag]. unfold set. rewrite Ey. reflexivity.
    - cbn [plain_step mem_step]. rewrite D. unfold mem_access, mem_data. destruct x; cbn [option_map];
        try (destruct (cell m _); cbn [option_map]; [rewrite (IH m p); auto|reflexivity]). rewrite (IH m p); auto.
    - cbn [plain_step mem_step]. unfold absent. rewrite D, W. cbn [mem_data orb negb].
      rewrite (IH (mem_finalize m) (mkPlain (p_size p) (finalized_data (p_data p)) true)); auto.
      intros x. cbn [p_data]. unfold finalized_data. destruct x; cbn; auto; rewrite D; reflexivity.
  Qed.

  (** A new storage in memory holds nine empty maps and is not finalized. *)
  Theorem C93_new_memory : forall x, mem_access (new_memory empty) x = Ok (match x with Finalized => Flag false | _ => Data empty end).
  Proof. intros []; reflexivity. Qed.

  (** The same of a new file. *)
  Theorem C93_new_values : forall n m s, new_store empty used n m = Ok s -> forall x, access s x = Ok (match x with Finalized => Flag false | _ => Data empty end).
  Proof.
    intros n m s E. unfold new_store, create, names in E. cbn [foldO] in E. unfold construct at 1 in E. cbn [objects size mapping writable ptr] in E.
    repeat (match type of E with context [if ?b then _ else _] => destruct b; cbn [bindO] in E; [|discriminate] end;
            try (unfold construct at 1 in E; cbn [objects size mapping writable ptr set name_eqb] in E)).
    injection E as <-. intros []; unfold access; cbn; rewrite Nat.eqb_refl; reflexivity.
  Qed.

  (** Saving and loading give back every map and the flag; the three maps of a finalized storage are neither saved nor taken away, so the loading
      storage keeps its own. *)
  Theorem C93_archive : forall (m m0 : memory V) a, exists m', load (save m ++ a) m0 = Some (m', a) /\
    forall x, mem_access m' x = if flag m && reverse x then mem_access m0 x else mem_access m x.
  Proof.
    intros [c f] [c0 f0] a. destruct f; cbn; eexists; (split; [reflexivity|]); intros x; destruct x; reflexivity.
  Qed.

  (** So the saved storage and the loaded one differ: asking the first for a key is undefined behaviour, the second says that there is none. *)
  Theorem C93_archive_refuted : exists m m' : memory V, load (save m) (new_memory empty) = Some (m', []) /\ mem_access m KeyId = UB /\ mem_access m' KeyId = Ok (Data empty).
  Proof. exists (mem_finalize (new_memory empty)). eexists. split; [reflexivity|]. split; reflexivity. Qed.
End Props.

(** ** The index storage *)
Section Index.
  Context {V : Type}.
  Variable used : list V -> nat.

  (** Read by the letter, building the index of a new memory mapped storage always starts with undefined behaviour: it grows first, and growing takes
      the address of a member of nothing. *)
  Theorem C93_index_refuted : forall n m k r v w, build_indices used UB k r v w (new_index n m) = UB.
  Proof. intros. unfold build_indices, index_grow, index_open. cbn [new_index i_size]. destruct (n <? k); reflexivity. Qed.

  Definition bare (s : index V) : Prop := points s = None /\ segments s = None.
  Lemma build_bare s v w : bare s -> used [v] <= used [v; w] ->
    (used [v; w] <= i_size s -> exists s', build_both used v w s = Ok (s', true) /\ points_index s' = Ok v /\ segments_index s' = Ok w /\ i_size s' = i_size s) /\
    (i_size s < used [v; w] -> exists s', build_both used v w s = Throw (s', true) /\ i_size s' = i_size s /\ i_mapping s' = i_mapping s).
  Proof.
    intros [P S] M. unfold build_both, build_points. rewrite P, S. cbn [i_used app]. unfold i_used. cbn [app]. split; intros L.
    - rewrite (proj2 (Nat.leb_le (used [v]) _)) by lia. cbn [bindO fst]. unfold build_segments. cbn [segments points i_size]. unfold i_used. cbn [app].
      rewrite (proj2 (Nat.leb_le (used [v; w]) _)) by lia. eexists. split; [reflexivity|]. unfold points_index, segments_index. cbn. rewrite Nat.eqb_refl. auto.
    - destruct (Nat.leb_spec (used [v]) (i_size s)).
      + cbn [bindO fst]. unfold build_segments. cbn [segments points i_size]. unfold i_used. cbn [app].
        rewrite (proj2 (Nat.leb_gt (used [v; w]) _)) by lia. eexists. split; [reflexivity|]. auto.
      + cbn [bindO]. eexists. split; [reflexivity|]. auto.
  Qed.

  Lemma retry_bare : forall r s v w, bare s -> 0 < i_size s -> used [v] <= used [v; w] ->
    (used [v; w] <= 2 ^ r * i_size s -> exists s', build_retry used r v w s = Ok (s', true) /\ points_index s' = Ok v /\ segments_index s' = Ok w) /\
    (2 ^ r * i_size s < used [v; w] -> exists s', build_retry used r v w s = Throw (s', true) /\ bare s' /\ points_index s' = UB /\ segments_index s' = UB).
  Proof.
    induction r as [|r IH]; intros s v w B P M; destruct (build_bare s v w B M) as [G F].
    - split; intros L; rewrite Nat.pow_0_r, Nat.mul_1_l in L.
      + destruct (G L) as (s' & E & A1 & A2 & _). cbn [build_retry]. rewrite E. eauto.
      + destruct (F L) as (s' & E & A1 & A2). cbn [build_retry]. rewrite E. cbv zeta. eexists. split; [reflexivity|].
        unfold index_drop_grow. rewrite (proj2 (Nat.ltb_lt (i_size s') (2 * i_size s')) ltac:(lia)). split; [split; reflexivity|].
        unfold points_index, segments_index. cbn. destruct (points_ptr s'), (segments_ptr s'); auto.
    - cbn [build_retry]. destruct (Nat.le_gt_cases (used [v; w]) (i_size s)) as [L|L].
      + destruct (G L) as (s' & E & A1 & A2 & _). rewrite E. split; [eauto|]. intros X. exfalso.
        assert (1 <= 2 ^ S r) by (apply Nat.neq_0_lt_0, Nat.pow_nonzero; lia). nia.
      + destruct (F L) as (s1 & E & A1 & A2). rewrite E. cbv zeta. set (s2 := index_drop_grow (2 * i_size s1) s1).
        assert (B2 : bare s2 /\ i_size s2 = 2 * i_size s).
        { unfold s2, index_drop_grow. rewrite (proj2 (Nat.ltb_lt (i_size s1) (2 * i_size s1)) ltac:(lia)). cbn. split; [split; reflexivity|]. lia. }
        destruct B2 as [B2 E2]. destruct (IH s2 v w B2 ltac:(lia) M) as [G2 F2]. rewrite E2 in G2, F2. cbn [Nat.pow].
        split; intros X; [apply G2|apply F2]; nia.
  Qed.

  (** If a member of nothing is nothing (the tree is the first member), building gives both trees as soon as they have place after the growths that are
      allowed, and otherwise ends with bad_alloc and a storage whose trees must not be asked. *)
  Theorem C93_index : forall n m k r v w, 0 < Nat.max n k -> used [v] <= used [v; w] ->
    (used [v; w] <= 2 ^ r * Nat.max n k ->
      exists s, build_indices used (Ok None) k r v w (new_index n m) = Ok (s, true) /\ points_index s = Ok v /\ segments_index s = Ok w) /\
    (2 ^ r * Nat.max n k < used [v; w] ->
      exists s, build_indices used (Ok None) k r v w (new_index n m) = Throw (s, true) /\ points_index s = UB /\ segments_index s = UB).
  Proof.
    intros n m k r v w P M. unfold build_indices, index_grow, index_open. cbn [new_index points_ptr segments_ptr is_some andb i_size points segments].
    set (s1 := if n <? k then _ else _).
    assert (E : i_size s1 = Nat.max n k /\ points s1 = None /\ segments s1 = None).
    { unfold s1. destruct (Nat.ltb_spec n k); cbn; repeat split; lia. }
    destruct E as (E1 & E2 & E3). rewrite E2, E3. cbn [find_member bindO].
    destruct (retry_bare r (mkIndex (i_size s1) None None (i_mapping s1) None None) v w) as [G F]; cbn [i_size]; try rewrite E1; auto; [split; reflexivity|].
    cbn [i_size] in G, F. rewrite E1 in G, F. split; intros L; [apply G, L|]. rewrite <- E1. destruct (F L) as (s & R & _ & A). rewrite <- E1 in R. eauto.
  Qed.

  (** Growing later keeps both trees. *)
  Theorem C93_index_grow : forall null (s : index V) n v w, points_index s = Ok v -> segments_index s = Ok w ->
    exists s', index_grow null n s = Ok s' /\ points_index s' = Ok v /\ segments_index s' = Ok w /\ i_size s' = Nat.max (i_size s) n.
  Proof.
    intros null s n v w A B. unfold points_index, segments_index, index_access in *.
    destruct (points_ptr s) as [a|] eqn:P1, (points s) as [b|] eqn:P2; try discriminate. destruct (a =? i_mapping s) eqn:E1; [|discriminate].
    destruct (segments_ptr s) as [c|] eqn:S1, (segments s) as [d|] eqn:S2; try discriminate. destruct (c =? i_mapping s) eqn:E2; [|discriminate].
    injection A as ->. injection B as ->. unfold index_grow. rewrite P1, S1. cbn [is_some].
    destruct (Nat.ltb_spec (i_size s) n); unfold index_open; cbn [points segments]; rewrite ?P2, ?S2; cbn [find_member i_mapping bindO points_ptr segments_ptr is_some negb andb];
      eexists; (split; [reflexivity|]); cbn; rewrite Nat.eqb_refl; repeat split; lia.
  Qed.

  (** Building a second time throws (not for want of place), and both trees stay as they are. *)
  Theorem C93_index_twice : forall null (s : index V) k r v w v' w', points_index s = Ok v -> segments_index s = Ok w ->
    exists s', build_indices used null k r v' w' s = Throw (s', false) /\ points_index s' = Ok v /\ segments_index s' = Ok w.
  Proof.
    intros null s k r v w v' w' A B. destruct (C93_index_grow null s k v w A B) as (s' & G & A' & B' & _). exists s'. split; [|auto].
    unfold build_indices. rewrite G. cbn [bindO]. assert (build_both used v' w' s' = Throw (s', false)) as E.
    { unfold build_both, build_points. unfold points_index, index_access in A'. destruct (points_ptr s'), (points s'); try discriminate. reflexivity. }
    destruct r; cbn [build_retry]; rewrite E; reflexivity.
  Qed.

  (** After dropping, the pointers still point to where the trees were: growing then, before building again, throws. *)
  Theorem C93_index_drop_grow_refuted : forall (s : index V) n k v w, points_index s = Ok v -> segments_index s = Ok w -> i_size s < n ->
    exists s', index_grow (Ok None) k (index_drop_grow n s) = Throw s' /\ points_index (index_drop_grow n s) = UB /\ points_index s' = UB.
  Proof.
    intros s n k v w A B L. unfold points_index, segments_index, index_access in *. destruct (points_ptr s) eqn:P, (points s); try discriminate.
    unfold index_drop_grow. rewrite (proj2 (Nat.ltb_lt _ _) L). unfold index_grow. cbn [points_ptr segments_ptr i_size]. rewrite P. cbn [is_some].
    unfold index_open. destruct (n <? k); cbn; rewrite ?P; eexists; (split; [reflexivity|]); auto.
  Qed.
  Theorem C93_index_lost : forall (s : index V) n k r v w v' w', points_index s = Ok v -> segments_index s = Ok w -> i_size s < n ->
    exists s', build_indices used (Ok None) k r v' w' (index_drop_grow n s) = Throw (s', false).
  Proof.
    intros s n k r v w v' w' A B L. destruct (C93_index_drop_grow_refuted s n k v w A B L) as (s' & E & _). exists s'. unfold build_indices. rewrite E. reflexivity.
  Qed.

  (** Each tree alone is built once: a second one is refused, and this is not a lack of memory. *)
  Theorem C93_index_once : forall (s : index V) v w, (points_index s = Ok v -> build_points used w s = Throw (s, false)) /\
    (segments_index s = Ok v -> build_segments used w s = Throw (s, false)).
  Proof.
    intros s v w. unfold points_index, segments_index, index_access, build_points, build_segments. split; intros E.
    - destruct (points_ptr s), (points s); try discriminate. reflexivity.
    - destruct (segments_ptr s), (segments s); try discriminate. reflexivity.
  Qed.
End Index.

(** ** Examples: numbers stored, four bytes and the number for each object *)
Definition ex_used (l : list (name * value nat)) : nat := fold_right (fun x n => 4 + (match snd x with Data v => v | Flag _ => 0 end) + n) 0 l.

Example C93_new_ex : exists s, new_store 0 ex_used 64 7 = Ok s /\ holds s (mkPlain 64 (new_data 0) true).
Proof. apply C93_new. intros j Hj. do 11 (destruct j as [|j]; [reflexivity|]). lia. Qed.

Example C93_no_place_ex : TagStore.fits ex_used 39 (first_names 0 10) = false /\ TagStore.fits ex_used 40 (first_names 0 10) = true.
Proof. split; reflexivity. Qed.

(** names are added (the second growth is needed for the edges), the storage is finalized, saved and opened again *)
Example C93_life_ex : forall s, new_store 0 ex_used 64 7 = Ok s ->
  store_run ex_used [Put IdKey 5; Put KeyId 6; Put EdgesMap 50; Get KeyId; Get EdgesMap; Finalize; Get Finalized; Get EdgesMap; Reopen true; Get IdKey; Get Finalized; Get KeyId] s
  = ([Done; Done; Done; Value (Data 6); Value (Data 50); Done; Value (Flag true); Value (Data 50); Done; Value (Data 5); Value (Flag true)], false).
Proof. intros s E. vm_compute in E. injection E as <-. vm_compute. reflexivity. Qed.

(** after finalizing there is no growing: the same entry that fits after a growth before is refused with the wrong message *)
Example C93_put_finalized_ex : forall s, new_store 0 ex_used 64 7 = Ok s ->
  store_run ex_used [Put EdgesMap 50; Get EdgesMap] s = ([Done; Value (Data 50)], true) /\
  store_run ex_used [Finalize; Put EdgesMap 50; Get EdgesMap; Put EdgesMap 9] s
  = ([Done; Failed (Some (CouldNotFind KeyId)); Value (Data 0); Done], true).
Proof. intros s E. vm_compute in E. injection E as <-. vm_compute. split; reflexivity. Qed.

Example C93_finalize_ex : exists (s : store nat) p s' p', holds s p /\ p_rw p = true /\ (forall x, p_data p x <> None) /\ finalize s = Ok s' /\ holds s' p' /\ final_data p'.
Proof.
  destruct C93_new_ex as (s & _ & H). destruct (C93_finalize ex_used s _ H eq_refl) as (s' & F & _ & _ & p' & H' & D & _); [intros x; discriminate|].
  exists s. eexists. exists s', p'. split; [exact H|]. split; [reflexivity|]. split; [intros x; discriminate|]. auto.
Qed.

Example C93_drop_ex : exists (s : store nat) p s', holds s p /\ p_size p < 128 /\ drop_grow 0 ex_used 128 s = Ok (s', None) /\ access s' KeyId = Ok (Data 0) /\ drop_grow 0 ex_used 128 s' = Throw (s', Some Refused).
Proof.
  destruct C93_new_ex as (s & _ & H). destruct (C93_drop 0 ex_used s _ 128 H) as (s' & D & H'); [cbn; lia|intros j Hj; do 11 (destruct j as [|j]; [reflexivity|]); lia|].
  exists s. eexists. exists s'. split; [exact H|]. split; [cbn; lia|]. split; [exact D|]. split; [now rewrite (holds_access _ _ _ H')|].
  apply (C93_drop_refused 0 ex_used s' _ 128 H'); cbn; [lia|discriminate].
Qed.

Example C93_same_ex : mem_run [Put KeyId 3; Get KeyId; Put NodesMap 8; Finalize; Get NodesMap; Get Finalized; Get IdsMap] (new_memory 0)
  = ([Done; Value (Data 3); Done; Done; Value (Data 8); Value (Flag true)], false).
Proof. reflexivity. Qed.
Example C93_same_ex2 : exists (s : store nat) p, holds s p /\ p_rw p = true /\ (forall x, p_data p x = mem_data (new_memory 0) x) /\ (forall f : name -> option (value nat), TagStore.fits (fun _ => 0) (p_size p) f = true).
Proof.
  destruct (C93_new 0 (fun _ => 0) 1 0) as (s & _ & H); [reflexivity|]. exists s. eexists. split; [exact H|]. split; [reflexivity|]. split; [|reflexivity].
  intros x. destruct x; reflexivity.
Qed.

Definition ex_tree (l : list nat) : nat := fold_right Nat.add 0 l.
Example C93_index_ex : exists s, build_indices ex_tree (Ok None) 8 3 20 25 (new_index 4 0) = Ok (s, true) /\ points_index s = Ok 20 /\ segments_index s = Ok 25 /\ i_size s = 64 /\
  (exists s', build_indices ex_tree (Ok None) 100 3 1 2 s = Throw (s', false) /\ points_index s' = Ok 20) /\
  exists s', build_indices ex_tree (Ok None) 8 2 20 25 (new_index 4 0) = Throw (s', true) /\ points_index s' = UB.
Proof. eexists. split; [vm_compute; reflexivity|]. split; [reflexivity|]. split; [reflexivity|]. split; [reflexivity|]. split; eexists; (split; [vm_compute; reflexivity|]); reflexivity. Qed.

Example C93_index_lost_ex : exists s, build_indices ex_tree (Ok None) 8 3 20 25 (new_index 4 0) = Ok (s, true) /\ build_segments ex_tree 3 s = Throw (s, false) /\
  exists s', build_indices ex_tree (Ok None) 8 3 1 2 (index_drop_grow 100 s) = Throw (s', false).
Proof. eexists. split; [vm_compute; reflexivity|]. split; [reflexivity|]. eexists. vm_compute. reflexivity. Qed.

Print Assumptions C93_life. Print Assumptions C93_new. Print Assumptions C93_drop. Print Assumptions C93_drop_refused. Print Assumptions C93_finalize.
Print Assumptions C93_grow_finalized. Print Assumptions C93_put_finalized. Print Assumptions C93_reverse_gone. Print Assumptions C93_same.
Print Assumptions C93_archive.
Print Assumptions C93_new_memory. Print Assumptions C93_archive_refuted. Print Assumptions C93_index_refuted. Print Assumptions C93_index.
Print Assumptions C93_index_grow. Print Assumptions C93_index_twice. Print Assumptions C93_index_drop_grow_refuted.
Print Assumptions C93_no_place.
Print Assumptions C93_new_values. Print Assumptions C93_index_lost. Print Assumptions C93_index_once.
