(** C44: caching distances and azimuths is transparent. *)
From Coq Require Import ZArith.
From Verif Require Import Base ListAux DistCache.
Local Open Scope nat_scope.

Section C44.
  Context {P C D A : Type}.
  Variable x y : P -> C.
  Variable ceq : C -> C -> bool.
  Variable dist : P -> P -> D.
  Variable azi : P -> P -> A.
  Notation keq := (keq ceq).
  Notation lookup := (lookup ceq).
  Notation step := (step x y ceq dist azi).
  Notation run := (run x y ceq dist azi).

  (** points with equal first two coordinates are interchangeable: one coordinate system, two dimensions, and no
      distinction between the coordinates the comparison identifies *)
  Definition same_place (a b : P) : Prop := ceq (x a) (x b) = true /\ ceq (y a) (y b) = true.
  Hypothesis dist_by_coordinates : forall a b a' b', same_place a a' -> same_place b b' -> dist a b = dist a' b'.
  Hypothesis azi_by_coordinates : forall a b a' b', same_place a a' -> same_place b b' -> azi a b = azi a' b'.

  Definition right {V} (f : P -> P -> V) (slot : option (list (key * V))) : Prop :=
    match slot with
    | None => True
    | Some m => forall k v, In (k, v) m -> exists a b, k = key_of x y a b /\ v = f a b
    end.
  Lemma lookup_in {V} (m : list (key * V)) k v : lookup m k = Some v -> exists k', In (k', v) m /\ keq k' k = true.
  Proof.
    unfold DistCache.lookup. destruct (find _ m) as [[k' v']|] eqn:E; [|discriminate]. intros H. injection H as <-.
    apply find_some in E as [E1 E2]. exists k'. auto.
  Qed.
  Lemma cached_right {V} (f : P -> P -> V) use slot a b :
    (forall a b a' b', same_place a a' -> same_place b b' -> f a b = f a' b') -> right f slot ->
    fst (cached x y ceq f use slot a b) = f a b /\ right f (snd (cached x y ceq f use slot a b)).
  Proof.
    intros Hf R. unfold cached. destruct use; [|auto]. set (m := match slot with None => [] | Some m => m end).
    assert (Rm : right f (Some m)) by (unfold m; destruct slot; [exact R|intros k v []]).
    destruct (lookup m (key_of x y a b)) as [v|] eqn:E; cbn [fst snd].
    - split; [|exact Rm]. destruct (lookup_in _ _ _ E) as (k & Hk & Hq). destruct (Rm _ _ Hk) as (a' & b' & -> & ->).
      cbn in Hq. apply andb_true_iff in Hq as [Hq Q4]. apply andb_true_iff in Hq as [Hq Q3]. apply andb_true_iff in Hq as [Q1 Q2].
      apply Hf; split; assumption.
    - split; [reflexivity|]. unfold emplace. rewrite E. intros k v Hkv. apply in_app_or in Hkv as [Hkv|[Hkv|[]]]; [apply Rm; exact Hkv|].
      injection Hkv as <- <-. eauto.
  Qed.

  Definition all_right (s : caches C D A) : Prop := (forall t, right dist (dcache s t)) /\ (forall t, right azi (acache s t)).
  (** what the calls return without any cache *)
  Definition direct (e : event P) : answer D A :=
    match e with
    | Distance _ a b => Dist (dist a b)
    | Azimuth _ a b => Azi (azi a b)
    | _ => Nothing
    end.

  Lemma step_right s e : all_right s -> fst (step s e) = direct e /\ all_right (snd (step s e)).
  Proof.
    intros [R1 R2]. destruct e as [| |t|t|t a b|t a b]; cbn.
    - repeat split; assumption.
    - repeat split; assumption.
    - repeat split; [|assumption]. intros u. cbn. unfold update. destruct (u =? t); [intros k v []|apply R1].
    - repeat split; [assumption|]. intros u. cbn. unfold update. destruct (u =? t); [intros k v []|apply R2].
    - destruct (cached_right dist (use_d s) (dcache s t) a b dist_by_coordinates (R1 t)) as [E R].
      destruct (cached x y ceq dist (use_d s) (dcache s t) a b) as [v m]. cbn in *. subst v. repeat split; [|assumption].
      intros u. cbn. unfold update. destruct (u =? t); [exact R|apply R1].
    - destruct (cached_right azi (use_a s) (acache s t) a b azi_by_coordinates (R2 t)) as [E R].
      destruct (cached x y ceq azi (use_a s) (acache s t) a b) as [v m]. cbn in *. subst v. repeat split; [assumption|].
      intros u. cbn. unfold update. destruct (u =? t); [exact R|apply R2].
  Qed.

  (** **** C44: every call of every history, by whatever threads, returns what it returns without caching. *)
  Theorem C44_transparent es : fst (run caches0 es) = map direct es.
  Proof.
    assert (G : forall es s, all_right s -> fst (run s es) = map direct es).
    { induction es0 as [|e r IH]; intros s R; [reflexivity|]. cbn [DistCache.run map]. destruct (step_right s e R) as [E R'].
      destruct (step s e) as [v s1]. cbn in E, R'. specialize (IH s1 R'). destruct (run s1 r) as [vs s2]. cbn in *. congruence. }
    apply G. split; intros t; exact I.
  Qed.

  (** **** C44: a value that has been stored is not computed again: a repeated call does not change the maps. *)
  Theorem C44_hit s t a b : (forall c : C, ceq c c = true) -> use_d s = true ->
    let s1 := snd (step s (Distance t a b)) in
    (exists m, dcache s1 t = Some m /\ lookup m (key_of x y a b) <> None) /\ forall u, dcache (snd (step s1 (Distance t a b))) u = dcache s1 u.
  Proof.
    intros Refl U s1. assert (Kr : keq (key_of x y a b) (key_of x y a b) = true) by (cbn; rewrite !Refl; reflexivity).
    assert (F : exists m, dcache s1 t = Some m /\ lookup m (key_of x y a b) <> None).
    { unfold s1. cbn. unfold cached. rewrite U. set (m := match dcache s t with None => [] | Some m => m end).
      destruct (lookup m (key_of x y a b)) eqn:E; cbn; unfold update; rewrite Nat.eqb_refl; eexists; (split; [reflexivity|]); [congruence|].
      unfold emplace. rewrite E. unfold DistCache.lookup in *. intros N. destruct (find _ (m ++ _)) eqn:Fd; [discriminate|].
      eapply find_none in Fd; [|apply in_or_app; right; left; reflexivity]. cbn [fst] in Fd. rewrite Kr in Fd. discriminate. }
    split; [exact F|]. destruct F as (m & E & L). intros u. cbn. assert (U1 : use_d s1 = true).
    { unfold s1. cbn. destruct (cached _ _ _ _ _ _ _ _) as [v m']. exact U. }
    unfold cached. rewrite U1, E. destruct (lookup m (key_of x y a b)) eqn:E'; [|congruence]. cbn. unfold update.
    destruct (Nat.eqb_spec u t) as [->|]; [symmetry; exact E|reflexivity].
  Qed.

  (** **** C44: the threads do not see each other's maps. *)
  Theorem C44_threads s e t : match e with ResetD u | ResetA u | Distance u _ _ | Azimuth u _ _ => u <> t | _ => True end ->
    dcache (snd (step s e)) t = dcache s t /\ acache (snd (step s e)) t = acache s t.
  Proof.
    assert (G : forall {V} (f : nat -> V) u v, u <> t -> update f u v t = f t).
    { intros V f u v N. unfold update. destruct (Nat.eqb_spec t u); [congruence|reflexivity]. }
    destruct e as [| |u|u|u a b|u a b]; cbn; intros N; rewrite ?G by exact N; auto.
    - destruct (cached _ _ _ _ _ _ _ _) as [v m]. cbn. rewrite G by exact N. auto.
    - destruct (cached _ _ _ _ _ _ _ _) as [v m]. cbn. rewrite G by exact N. auto.
  Qed.

  (** **** C44: without the caches switched on, and after they have been switched off again, nothing is stored; after switching on, both
      distances and azimuths are. *)
  Definition query (e : event P) : Prop := match e with Distance _ _ _ | Azimuth _ _ _ => True | _ => False end.
  Lemma off_stays es s : use_d s = false -> use_a s = false -> Forall query es ->
    let s' := snd (run s es) in forall t, dcache s' t = dcache s t /\ acache s' t = acache s t.
  Proof.
    intros Ud Ua H. revert s Ud Ua. induction H as [|e es He H IH]; intros s Ud Ua s' t; [cbn; auto|]. unfold s'. cbn [DistCache.run].
    assert (G : forall {V} (f : nat -> V) u, update f u (f u) t = f t).
    { intros V f u. unfold update. destruct (Nat.eqb_spec t u); [subst|]; reflexivity. }
    destruct e as [| |u|u|u a b|u a b]; try destruct He; unfold DistCache.step, cached; rewrite ?Ud, ?Ua.
    - specialize (IH (mkCaches (use_d s) (use_a s) (update (dcache s) u (dcache s u)) (acache s)) Ud Ua t). rewrite Ud, Ua in IH. cbn [dcache acache] in IH.
      destruct (run _ es) as [vs s2]. cbn in *. rewrite G in IH. exact IH.
    - specialize (IH (mkCaches (use_d s) (use_a s) (dcache s) (update (acache s) u (acache s u))) Ud Ua t). rewrite Ud, Ua in IH. cbn [dcache acache] in IH.
      destruct (run _ es) as [vs s2]. cbn in *. rewrite G in IH. exact IH.
  Qed.
  Theorem C44_switch s es : Forall query es ->
    (forall t, dcache (snd (run caches0 es)) t = None /\ acache (snd (run caches0 es)) t = None)
    /\ (forall t, dcache (snd (run s (Disable :: es))) t = dcache s t /\ acache (snd (run s (Disable :: es))) t = acache s t)
    /\ (forall t a b, (forall c : C, ceq c c = true) -> exists m n,
          dcache (snd (run s [Enable; Distance t a b; Azimuth t a b])) t = Some m /\ acache (snd (run s [Enable; Distance t a b; Azimuth t a b])) t = Some n
          /\ lookup m (key_of x y a b) <> None /\ lookup n (key_of x y a b) <> None).
  Proof.
    intros H. split; [|split].
    - intros t. apply (off_stays es caches0 eq_refl eq_refl H t).
    - intros t. cbn [DistCache.run]. cbn [DistCache.step].
      pose proof (off_stays es (mkCaches false false (dcache s) (acache s)) eq_refl eq_refl H t) as G. cbn [dcache acache] in G.
      destruct (run _ es) as [vs s2]. exact G.
    - intros t a b Refl. assert (Kr : keq (key_of x y a b) (key_of x y a b) = true) by (cbn; rewrite !Refl; reflexivity).
      assert (S : forall {V} (f : P -> P -> V) slot, exists m, snd (cached x y ceq f true slot a b) = Some m /\ lookup m (key_of x y a b) <> None).
      { intros V f slot. unfold cached. set (m := match slot with None => [] | Some m => m end).
        destruct (lookup m (key_of x y a b)) eqn:E; cbn; eexists; (split; [reflexivity|]); [congruence|].
        unfold emplace. rewrite E. unfold DistCache.lookup in *. intros N. destruct (find _ (m ++ _)) eqn:Fd; [discriminate|].
        eapply find_none in Fd; [|apply in_or_app; right; left; reflexivity]. cbn [fst] in Fd. rewrite Kr in Fd. discriminate. }
      cbn [DistCache.run DistCache.step use_d use_a dcache acache].
      destruct (S D dist (dcache s t)) as (m & E1 & L1). destruct (S A azi (acache s t)) as (n & E2 & L2).
      destruct (cached x y ceq dist true (dcache s t) a b) as [v1 m1]. cbn [use_d use_a dcache acache].
      destruct (cached x y ceq azi true (acache s t) a b) as [v2 n1]. cbn [snd] in E1, E2. subst m1 n1.
      cbn [snd dcache acache]. exists m, n. unfold update. rewrite !Nat.eqb_refl. auto.
  Qed.
End C44.

(** an instance in the plane: Manhattan distance *)
Definition manhattan (a b : Z * Z) : Z := (Z.abs (fst a - fst b) + Z.abs (snd a - snd b))%Z.
Definition slope (a b : Z * Z) : Z * Z := (fst b - fst a, snd b - snd a)%Z.
Example C44_instance : forall a b a' b' : Z * Z, same_place fst snd Z.eqb a a' -> same_place fst snd Z.eqb b b' ->
  manhattan a b = manhattan a' b' /\ slope a b = slope a' b'.
Proof.
  intros [a1 a2] [b1 b2] [c1 c2] [d1 d2] [H1 H2] [H3 H4]. cbn in *. apply Z.eqb_eq in H1, H2, H3, H4. subst. auto.
Qed.
Example C44_demo :
  let r := run (@fst Z Z) (@snd Z Z) Z.eqb manhattan slope caches0
    [Enable; Distance 0 (0, 0)%Z (3, 4)%Z; Distance 0 (0, 0)%Z (3, 4)%Z; Azimuth 0 (0, 0)%Z (3, 4)%Z; Distance 1 (0, 0)%Z (3, 4)%Z] in
  fst r = [Nothing; Dist 7; Dist 7; Azi (3, 4); Dist 7]%Z /\ dcache (snd r) 0 = Some [((0, 0, 3, 4), 7)]%Z.
Proof. vm_compute. auto. Qed.

(** What is not true: the key does not name the coordinate system, so that the first of two coordinate systems decides
    the distance between points with the same coordinates. *)
Theorem C44_two_systems_refuted : exists (dist : (bool * (Z * Z)) -> (bool * (Z * Z)) -> Z) (a b a' b' : bool * (Z * Z)),
  fst (run (fun p : bool * (Z * Z) => fst (snd p)) (fun p => snd (snd p)) Z.eqb dist (fun _ _ => 0%Z) caches0 [Enable; Distance 0 a b; Distance 0 a' b'])
    = [Nothing; Dist 111; Dist 111]%Z
  /\ dist a b = 111%Z /\ dist a' b' = 1%Z.
Proof.
  exists (fun p q : bool * (Z * Z) => if fst p then (111 * manhattan (snd p) (snd q))%Z else manhattan (snd p) (snd q)),
    (true, (0, 0))%Z, (true, (0, 1))%Z, (false, (0, 0))%Z, (false, (0, 1))%Z. vm_compute. auto.
Qed.

Print Assumptions C44_transparent.
Print Assumptions C44_hit.
Print Assumptions C44_threads.
Print Assumptions C44_switch.
