(** C76: the life cycle of memory mapped storages, see Storage.v. *)
From Verif Require Import Base ListAux Storage.

Section C76.
  Context {Path Build C : Type}.
  Variable peqb : Path -> Path -> bool.
  Hypothesis peqb_eq : forall p q, peqb p q = true <-> p = q.
  Variable beqb : Build -> Build -> bool.
  Hypothesis beqb_eq : forall a b, beqb a b = true <-> a = b.
  Variable this_build : Build.
  Variable moved_path : Path -> Path.
  Variable used : option C -> nat.
  Variable empty : C.
  Hypothesis used_least : forall c, used None <= used (Some c).
  Notation world := (@world Path Build C).
  Notation storage := (@storage Path).
  Notation container := (@container Path).
  Notation new_storage := (new_storage peqb beqb this_build used empty).
  Notation grow_storage := (grow_storage beqb this_build).
  Notation drop_grow_storage := (drop_grow_storage peqb this_build used empty).
  Notation delete_storage := (delete_storage peqb beqb this_build used).
  Notation shrink_storage := (shrink_storage beqb this_build used).
  Notation write := (write used).
  Notation path_of := (fun s : storage => k_path (s_container s)).

  (** **** What the statements need. *)
  (** every name is the name of one file, mappings are of files *)
  Definition sound (w : world) : Prop :=
    (forall p i, dir w p = Some i -> i < inodes w) /\ (forall p q i, dir w p = Some i -> dir w q = Some i -> p = q)
    /\ (forall x i m, mapped w x = Some (i, m) -> x < mappings w /\ i < inodes w).
  (** the storage is open on file [i] with mapping [x]: its pointers are valid and it holds [c] in a file of [n] bytes *)
  Definition holds (w : world) (s : storage) (m : mode) (n : nat) (c : C) (i x : nat) : Prop :=
    k_map (s_container s) = Some x /\ mapped w x = Some (i, m) /\ s_pointer s = Some x /\ s_allocator s = Some x
    /\ file_at w i = mkFile n (Some this_build) (Some c) /\ used (Some c) <= n /\ used (Some empty) <= n.
  (** the file has its name *)
  Definition named (w : world) (s : storage) (i : nat) : Prop := dir w (path_of s) = Some i.
  (** what happened concerns at most the name [p], the file [i], the mapping [x], and files and mappings that are new *)
  Definition frame (w w' : world) (p : Path) (i x : nat) : Prop :=
    (forall q, q <> p -> dir w' q = dir w q) /\ (forall j, j < inodes w -> j <> i -> file_at w' j = file_at w j)
    /\ (forall y, y < mappings w -> y <> x -> mapped w' y = mapped w y) /\ inodes w <= inodes w' /\ mappings w <= mappings w'.

  Lemma peqb_refl p : peqb p p = true.
  Proof. apply peqb_eq; reflexivity. Qed.
  Lemma peqb_neq p q : p <> q -> peqb p q = false.
  Proof. intros N. destruct (peqb p q) eqn:E; [apply peqb_eq in E; congruence|reflexivity]. Qed.
  Lemma beqb_refl b : beqb b b = true.
  Proof. apply beqb_eq; reflexivity. Qed.
  Lemma mapped_add (w : world) i m x : mapped (add_map w i m) x = if mappings w =? x then Some (i, m) else mapped w x.
  Proof. unfold mapped, add_map. cbn. destruct (mappings w =? x); reflexivity. Qed.
  Lemma mapped_del (w : world) id x : mapped (del_map w id) x = if x =? id then None else mapped w x.
  Proof.
    unfold mapped, del_map. cbn. induction (maps w) as [|[y v] l IH]; cbn; [destruct (x =? id); reflexivity|].
    destruct (Nat.eqb_spec y id) as [->|N]; cbn.
    - rewrite IH. destruct (Nat.eqb_spec x id) as [->|N]; [reflexivity|]. destruct (Nat.eqb_spec id x); [congruence|reflexivity].
    - destruct (Nat.eqb_spec y x) as [->|N']; cbn; [|exact IH]. destruct (Nat.eqb_spec x id); [congruence|reflexivity].
  Qed.
  Lemma frame_refl w p i x : frame w w p i x.
  Proof. repeat split; auto. Qed.
  Lemma frame_trans w w1 w2 p i x i' x' : frame w w1 p i x -> frame w1 w2 p i' x' -> i' = i \/ inodes w <= i' -> x' = x \/ mappings w <= x' ->
    frame w w2 p i x.
  Proof.
    intros (A1 & A2 & A3 & A4 & A5) (B1 & B2 & B3 & B4 & B5) I X. repeat split; try lia.
    - intros q Q. rewrite B1, A1; auto.
    - intros j J N. rewrite B2; [apply A2; auto|lia|destruct I; lia].
    - intros y Y N. rewrite B3; [apply A3; auto|lia|destruct X; lia].
  Qed.
  (** another open storage is not concerned *)
  Lemma frame_holds w w' p i x s m n c i' x' : sound w -> frame w w' p i x -> holds w s m n c i' x' -> i' <> i -> x' <> x -> holds w' s m n c i' x'.
  Proof.
    intros (_ & _ & Sd) (F1 & F2 & F3 & _) (H1 & H2 & H3 & H4 & H5 & H6) I X. destruct (Sd _ _ _ H2) as [L1 L2].
    unfold holds. rewrite (F3 x' L1 X), (F2 i' L2 I). repeat split; tauto.
  Qed.

  (** **** Creating. *)
  (** C76: a new storage is empty, whatever was at its path before.  Every other open storage keeps what it holds, also one that still uses the
      file that had this name. *)
  Theorem C76_create w p n d sh : sound w -> used (Some empty) <= n ->
    exists w' s, new_storage w p DestroyAndCreate n d sh = Ok (w', Some s) /\ sound w'
      /\ holds w' s ReadWrite n empty (inodes w) (mappings w) /\ named w' s (inodes w) /\ path_of s = p /\ s_destroy s = d /\ s_shrink s = sh
      /\ frame w w' p (inodes w) (mappings w)
      /\ forall s0 m0 n0 c0 i0 x0, holds w s0 m0 n0 c0 i0 x0 -> holds w' s0 m0 n0 c0 i0 x0.
  Proof.
    intros Sd Hn. pose proof (used_least empty) as U.
    unfold Storage.new_storage, base_destroy_and_create, destroy_and_create, destroy, close. cbn [k_map k_path]. unfold create_only. cbn [k_path dir set_dir].
    rewrite peqb_refl. rewrite (proj2 (Nat.ltb_ge _ _)) by lia. cbn [closed_on_throw k_map].
    set (w1 := add_map _ _ _). cbn [inodes mappings set_dir] in w1 |- *.
    unfold construct. assert (M1 : forall y, mapped w1 y = if mappings w =? y then Some (inodes w, ReadWrite) else mapped w y) by (intros y; unfold w1; rewrite mapped_add; reflexivity).
    rewrite M1, Nat.eqb_refl. assert (F1 : file_at w1 (inodes w) = mkFile n (Some this_build) None) by (unfold w1; cbn; rewrite Nat.eqb_refl; reflexivity).
    rewrite F1. cbn [f_content f_size f_info]. rewrite (proj2 (Nat.leb_le _ _) Hn). eexists _, _. split; [reflexivity|].
    set (w2 := set_file w1 _ _). assert (M2 : forall y, mapped w2 y = if mappings w =? y then Some (inodes w, ReadWrite) else mapped w y) by (intros y; rewrite <- M1; reflexivity).
    assert (D2 : forall q, dir w2 q = if peqb q p then Some (inodes w) else dir w q) by (intros q; unfold w2, w1; cbn; destruct (peqb q p); reflexivity).
    assert (F2 : forall j, file_at w2 j = if j =? inodes w then mkFile n (Some this_build) (Some empty) else file_at w j).
    { intros j. unfold w2, w1. cbn. destruct (j =? inodes w); reflexivity. }
    assert (I2 : inodes w2 = S (inodes w)) by reflexivity. assert (X2 : mappings w2 = S (mappings w)) by reflexivity. clearbody w2. clear w1 M1 F1.
    destruct Sd as (S1 & S2 & S3).
    assert (Fr : frame w w2 p (inodes w) (mappings w)).
    { split; [intros q Q; rewrite D2, peqb_neq by exact Q; reflexivity|]. split; [intros j J N; rewrite F2; destruct (Nat.eqb_spec j (inodes w)); [lia|reflexivity]|].
      split; [intros y Y N; rewrite M2; destruct (Nat.eqb_spec (mappings w) y); [lia|reflexivity]|]. lia. }
    split; [|split; [|split; [|split; [reflexivity|split; [reflexivity|split; [reflexivity|split; [exact Fr|]]]]]]].
    - split; [|split].
      + intros q i. rewrite D2. destruct (peqb q p); [intros [= <-]; lia|]. intros E. apply S1 in E. lia.
      + intros q r i. rewrite !D2. destruct (peqb q p) eqn:Eq, (peqb r p) eqn:Er; intros A B.
        * apply peqb_eq in Eq, Er. congruence.
        * injection A as <-. apply S1 in B. lia.
        * injection B as <-. apply S1 in A. lia.
        * apply (S2 q r i A B).
      + intros y i m. rewrite M2. destruct (Nat.eqb_spec (mappings w) y); [intros [= <- <-]; lia|]. intros E. apply S3 in E. lia.
    - unfold holds. cbn. rewrite M2, Nat.eqb_refl, F2, Nat.eqb_refl. auto 10.
    - unfold named. cbn. rewrite D2, peqb_refl. reflexivity.
    - intros s0 m0 n0 c0 i0 x0 H. destruct (S3 _ _ _ (proj1 (proj2 H))) as [L1 L2].
      apply (frame_holds w w2 p (inodes w) (mappings w)); [repeat split; auto; eapply S3; eassumption|exact Fr|exact H|lia|lia].
  Qed.

  (** **** Opening. *)
  (** C76: without place for an empty value, creating throws: no mapping remains and nothing else is changed, but what had this name has lost it (the
      old file is removed first), and a file without a value may be left. *)
  Theorem C76_create_fails w p n d sh : sound w -> n < used (Some empty) ->
    exists w', new_storage w p DestroyAndCreate n d sh = Throw (w', None) /\ frame w w' p (inodes w) (mappings w)
      /\ (forall y, y < mappings w -> mapped w' y = mapped w y) /\ (forall y, mappings w <= y -> mapped w' y = None)
      /\ (dir w' p = None \/ dir w' p = Some (inodes w) /\ file_at w' (inodes w) = mkFile n (Some this_build) None).
  Proof.
    intros (S1 & S2 & S3) Hn. assert (Nw : forall y, mappings w <= y -> mapped w y = None).
    { intros y Y. destruct (mapped w y) as [[i m]|] eqn:E; [|reflexivity]. apply S3 in E. lia. }
    unfold Storage.new_storage, base_destroy_and_create, destroy_and_create, destroy, close. cbn [k_map k_path]. unfold create_only. cbn [k_path dir set_dir].
    rewrite peqb_refl. destruct (Nat.ltb_spec n (used None)) as [L|L]; cbn [closed_on_throw].
    - unfold close. cbn [k_map]. eexists. split; [reflexivity|]. split; [|split; [|split]].
      + split; [|split; [|split; [|cbn; lia]]]; auto. intros q Q. cbn. rewrite peqb_neq; auto.
      + reflexivity.
      + exact Nw.
      + left. cbn. rewrite peqb_refl. reflexivity.
    - cbn [k_map]. set (w1 := add_map _ _ _). cbn [inodes mappings set_dir] in w1 |- *.
      assert (M1 : forall y, mapped w1 y = if mappings w =? y then Some (inodes w, ReadWrite) else mapped w y) by (intros y; unfold w1; rewrite mapped_add; reflexivity).
      unfold construct. rewrite M1, Nat.eqb_refl. assert (F1 : file_at w1 (inodes w) = mkFile n (Some this_build) None) by (unfold w1; cbn; rewrite Nat.eqb_refl; reflexivity).
      rewrite F1. cbn [f_content f_size f_info]. rewrite (proj2 (Nat.leb_gt _ _) Hn). unfold close. cbn [k_map fst].
      assert (M2 : forall y, mapped (del_map w1 (mappings w)) y = if y =? mappings w then None else mapped w y).
      { intros y. rewrite mapped_del, M1. destruct (Nat.eqb_spec y (mappings w)) as [->|N]; [reflexivity|]. rewrite (proj2 (Nat.eqb_neq _ _)) by congruence. reflexivity. }
      eexists. split; [reflexivity|]. split; [|split; [|split]].
      + split; [|split; [|split; [|cbn; lia]]].
        * intros q Q. cbn. rewrite !peqb_neq by auto. reflexivity.
        * intros j J _. cbn. rewrite (proj2 (Nat.eqb_neq _ _)) by lia. reflexivity.
        * intros y Y _. rewrite M2, (proj2 (Nat.eqb_neq _ _)) by lia. reflexivity.
      + intros y Y. rewrite M2, (proj2 (Nat.eqb_neq _ _)) by lia. reflexivity.
      + intros y Y. rewrite M2. destruct (y =? mappings w); auto.
      + right. split; [cbn; rewrite peqb_refl; reflexivity|]. exact F1.
  Qed.

  (** C76: an existing storage is opened exactly if it was written by the same build (compiler and version): then it holds what was written.
      Otherwise an exception is thrown, no mapping remains and nothing is changed. *)
  Theorem C76_open w p n i b c d sh : sound w -> dir w p = Some i -> file_at w i = mkFile n b (Some c) -> used (Some c) <= n -> used (Some empty) <= n ->
    (b = Some this_build -> exists w' s, new_storage w p OpenReadOnly 0 d sh = Ok (w', Some s) /\ sound w'
       /\ holds w' s ReadOnly n c i (mappings w) /\ named w' s i /\ path_of s = p /\ frame w w' p i (mappings w) /\ dir w' = dir w /\ file_at w' = file_at w)
    /\ (b <> Some this_build -> exists w', new_storage w p OpenReadOnly 0 d sh = Throw (w', None) /\ dir w' = dir w /\ file_at w' = file_at w
       /\ forall y, mapped w' y = mapped w y).
  Proof.
    intros (S1 & S2 & S3) D F Hn He. split; intros B; unfold Storage.new_storage, base_open_read_only, open_with; cbn [k_path]; rewrite D; unfold same_build; rewrite F; cbn [f_info].
    - rewrite B, beqb_refl. cbn [closed_on_throw k_map]. unfold find_content. rewrite mapped_add, Nat.eqb_refl. cbn [file_at add_map].
      rewrite F. cbn [f_content]. eexists _, _. split; [reflexivity|]. split; [|split; [|split; [|split; [|split]]]]; auto.
      + split; [exact S1|]. split; [exact S2|]. intros y j m. rewrite mapped_add. cbn. destruct (Nat.eqb_spec (mappings w) y).
        * intros [= <- <-]. split; [lia|]. eapply S1, D.
        * intros E. apply S3 in E. lia.
      + unfold holds. cbn. rewrite mapped_add, Nat.eqb_refl. subst b. auto 10.
      + split; [reflexivity|]. split; [reflexivity|]. split; [|cbn; lia].
        intros y Y N. rewrite mapped_add. destruct (Nat.eqb_spec (mappings w) y); [lia|reflexivity].
    - assert ((match b with Some b' => beqb b' this_build | None => false end) = false) as ->.
      { destruct b as [b'|]; [|reflexivity]. destruct (beqb b' this_build) eqn:E; [apply beqb_eq in E; congruence|reflexivity]. }
      cbn [closed_on_throw close k_map]. eexists. split; [reflexivity|]. split; [reflexivity|]. split; [reflexivity|].
      intros y. rewrite mapped_del, mapped_add. destruct (Nat.eqb_spec y (mappings w)) as [->|N].
      + destruct (mapped w (mappings w)) as [[j m]|] eqn:E; [apply S3 in E; lia|reflexivity].
      + destruct (Nat.eqb_spec (mappings w) y); [congruence|reflexivity].
  Qed.
  Theorem C76_missing w p d sh : dir w p = None -> new_storage w p OpenReadOnly 0 d sh = Throw (w, None).
  Proof. intros D. unfold Storage.new_storage, base_open_read_only, open_with. cbn [k_path]. rewrite D. reflexivity. Qed.

  (** **** Growing, writing, moving. *)
  Lemma holds_size w s m n c i x : holds w s m n c i x -> size w (s_container s) = n.
  Proof. intros (H1 & H2 & _ & _ & H5 & _). unfold size. rewrite H1, H2, H5. reflexivity. Qed.
  Lemma grow_ok w s m n c i x k : sound w -> holds w s m n c i x -> named w s i -> n < k ->
    exists w' s', grow_storage w s k = Ok (w', s') /\ sound w' /\ holds w' s' ReadWrite k c i (mappings w) /\ named w' s' i
      /\ path_of s' = path_of s /\ s_destroy s' = s_destroy s /\ s_shrink s' = s_shrink s /\ frame w w' (path_of s) i x /\ dir w' = dir w.
  Proof.
    intros (S1 & S2 & S3) H N Hk. pose proof (holds_size _ _ _ _ _ _ _ H) as Hs. destruct H as (H1 & H2 & H3 & H4 & H5 & H6 & H7).
    unfold Storage.grow_storage, grow. rewrite Hs, (proj2 (Nat.ltb_lt _ _) Hk). unfold close. rewrite H1. cbn [k_path dir del_map]. unfold named in N. rewrite N.
    cbn [file_at del_map]. rewrite H5. cbn [f_size f_info f_content]. unfold open_with. cbn [k_path dir set_file del_map]. rewrite N.
    unfold same_build. cbn [file_at set_file]. rewrite Nat.eqb_refl. cbn [f_info]. rewrite beqb_refl. cbn [bindO fst snd k_map].
    set (w1 := add_map _ i ReadWrite).
    assert (M1 : forall y, mapped w1 y = if mappings w =? y then Some (i, ReadWrite) else if y =? x then None else mapped w y).
    { intros y. unfold w1. rewrite mapped_add. cbn [mappings set_file del_map]. destruct (mappings w =? y); [reflexivity|]. apply (mapped_del w x y). }
    assert (F1 : forall j, file_at w1 j = if j =? i then mkFile k (Some this_build) (Some c) else file_at w j).
    { intros j. unfold w1. cbn. replace (n + (k - n)) with k by lia. reflexivity. }
    assert (D1 : dir w1 = dir w) by reflexivity. assert (I1 : inodes w1 = inodes w) by reflexivity. assert (X1 : mappings w1 = S (mappings w)) by reflexivity.
    cbn [mappings set_file del_map]. clearbody w1. unfold find_content. rewrite M1, Nat.eqb_refl, F1, Nat.eqb_refl. cbn [f_content].
    eexists _, _. split; [reflexivity|]. destruct (S3 _ _ _ H2) as [Lx Li].
    split; [|split; [|split; [|split; [|split; [|split; [|split]]]]]]; try reflexivity; auto.
    - split; [|split].
      + intros p j. rewrite D1, I1. apply S1.
      + intros p q j. rewrite D1. apply S2.
      + intros y j m'. rewrite M1, I1, X1. destruct (Nat.eqb_spec (mappings w) y); [intros [= <- <-]; lia|]. destruct (y =? x); [discriminate|].
        intros E. apply S3 in E. lia.
    - unfold holds. cbn. rewrite M1, Nat.eqb_refl, F1, Nat.eqb_refl. repeat split; auto; lia.
    - unfold named. cbn. rewrite D1. exact N.
    - split; [intros; rewrite D1; reflexivity|]. split; [intros j J Nj; rewrite F1; destruct (Nat.eqb_spec j i); [congruence|reflexivity]|].
      split; [|lia]. intros y Y Ny. rewrite M1. destruct (Nat.eqb_spec (mappings w) y); [lia|]. destruct (Nat.eqb_spec y x); [congruence|reflexivity].
  Qed.
  Lemma grow_nothing w s m n c i x k : sound w -> holds w s m n c i x -> k <= n ->
    exists s', grow_storage w s k = Ok (w, s') /\ holds w s' m n c i x /\ path_of s' = path_of s /\ s_destroy s' = s_destroy s /\ s_shrink s' = s_shrink s.
  Proof.
    intros _ H Hk. pose proof (holds_size _ _ _ _ _ _ _ H) as Hs. pose proof H as (H1 & H2 & H3 & H4 & H5 & H6 & H7).
    unfold Storage.grow_storage, grow. rewrite Hs, (proj2 (Nat.ltb_ge _ _) Hk). cbn [bindO]. rewrite H1. unfold find_content. rewrite H2, H5. cbn [f_content].
    eexists. split; [reflexivity|]. split; [|auto]. unfold holds, prepare_allocator. cbn. rewrite H1. repeat split; auto.
  Qed.

  (** what a program does with a storage that it has created *)
  Inductive op := Write (c : C) | Grow (n : nat) | DropGrow (n : nat) | Move.
  (** exceptions are caught; a moved-from storage is destroyed at once, as the temporary objects in the app are *)
  Definition act (w : world) (s : storage) (o : op) : outcome (world * storage) :=
    match o with
    | Write c => match write w s c with Ok w' => Ok (w', s) | Throw w' => Ok (w', s) | UB => UB | Fuel => Fuel end
    | Grow n => match grow_storage w s n with Ok r => Ok r | Throw r => Ok r | UB => UB | Fuel => Fuel end
    | DropGrow n => match drop_grow_storage w s n with Ok r => Ok r | Throw r => Ok r | UB => UB | Fuel => Fuel end
    | Move => let '(s', old) := move_storage moved_path s in
              match delete_storage w old with Ok w' => Ok (w', s') | Throw w' => Ok (w', s') | UB => UB | Fuel => Fuel end
    end.
  Fixpoint acts (w : world) (s : storage) (l : list op) : outcome (world * storage) :=
    match l with
    | [] => Ok (w, s)
    | o :: r => match act w s o with Ok (w', s') => acts w' s' r | Throw x => Throw x | UB => UB | Fuel => Fuel end
    end.
  (** what it should hold then: size and value *)
  Definition effect (v : nat * C) (o : op) : nat * C :=
    match o with
    | Write c => if used (Some c) <=? fst v then (fst v, c) else v
    | Grow n => (Nat.max (fst v) n, snd v)
    | DropGrow n => if fst v <? n then (n, empty) else v
    | Move => v
    end.
  (** a moved-from path names no file *)
  Definition nowhere (w : world) (p : Path) : Prop := forall q, dir w (moved_path q) = None /\ moved_path q <> p.

  (** C76: the destructor of a storage that was moved away changes nothing, as long as the path that the move leaves names no file. *)
  Theorem C76_moved w s : dir w (moved_path (path_of s)) = None -> exists w', delete_storage w (snd (move_storage moved_path s)) = Ok w'
    /\ (forall q, dir w' q = dir w q) /\ file_at w' = file_at w /\ maps w' = maps w /\ inodes w' = inodes w /\ mappings w' = mappings w.
  Proof.
    intros Nd. unfold move_storage, Storage.delete_storage. cbn [snd s_shrink s_destroy s_container].
    destruct (s_shrink s && negb (s_destroy s)).
    - unfold shrink_to_fit, close. cbn [k_map k_path]. rewrite Nd. cbn. exists w. auto 10.
    - destruct (s_destroy s); cbn.
      + eexists. split; [reflexivity|]. cbn. split; [|auto]. intros q. destruct (peqb q (moved_path (path_of s))) eqn:E; [|reflexivity].
        apply peqb_eq in E. subst q. symmetry. exact Nd.
      + exists w. auto 10.
  Qed.

  (** C76: making anew without more place is refused, and the storage holds what it held. *)
  Theorem C76_drop_refused w s n c i x k : holds w s ReadWrite n c i x -> k <= n -> drop_grow_storage w s k = Throw (w, s).
  Proof.
    intros H Hk. unfold Storage.drop_grow_storage, drop_grow. rewrite (holds_size _ _ _ _ _ _ _ H), (proj2 (Nat.ltb_ge _ _) Hk).
    destruct H as (H1 & H2 & H3 & H4 & H5 & _). destruct s as [k0 d0 sh0 a0 p0]. cbn in H1, H3, H4. subst a0 p0. cbn [bindO fst snd s_container]. rewrite H1.
    unfold construct. rewrite H2, H5. cbn. unfold prepare_allocator. rewrite H1. reflexivity.
  Qed.
  (** C76: what is left after a move has no size, so it can neither be read nor written, and the number of attempts to grow it is not defined. *)
  Theorem C76_moved_unusable (w : world) (s : storage) available (c : C) : size w (s_container (snd (move_storage moved_path s))) = 0
    /\ read w (snd (move_storage moved_path s)) = UB /\ write w (snd (move_storage moved_path s)) c = UB
    /\ max_retries available w (s_container (snd (move_storage moved_path s))) = UB.
  Proof. repeat split; reflexivity. Qed.

  Lemma act_ok o w s n c i x : sound w -> holds w s ReadWrite n c i x -> named w s i -> nowhere w (path_of s) ->
    exists w' s' i' x', act w s o = Ok (w', s') /\ sound w' /\ holds w' s' ReadWrite (fst (effect (n, c) o)) (snd (effect (n, c) o)) i' x' /\ named w' s' i'
      /\ nowhere w' (path_of s') /\ path_of s' = path_of s /\ s_destroy s' = s_destroy s /\ s_shrink s' = s_shrink s
      /\ frame w w' (path_of s) i x /\ (i' = i \/ inodes w <= i') /\ (x' = x \/ mappings w <= x').
  Proof.
    intros Sd H N Nw. destruct o as [c'|k|k|]; cbn [act effect fst snd].
    - (* Write *)
      pose proof H as (H1 & H2 & H3 & H4 & H5 & H6 & H7). unfold Storage.write. rewrite H3, H4, Nat.eqb_refl, H2, H5. cbn [f_size f_info].
      destruct (Nat.leb_spec (used (Some c')) n) as [L|L].
      + eexists _, s, i, x. split; [reflexivity|]. destruct Sd as (S1 & S2 & S3). split; [repeat split; [exact S1|exact S2|eapply S3; eassumption|eapply S3; eassumption]|].
        split; [unfold holds; cbn; rewrite Nat.eqb_refl; repeat split; auto|]. split; [exact N|]. split; [exact Nw|]. do 3 (split; [reflexivity|]).
        split; [|auto]. split; [auto|]. split; [|split; [auto|cbn; lia]]. intros j J Nj. cbn. destruct (Nat.eqb_spec j i); [congruence|reflexivity].
      + exists w, s, i, x. split; [reflexivity|]. split; [exact Sd|]. split; [exact H|]. split; [exact N|]. split; [exact Nw|]. do 3 (split; [reflexivity|]).
        split; [apply frame_refl|auto].
    - (* Grow *)
      destruct (Nat.lt_ge_cases n k) as [L|L].
      + destruct (grow_ok w s ReadWrite n c i x k Sd H N L) as (w' & s' & -> & Sd' & H' & N' & P' & E1 & E2 & Fr & D').
        exists w', s', i, (mappings w). split; [reflexivity|]. split; [exact Sd'|]. rewrite Nat.max_r by lia. split; [exact H'|]. split; [exact N'|].
        split; [intros q; rewrite D', P'; apply Nw|]. repeat split; try apply Fr; auto.
      + destruct (grow_nothing w s ReadWrite n c i x k Sd H L) as (s' & -> & H' & P' & E1 & E2). exists w, s', i, x. split; [reflexivity|]. split; [exact Sd|].
        rewrite Nat.max_l by lia. split; [exact H'|]. split; [unfold named; rewrite P'; exact N|]. split; [rewrite P'; exact Nw|]. do 3 (split; [assumption|]).
        split; [apply frame_refl|auto].
    - (* DropGrow *)
      pose proof (holds_size _ _ _ _ _ _ _ H) as Hs. pose proof H as (H1 & H2 & H3 & H4 & H5 & H6 & H7). destruct Sd as (S1 & S2 & S3).
      destruct (S3 _ _ _ H2) as [Lx Li]. pose proof (used_least empty) as U.
      unfold Storage.drop_grow_storage, drop_grow. rewrite Hs. destruct (Nat.ltb_spec n k) as [L|L].
      + unfold destroy, close. rewrite H1. cbn [k_path]. unfold create_only. cbn [k_path dir set_dir]. rewrite peqb_refl, (proj2 (Nat.ltb_ge _ _)) by lia.
        cbn [inodes mappings set_dir del_map bindO k_map]. set (w1 := add_map _ _ _).
        assert (M1 : forall y, mapped w1 y = if mappings w =? y then Some (inodes w, ReadWrite) else if y =? x then None else mapped w y).
        { intros y. unfold w1. rewrite mapped_add. cbn [mappings set_dir set_file del_map]. destruct (mappings w =? y); [reflexivity|]. apply (mapped_del w x y). }
        assert (D1 : forall q, dir w1 q = if peqb q (path_of s) then Some (inodes w) else dir w q).
        { intros q. unfold w1. cbn. destruct (peqb q (path_of s)); reflexivity. }
        assert (F1 : forall j, file_at w1 j = if j =? inodes w then mkFile k (Some this_build) None else file_at w j) by reflexivity.
        assert (I1 : inodes w1 = S (inodes w)) by reflexivity. assert (X1 : mappings w1 = S (mappings w)) by reflexivity. clearbody w1.
        unfold construct. rewrite M1, Nat.eqb_refl, F1, Nat.eqb_refl. cbn [f_content f_size f_info]. rewrite (proj2 (Nat.leb_le _ _)) by lia.
        set (w2 := set_file w1 _ _). eexists w2, _, (inodes w), (mappings w). split; [reflexivity|].
        assert (F2 : forall j, file_at w2 j = if j =? inodes w then mkFile k (Some this_build) (Some empty) else file_at w j).
        { intros j. unfold w2. cbn. rewrite F1. destruct (j =? inodes w); reflexivity. }
        assert (M2 : forall y, mapped w2 y = mapped w1 y) by reflexivity. assert (D2 : forall q, dir w2 q = dir w1 q) by reflexivity.
        assert (I2 : inodes w2 = S (inodes w)) by (rewrite <- I1; reflexivity). assert (X2 : mappings w2 = S (mappings w)) by (rewrite <- X1; reflexivity).
        clearbody w2. cbn [fst snd].
        split; [|split; [|split; [|split; [|split; [reflexivity|split; [reflexivity|split; [reflexivity|split; [|auto]]]]]]]].
        * split; [|split].
          -- intros q j. rewrite D2, D1, I2. destruct (peqb q _); [intros [= <-]; lia|]. intros E. apply S1 in E. lia.
          -- intros q r j. rewrite !D2, !D1. destruct (peqb q (path_of s)) eqn:Eq, (peqb r (path_of s)) eqn:Er; intros A B.
             ++ apply peqb_eq in Eq, Er. congruence.
             ++ injection A as <-. apply S1 in B. lia.
             ++ injection B as <-. apply S1 in A. lia.
             ++ apply (S2 q r j A B).
          -- intros y j m. rewrite M2, M1, I2, X2. destruct (Nat.eqb_spec (mappings w) y); [intros [= <- <-]; lia|]. destruct (y =? x); [discriminate|].
             intros E. apply S3 in E. lia.
        * unfold holds. cbn. rewrite M2, M1, Nat.eqb_refl, F2, Nat.eqb_refl. repeat split; auto; lia.
        * unfold named. cbn [s_container k_path]. rewrite D2, D1, peqb_refl. reflexivity.
        * intros q. cbn. rewrite D2, D1, peqb_neq by apply Nw. apply Nw.
        * split; [intros q Q; rewrite D2, D1, peqb_neq by exact Q; reflexivity|].
          split; [intros j J Nj; rewrite F2; destruct (Nat.eqb_spec j (inodes w)); [lia|reflexivity]|]. split; [|lia].
          intros y Y Ny. rewrite M2, M1. destruct (Nat.eqb_spec (mappings w) y); [lia|]. destruct (Nat.eqb_spec y x); [congruence|reflexivity].
      + cbn [bindO]. rewrite H1. unfold construct. rewrite H2, H5. cbn [f_content]. eexists w, _, i, x. split; [reflexivity|]. split; [repeat split; auto; eapply S3; eassumption|].
        cbn [fst snd]. split; [unfold holds, prepare_allocator; cbn; rewrite H1; repeat split; auto|]. split; [exact N|]. split; [exact Nw|]. do 3 (split; [reflexivity|]). split; [apply frame_refl|auto].
    - (* Move *)
      unfold move_storage. cbn [fst snd].
      destruct Sd as (S1 & S2 & S3). destruct (Nw (path_of s)) as [Nd Np].
      destruct (C76_moved w s Nd) as (w' & E' & D' & F' & M' & I' & X'). cbn [snd move_storage] in E'. rewrite E'.
      assert (Mp : forall y, mapped w' y = mapped w y) by (intros y; unfold mapped; rewrite M'; reflexivity).
      exists w', s, i, x. split; [reflexivity|]. split; [|split; [|split; [|split; [|split; [reflexivity|split; [reflexivity|split; [reflexivity|split; [|auto]]]]]]]].
      + split; [intros p j; rewrite D', I'; apply S1|]. split; [intros p q j; rewrite !D'; apply S2|]. intros y j m. rewrite Mp, I', X'. apply S3.
      + unfold holds in *. rewrite Mp, F'. exact H.
      + unfold named. rewrite D'. exact N.
      + intros q. rewrite D'. apply Nw.
      + split; [auto|]. split; [intros; rewrite F'; reflexivity|]. split; [auto|]. lia.
  Qed.
  (** C76: whatever is done with a storage, its pointers stay valid; it holds the last value that had place, or nothing if it was made anew since
      then; its size never decreases.  No other storage and no other file is concerned. *)
  Theorem C76_life ops w s n c i x : sound w -> holds w s ReadWrite n c i x -> named w s i -> nowhere w (path_of s) ->
    exists w' s' i' x' n' c', acts w s ops = Ok (w', s') /\ fold_left effect ops (n, c) = (n', c')
      /\ sound w' /\ holds w' s' ReadWrite n' c' i' x' /\ named w' s' i' /\ read w' s' = Ok (Some c') /\ n <= n'
      /\ path_of s' = path_of s /\ s_destroy s' = s_destroy s /\ s_shrink s' = s_shrink s /\ frame w w' (path_of s) i x
      /\ (forall s0 m0 n0 c0 i0 x0, holds w s0 m0 n0 c0 i0 x0 -> i0 <> i -> x0 <> x -> holds w' s0 m0 n0 c0 i0 x0).
  Proof.
    intros Sd H N Nw.
    assert (G : exists w' s' i' x' n' c', acts w s ops = Ok (w', s') /\ fold_left effect ops (n, c) = (n', c')
      /\ sound w' /\ holds w' s' ReadWrite n' c' i' x' /\ named w' s' i' /\ n <= n'
      /\ path_of s' = path_of s /\ s_destroy s' = s_destroy s /\ s_shrink s' = s_shrink s /\ frame w w' (path_of s) i x
      /\ (i' = i \/ inodes w <= i') /\ (x' = x \/ mappings w <= x')).
    { revert w s n c i x Sd H N Nw. induction ops as [|o ops IH]; intros w s n c i x Sd H N Nw.
      - exists w, s, i, x, n, c. cbn. do 2 (split; [reflexivity|]). split; [exact Sd|]. split; [exact H|]. split; [exact N|]. split; [lia|].
        do 3 (split; [reflexivity|]). split; [apply frame_refl|auto].
      - destruct (act_ok o w s n c i x Sd H N Nw) as (w1 & s1 & i1 & x1 & E1 & Sd1 & H1 & N1 & Nw1 & P1 & De1 & Sh1 & Fr1 & I1 & X1).
        cbn [acts fold_left]. rewrite E1. rewrite (surjective_pairing (effect (n, c) o)).
        destruct (IH w1 s1 _ _ i1 x1 Sd1 H1 N1 Nw1) as (w2 & s2 & i2 & x2 & n2 & c2 & E2 & Ef & Sd2 & H2 & N2 & L2 & P2 & De2 & Sh2 & Fr2 & I2 & X2).
        exists w2, s2, i2, x2, n2, c2. split; [exact E2|]. split; [exact Ef|]. split; [exact Sd2|]. split; [exact H2|]. split; [exact N2|].
        assert (n <= fst (effect (n, c) o)).
        { destruct o as [c0|k|k|]; cbn [effect fst snd]; [destruct (_ <=? _)| |destruct (Nat.ltb_spec n k)|]; cbn [fst snd]; lia. }
        split; [lia|]. split; [congruence|]. split; [congruence|]. split; [congruence|]. pose proof Fr1 as (_ & _ & _ & Lf1 & Lf2).
        split; [rewrite P1 in Fr2; apply (frame_trans w w1 w2 (path_of s) i x i1 x1 Fr1 Fr2 I1 X1)|].
        split; [destruct I2, I1; subst; auto; right; lia|destruct X2, X1; subst; auto; right; lia]. }
    destruct G as (w' & s' & i' & x' & n' & c' & E & Ef & Sd' & H' & N' & L & P & De & Sh & Fr & _).
    exists w', s', i', x', n', c'. split; [exact E|]. split; [exact Ef|]. split; [exact Sd'|]. split; [exact H'|]. split; [exact N'|].
    split; [destruct H' as (_ & M & Q & _ & F & _); unfold read; rewrite Q, M, F; reflexivity|]. do 5 (split; [assumption|]).
    intros s0 m0 n0 c0 i0 x0 H0 Hi Hx. apply (frame_holds w w' (path_of s) i x); assumption.
  Qed.

  (** **** The end. *)
  (** C76: at the end the file is removed if it is to be destroyed; else it keeps its name and its value, also when it is shrunk, which never
      makes it longer; the mapping is closed. *)
  Theorem C76_close w s m n c i x : sound w -> holds w s m n c i x -> named w s i ->
    exists w', delete_storage w s = Ok w' /\ sound w' /\ mapped w' x = None /\ frame w w' (path_of s) i x
      /\ dir w' (path_of s) = (if s_destroy s then None else Some i)
      /\ exists n', file_at w' i = mkFile n' (Some this_build) (Some c) /\ used (Some c) <= n' <= n
           /\ (s_shrink s = true -> s_destroy s = false -> n' = used (Some c)) /\ (s_shrink s = false \/ s_destroy s = true -> n' = n).
  Proof.
    intros (S1 & S2 & S3) (H1 & H2 & H3 & H4 & H5 & H6 & H7) N. unfold named in N. unfold Storage.delete_storage.
    assert (So : forall w1, dir w1 = dir w \/ (forall q, dir w1 q = if peqb q (path_of s) then None else dir w q) -> inodes w1 = inodes w -> mappings w1 = mappings w ->
      (forall y, mapped w1 y = if y =? x then None else mapped w y) -> sound w1).
    { intros w1 D I X M. split; [|split].
      - intros p j. destruct D as [-> | D]; [rewrite I; apply S1|]. rewrite D, I. destruct (peqb p _); [discriminate|apply S1].
      - intros p q j. destruct D as [-> | D]; [apply S2|]. rewrite !D. destruct (peqb p _); [discriminate|]. destruct (peqb q _); [discriminate|apply S2].
      - intros y j m'. rewrite M, I, X. destruct (y =? x); [discriminate|apply S3]. }
    destruct (s_shrink s && negb (s_destroy s)) eqn:Sh.
    - apply andb_true_iff in Sh. destruct Sh as [Sh De]. apply negb_true_iff in De. rewrite De.
      unfold shrink_to_fit, close. rewrite H1. cbn [k_path dir del_map]. rewrite N. cbn [file_at del_map]. rewrite H5. cbn [f_size f_info f_content bindO fst snd k_map].
      eexists. split; [reflexivity|]. assert (M : forall y, mapped (set_file (del_map w x) i (mkFile (Nat.min n (used (Some c))) (Some this_build) (Some c))) y = if y =? x then None else mapped w y) by (intros y; apply mapped_del).
      split; [apply So; auto|]. split; [rewrite M, Nat.eqb_refl; reflexivity|]. split; [|split; [exact N|]].
      + split; [auto|]. split; [intros j J Nj; cbn; destruct (Nat.eqb_spec j i); [congruence|reflexivity]|]. split; [|cbn; lia].
        intros y Y Ny. rewrite M. destruct (Nat.eqb_spec y x); [congruence|reflexivity].
      + exists (Nat.min n (used (Some c))). split; [cbn; rewrite Nat.eqb_refl; reflexivity|]. split; [lia|]. split; [intros; lia|]. intros [E|E]; congruence.
    - destruct (s_destroy s) eqn:De.
      + unfold destroy, close. rewrite H1. cbn [k_path k_map fst snd]. eexists. split; [reflexivity|].
        assert (M : forall y, mapped (set_dir peqb (del_map w x) (path_of s) None) y = if y =? x then None else mapped w y) by (intros y; apply mapped_del).
        split; [apply So; auto|]. split; [rewrite M, Nat.eqb_refl; reflexivity|]. split; [|split; [cbn; rewrite peqb_refl; reflexivity|]].
        * split; [intros q Q; cbn; rewrite peqb_neq by exact Q; reflexivity|]. split; [auto|]. split; [|cbn; lia].
          intros y Y Ny. rewrite M. destruct (Nat.eqb_spec y x); [congruence|reflexivity].
        * exists n. split; [exact H5|]. split; [lia|]. split; [congruence|]. auto.
      + unfold close. rewrite H1. cbn [k_map fst snd]. eexists. split; [reflexivity|].
        assert (M : forall y, mapped (del_map w x) y = if y =? x then None else mapped w y) by (intros y; apply mapped_del).
        split; [apply So; auto|]. split; [rewrite M, Nat.eqb_refl; reflexivity|]. split; [|split; [exact N|]].
        * split; [auto|]. split; [auto|]. split; [|cbn; lia]. intros y Y Ny. rewrite M. destruct (Nat.eqb_spec y x); [congruence|reflexivity].
        * exists n. split; [exact H5|]. split; [lia|]. split; [|auto]. intros E. rewrite E in Sh. cbn in Sh. discriminate.
  Qed.

  (** C76: what a program leaves in a storage that is not destroyed, the next program of the same build reads. *)
  Theorem C76_round_trip ops w p n d sh : sound w -> used (Some empty) <= n -> nowhere w p ->
    exists w1 s1 w2 s2 w3, new_storage w p DestroyAndCreate n d sh = Ok (w1, Some s1) /\ acts w1 s1 ops = Ok (w2, s2) /\ delete_storage w2 s2 = Ok w3
      /\ (d = true -> forall d' sh', new_storage w3 p OpenReadOnly 0 d' sh' = Throw (w3, None))
      /\ (d = false -> used (Some empty) <= used (Some (snd (fold_left effect ops (n, empty)))) -> forall d' sh', exists w4 s4,
            new_storage w3 p OpenReadOnly 0 d' sh' = Ok (w4, Some s4) /\ read w4 s4 = Ok (Some (snd (fold_left effect ops (n, empty))))).
  Proof.
    intros Sd Hn Nw. destruct (C76_create w p n d sh Sd Hn) as (w1 & s1 & E1 & Sd1 & H1 & N1 & P1 & D1 & Sh1 & Fr1 & _).
    assert (Nw1 : nowhere w1 (path_of s1)).
    { intros q. rewrite P1. destruct Fr1 as (Fd & _). rewrite Fd by apply Nw. apply Nw. }
    destruct (C76_life ops w1 s1 n empty _ _ Sd1 H1 N1 Nw1) as (w2 & s2 & i2 & x2 & n2 & c2 & E2 & Ef & Sd2 & H2 & N2 & _ & _ & P2 & D2 & Sh2 & _).
    destruct (C76_close w2 s2 ReadWrite n2 c2 i2 x2 Sd2 H2 N2) as (w3 & E3 & Sd3 & M3 & Fr3 & D3 & n3 & F3 & L3 & _).
    rewrite P2, P1 in D3. rewrite D2, D1 in D3. exists w1, s1, w2, s2, w3. split; [exact E1|]. split; [exact E2|]. split; [exact E3|]. rewrite Ef. cbn [snd]. split.
    - intros -> d' sh'. apply C76_missing, D3.
    - intros -> Le d' sh'. destruct (C76_open w3 p n3 i2 (Some this_build) c2 d' sh' Sd3 D3 F3 ltac:(lia) ltac:(lia)) as [O _].
      destruct (O eq_refl) as (w4 & s4 & E4 & _ & H4 & _). exists w4, s4. split; [exact E4|].
      destruct H4 as (_ & M & Q & _ & F & _). unfold read. rewrite Q, M, F. reflexivity.
  Qed.

  (** **** Growing on demand. *)
  (** what the importers do, io/helper/graph_helper.hpp: the storage is doubled whenever the new value has no place *)
  Definition try_write (c : C) (st : outcome (world * storage)) : outcome (world * storage) * option unit :=
    match st with
    | Ok (w, s) => match write w s c with Ok w' => (Ok (w', s), Some tt) | Throw w' => (Ok (w', s), None) | UB => (UB, Some tt) | Fuel => (Fuel, Some tt) end
    | _ => (st, Some tt)
    end.
  Definition double (st : outcome (world * storage)) : outcome (world * storage) :=
    match st with Ok (w, s) => act w s (Grow (2 * size w (s_container s))) | _ => st end.
  Lemma retry_write r c' : forall w s n c i x, sound w -> holds w s ReadWrite n c i x -> named w s i -> nowhere w (path_of s) ->
    0 < n -> used (Some c') <= n * 2 ^ r ->
    exists w' s' n' x', retry_alloc (try_write c') double r (Ok (w, s)) = (Ok (w', s'), Some tt) /\ sound w'
      /\ holds w' s' ReadWrite n' c' i x' /\ named w' s' i /\ n <= n' <= n * 2 ^ r /\ frame w w' (path_of s) i x /\ (x' = x \/ mappings w <= x')
      /\ (used (Some c') <= n -> n' = n).
  Proof.
    induction r as [|r IH]; intros w s n c i x Sd H N Nw Pn Hc.
    - cbn [Nat.pow] in Hc. destruct (act_ok (Write c') w s n c i x Sd H N Nw) as (w' & s' & i' & x' & E & Sd' & H' & N' & _ & P' & _ & _ & Fr & I & X).
      cbn [act effect fst snd] in E, H'. rewrite (proj2 (Nat.leb_le (used (Some c')) n)) in H' by lia. cbn [fst snd] in H'.
      pose proof H as (K1 & K2 & K3 & K4 & K5 & K6 & K7). cbn [retry_alloc try_write].
      unfold Storage.write in *. rewrite K3, K4, Nat.eqb_refl, K2, K5 in *. cbn [f_size f_info] in *. rewrite (proj2 (Nat.leb_le (used (Some c')) n)) in * by lia.
      injection E as <- <-. exists (set_file w i (mkFile n (Some this_build) (Some c'))), s, n, x'. split; [reflexivity|]. split; [exact Sd'|].
      unfold named in N'. cbn [dir set_file] in N'. unfold named in N. rewrite N in N'. injection N' as <-. split; [exact H'|]. split; [exact N|]. split; [cbn [Nat.pow]; lia|]. split; [exact Fr|]. split; [exact X|reflexivity].
    - destruct (Nat.le_gt_cases (used (Some c')) n) as [L|L].
      + destruct (IH w s n c i x Sd H N Nw Pn) as (w' & s' & n' & x' & E & Sd' & H' & N' & Ln & Fr & X & Eq). { pose proof (Nat.pow_nonzero 2 r). nia. }
        exists w', s', n', x'. split; [|split; [exact Sd'|split; [exact H'|split; [exact N'|split; [cbn [Nat.pow]; lia|auto]]]]]. rewrite <- E.
        pose proof H as (K1 & K2 & K3 & K4 & K5 & K6 & K7).
        assert (W : try_write c' (Ok (w, s)) = (Ok (set_file w i (mkFile n (Some this_build) (Some c')), s), Some tt)).
        { cbn [try_write]. unfold Storage.write. rewrite K3, K4, Nat.eqb_refl, K2, K5. cbn [f_size f_info]. rewrite (proj2 (Nat.leb_le _ _) L). reflexivity. }
        destruct r; cbn [retry_alloc]; rewrite W; reflexivity.
      + pose proof H as (K1 & K2 & K3 & K4 & K5 & K6 & K7).
        assert (W : try_write c' (Ok (w, s)) = (Ok (w, s), None)).
        { cbn [try_write]. unfold Storage.write. rewrite K3, K4, Nat.eqb_refl, K2, K5. cbn [f_size f_info]. rewrite (proj2 (Nat.leb_gt _ _) L). reflexivity. }
        cbn [retry_alloc]. rewrite W. cbn [double act]. rewrite (holds_size _ _ _ _ _ _ _ H).
        destruct (grow_ok w s ReadWrite n c i x (2 * n) Sd H N ltac:(lia)) as (w1 & s1 & E1 & Sd1 & H1 & N1 & P1 & _ & _ & Fr1 & D1). rewrite E1.
        assert (Nw1 : nowhere w1 (path_of s1)) by (intros q; rewrite D1, P1; apply Nw).
        destruct (IH w1 s1 (2 * n) c i (mappings w) Sd1 H1 N1 Nw1 ltac:(lia)) as (w' & s' & n' & x' & E & Sd' & H' & N' & Ln & Fr & X & _). { cbn [Nat.pow] in Hc. nia. }
        exists w', s', n', x'. split; [exact E|]. split; [exact Sd'|]. split; [exact H'|]. split; [exact N'|]. split; [cbn [Nat.pow]; nia|].
        rewrite P1 in Fr. pose proof Fr1 as (_ & _ & _ & _ & Lm). split; [apply (frame_trans w w1 w' (path_of s) i x i (mappings w) Fr1 Fr); auto|].
        split; [|intros; lia]. right. destruct X; [subst; lia|lia].
  Qed.
  (** C76: whatever needs at most half of the space that is available finds place, and the storage does not grow beyond what is available.  The
      space must hold the storage at least once. *)
  Theorem C76_retry available c' w s n c i x : sound w -> holds w s ReadWrite n c i x -> named w s i -> nowhere w (path_of s) ->
    0 < n <= available -> 2 * used (Some c') <= available ->
    exists r w' s' n' x', max_retries available w (s_container s) = Ok r /\ retry_alloc (try_write c') double r (Ok (w, s)) = (Ok (w', s'), Some tt)
      /\ holds w' s' ReadWrite n' c' i x' /\ named w' s' i /\ read w' s' = Ok (Some c') /\ n' <= available /\ (used (Some c') <= n -> n' = n)
      /\ (forall s0 m0 n0 c0 i0 x0, holds w s0 m0 n0 c0 i0 x0 -> i0 <> i -> x0 <> x -> holds w' s0 m0 n0 c0 i0 x0).
  Proof.
    intros Sd H N Nw [Pn La] Hc. unfold max_retries. rewrite (holds_size _ _ _ _ _ _ _ H). destruct n as [|n1]; [lia|]. set (n := S n1) in *.
    assert (Q : 0 < available / n) by (apply Nat.div_str_pos; lia). destruct (Nat.eqb_spec (available / n) 0) as [Z|_]; [lia|].
    destruct (Nat.log2_spec _ Q) as [Q1 Q2]. set (r := Nat.log2 (available / n)) in *. pose proof (Nat.div_mod available n ltac:(lia)) as Dm. pose proof (Nat.mod_upper_bound available n ltac:(lia)) as Mb.
    assert (B : used (Some c') <= n * 2 ^ r). { cbn [Nat.pow] in Q2. nia. }
    destruct (retry_write r c' w s n c i x Sd H N Nw Pn B) as (w' & s' & n' & x' & E & Sd' & H' & N' & Ln & Fr & X & Eq).
    exists r, w', s', n', x'. split; [reflexivity|]. split; [exact E|]. split; [exact H'|]. split; [exact N'|].
    split; [destruct H' as (_ & M & P & _ & F & _); unfold read; rewrite P, M, F; reflexivity|]. split; [nia|]. split; [exact Eq|].
    intros s0 m0 n0 c0 i0 x0 H0 Hi Hx. apply (frame_holds w w' (path_of s) i x); assumption.
  Qed.
End C76.

(** **** Examples and what is not true. *)
(** paths, builds and values are numbers; a value [c] needs [1 + c] bytes, the build one; a moved path is 0 *)
Definition place (x : option nat) : nat := match x with None => 1 | Some c => 1 + c end.
Definition none : @world nat nat nat := mkWorld (fun _ => None) (fun _ => mkFile 0 None None) 0 [] 0.
Notation new_s := (new_storage Nat.eqb Nat.eqb 7 place 0).
Notation new_other := (new_storage Nat.eqb Nat.eqb 8 place 0).
Notation delete_s := (delete_storage Nat.eqb Nat.eqb 7 place).
Notation move_s := (move_storage (fun _ : nat => 0)).
Notation acts_s := (acts Nat.eqb Nat.eqb 7 (fun _ : nat => 0) place 0).
Notation write_s := (write (Path := nat) (Build := nat) place).
Notation grow_s := (grow_storage (Path := nat) (C := nat) Nat.eqb 7).
Definition then_ {A B} (x : outcome A) (f : A -> outcome B) : outcome B := match x with Ok a => f a | Throw _ => Fuel | UB => UB | Fuel => Fuel end.
Definition open_ (x : outcome (@world nat nat nat * option (@storage nat))) : outcome (@world nat nat nat * @storage nat) :=
  match x with Ok (w, Some s) => Ok (w, s) | _ => Fuel end.

Example nothing_sound : sound none.
Proof. repeat split; cbn; discriminate. Qed.
Example nothing_nowhere : nowhere (fun _ : nat => 0) none 5.
Proof. split; [reflexivity|discriminate]. Qed.
(** a storage of 4 bytes; 9 has no place, after growing it has; the storage is moved; then it is shrunk to 10 bytes at the end and opened *)
Example C76_round_trip_ex :
  then_ (open_ (new_s none 5 DestroyAndCreate 4 false true)) (fun '(w1, s1) =>
  then_ (acts_s w1 s1 [Write 2; Write 9; Grow 16; Move; Write 9]) (fun '(w2, s2) =>
  then_ (delete_s w2 s2) (fun w3 =>
  then_ (open_ (new_s w3 5 OpenReadOnly 0 false false)) (fun '(w4, s4) =>
  then_ (read w4 s4) (fun c => Ok (read w2 s2, size w2 (s_container s2), size w4 (s_container s4), c))))))
  = Ok (Ok (Some 9), 16, 10, Some 9).
Proof. vm_compute. reflexivity. Qed.
(** the value that had no place is not written *)
Example C76_life_ex :
  then_ (open_ (new_s none 5 DestroyAndCreate 4 true false)) (fun '(w1, s1) =>
  then_ (acts_s w1 s1 [Write 2; Write 9; DropGrow 3]) (fun '(w2, s2) =>
  then_ (acts_s w2 s2 [DropGrow 8]) (fun '(w3, s3) =>
  then_ (delete_s w3 s3) (fun w4 => Ok (read w2 s2, read w3 s3, dir w3 5, dir w4 5)))))
  = Ok (Ok (Some 2), Ok (Some 0), Some 1, None).
Proof. vm_compute. reflexivity. Qed.
(** another build does not open it *)
Example C76_open_ex :
  then_ (open_ (new_s none 5 DestroyAndCreate 4 false false)) (fun '(w1, s1) =>
  then_ (delete_s w1 s1) (fun w2 =>
  match new_other w2 5 OpenReadOnly 0 false false with Throw (w3, r) => Ok (r, dir w3 5, maps w3) | _ => UB end))
  = Ok (None, Some 0, []).
Proof. vm_compute. reflexivity. Qed.
(** a file of 4 bytes with a value is replaced by one without place for an empty value : the name is gone, nothing is open *)
Example C76_create_fails_ex :
  then_ (open_ (new_s none 5 DestroyAndCreate 4 false false)) (fun '(w1, s1) =>
  then_ (delete_s w1 s1) (fun w2 =>
  match new_s w2 5 DestroyAndCreate 0 false false with Throw (w3, r) => Ok (dir w2 5, r, dir w3 5, maps w3) | _ => UB end))
  = Ok (Some 0, None, None, []).

Proof. vm_compute. reflexivity. Qed.
(** 2 bytes, 64 available: 5 retries; 20 needs 21 bytes: four attempts fail, the storage has 32 bytes then *)
Example C76_retry_ex :
  then_ (open_ (new_s none 5 DestroyAndCreate 2 false false)) (fun '(w1, s1) =>
  then_ (max_retries 64 w1 (s_container s1)) (fun r =>
  match retry_alloc (try_write place 20) (double Nat.eqb Nat.eqb 7 (fun _ => 0) place 0) r (Ok (w1, s1)) with
  | (Ok (w2, s2), Some tt) => Ok (r, size w2 (s_container s2), read w2 s2)
  | _ => UB
  end)) = Ok (5, 32, Ok (Some 20)).
Proof. vm_compute. reflexivity. Qed.

(** C76: a storage that is to be destroyed at its end is not, if another one was move-assigned to it: its file stays and its mapping lives on,
    because the pointer to the mapping is overwritten (base_storage.hpp 107-113). *)
Theorem C76_assign_refuted : exists w (s t s' t' : @storage nat) w1 w2,
  then_ (open_ (new_s none 5 DestroyAndCreate 4 true false)) (fun '(w0, a) => then_ (open_ (new_s w0 6 DestroyAndCreate 4 true false)) (fun '(w0', b) => Ok (w0', a, b))) = Ok (w, s, t)
  /\ assign_storage (fun _ => 0) s t = (s', t') /\ delete_s w t' = Ok w1 /\ delete_s w1 s' = Ok w2
  /\ s_destroy s = true /\ dir w2 5 = Some 0 /\ mapped w2 0 = Some (0, ReadWrite) /\ dir w2 6 = None.
Proof. do 7 eexists. repeat split; vm_compute; reflexivity. Qed.
(** C76: if the move left the path as it was, which the standard allows, the destructor of the moved storage would remove the file of the new one:
    nothing but the value of a moved std::filesystem::path prevents this. *)
Theorem C76_moved_refuted : exists w (s s' old : @storage nat) w1,
  open_ (new_s none 5 DestroyAndCreate 4 true false) = Ok (w, s) /\ move_storage (fun p => p) s = (s', old) /\ delete_s w old = Ok w1
  /\ read w1 s' = Ok (Some 0) /\ dir w1 5 = None /\ forall w2 s2, grow_s w1 s' 8 <> Ok (w2, s2).
Proof. do 5 eexists. split; [vm_compute; reflexivity|]. split; [reflexivity|]. split; [vm_compute; reflexivity|]. split; [reflexivity|]. split; [reflexivity|].
  intros w2 s2. vm_compute. discriminate. Qed.
(** C76: after shrinking a storage that stays open, using what it holds is undefined: only the container is opened again (graph_storage.hpp
    314-316). *)
Theorem C76_shrink_refuted : exists w (s : @storage nat) w1 s1,
  open_ (new_s none 5 DestroyAndCreate 4 false false) = Ok (w, s) /\ shrink_storage Nat.eqb 7 place w s true = Ok (w1, s1)
  /\ read w s = Ok (Some 0) /\ read w1 s1 = UB /\ exists f, file_at w1 0 = f /\ f_content f = Some 0.
Proof. do 4 eexists. split; [vm_compute; reflexivity|]. split; [vm_compute; reflexivity|]. split; [reflexivity|]. split; [reflexivity|]. eexists; split; reflexivity. Qed.
(** C76: a storage that is open at a path when another one is created there is thrown over by [grow], which goes by the path: it then has the value
    of the other one. *)
Theorem C76_same_path_refuted : exists w (s : @storage nat) w1 w2 t w3 s3,
  open_ (new_s none 5 DestroyAndCreate 4 false false) = Ok (w, s) /\ write_s w s 2 = Ok w1 /\ open_ (new_s w1 5 DestroyAndCreate 6 false false) = Ok (w2, t)
  /\ read w2 s = Ok (Some 2) /\ grow_s w2 s 8 = Ok (w3, s3) /\ read w3 s3 = Ok (Some 0).
Proof. do 7 eexists. split; [vm_compute; reflexivity|]. split; [vm_compute; reflexivity|]. split; [vm_compute; reflexivity|]. split; [reflexivity|].
  split; [vm_compute; reflexivity|reflexivity]. Qed.
(** C76: writing to a storage that was opened for reading is undefined; after growing it, it is written without an error. *)
Theorem C76_read_only_refuted : exists w (s : @storage nat) w1 w2 s2 w3 s3 w4,
  open_ (new_s none 5 DestroyAndCreate 4 false false) = Ok (w, s) /\ delete_s w s = Ok w1 /\ open_ (new_s w1 5 OpenReadOnly 0 false false) = Ok (w2, s2)
  /\ write_s w2 s2 1 = UB /\ grow_s w2 s2 8 = Ok (w3, s3) /\ write_s w3 s3 1 = Ok w4 /\ f_content (file_at w4 0) = Some 1.
Proof. do 8 eexists. split; [vm_compute; reflexivity|]. split; [vm_compute; reflexivity|]. split; [vm_compute; reflexivity|]. split; [reflexivity|].
  split; [vm_compute; reflexivity|]. split; vm_compute; reflexivity. Qed.
(** C76: with less space than the storage already has, the number of retries is undefined (the logarithm of 0 as an unsigned number). *)
Theorem C76_retries_refuted : exists w (s : @storage nat),
  open_ (new_s none 5 DestroyAndCreate 4 false false) = Ok (w, s) /\ max_retries 3 w (s_container s) = UB.
Proof. do 2 eexists. split; vm_compute; reflexivity. Qed.
(** C76: a value that has no place in any attempt leaves a storage that was grown once more, beyond what is available. *)
Theorem C76_retry_refuted : exists w (s : @storage nat) r w1 s1,
  open_ (new_s none 5 DestroyAndCreate 4 false false) = Ok (w, s) /\ max_retries 16 w (s_container s) = Ok r
  /\ retry_alloc (try_write place 20) (double Nat.eqb Nat.eqb 7 (fun _ => 0) place 0) r (Ok (w, s)) = (Ok (w1, s1), None) /\ size w1 (s_container s1) = 32.
Proof. do 5 eexists. split; [vm_compute; reflexivity|]. split; [vm_compute; reflexivity|]. split; vm_compute; reflexivity. Qed.

Print Assumptions C76_create.
Print Assumptions C76_create_fails.
Print Assumptions C76_drop_refused.
Print Assumptions C76_moved_unusable.
Print Assumptions C76_open.
Print Assumptions C76_life.
Print Assumptions C76_close.
Print Assumptions C76_round_trip.
Print Assumptions C76_moved.
Print Assumptions C76_retry.
