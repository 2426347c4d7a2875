(** C74: a prepared network that was saved is the network that is loaded for matching. *)
From Coq Require Import Sorting.
From Verif Require Import Base ListAux Tags AdjList Csr SpatialIndex SpatialIndexProps Archive.

Section ArchiveProps.
  Context {F P Str : Type}.
  Local Notation atom := (atom F P Str).
  Local Notation rd := (@rd F P Str).

  (** the reader [r] takes exactly what was written, whatever follows, and gives something with [Q]; it fails if a part at the end is missing *)
  Definition reads {A} (w : list atom) (r : rd A) (Q : A -> Prop) : Prop :=
    (forall rest, exists y, r (w ++ rest) = Some (y, rest) /\ Q y) /\ (forall l a t, w = l ++ a :: t -> r l = None).

  Lemma reads_ret {A} (x : A) (Q : A -> Prop) : Q x -> reads [] (retR x) Q.
  Proof. intros H. split; [intros rest; exists x; auto|]. intros l a t E. destruct l; discriminate. Qed.
  Lemma app_split {A} (u v l t : list A) a : u ++ v = l ++ a :: t -> (exists t', u = l ++ a :: t') \/ (exists l', l = u ++ l' /\ v = l' ++ a :: t).
  Proof.
    revert l. induction u as [|x u IH]; intros l E; [right; exists l; auto|].
    destruct l as [|y l]; cbn in E; injection E as -> E; [left; exists u; reflexivity|].
    destruct (IH l E) as [(t' & ->)|(l' & -> & H)]; [left; exists t'; reflexivity|right; exists l'; auto].
  Qed.
  Lemma reads_bind {A B} w1 w2 (r : rd A) (f : A -> rd B) Q1 Q2 : reads w1 r Q1 -> (forall y, Q1 y -> reads w2 (f y) Q2) -> reads (w1 ++ w2) (bindR r f) Q2.
  Proof.
    intros [R1 S1] R2. unfold bindR. split.
    - intros rest. rewrite <- app_assoc. destruct (R1 (w2 ++ rest)) as (y & -> & Y). destruct (R2 y Y) as [R _]. apply R.
    - intros l a t E. apply app_split in E as [(t' & E)|(l' & -> & E)]; [now rewrite (S1 _ _ _ E)|].
      destruct (R1 l') as (y & -> & Y). destruct (R2 y Y) as [_ S]. exact (S _ _ _ E).
  Qed.
  Lemma reads_last {A B} w (r : rd A) (f : A -> B) Q1 (Q2 : B -> Prop) : reads w r Q1 -> (forall y, Q1 y -> Q2 (f y)) -> reads w (bindR r (fun x => retR (f x))) Q2.
  Proof. intros R H. rewrite <- (app_nil_r w). eapply reads_bind; [exact R|]. intros y Y. apply reads_ret. auto. Qed.
  Lemma reads_weaken {A} w (r : rd A) (Q Q' : A -> Prop) : reads w r Q -> (forall y, Q y -> Q' y) -> reads w r Q'.
  Proof. intros [R S] H. split; [|exact S]. intros rest. destruct (R rest) as (y & E & Y). exists y. auto. Qed.
  Lemma reads_atom {A} (a : atom) (r : rd A) (x : A) : (forall rest, r (a :: rest) = Some (x, rest)) -> r [] = None -> reads [a] r (fun y => y = x).
  Proof.
    intros H N. split; [intros rest; exists x; split; [apply H|reflexivity]|]. intros l b t E. destruct l as [|c l]; [exact N|].
    injection E as _ E. destruct l; discriminate.
  Qed.
  Lemma reads_nat n : reads (sv_nat n) ld_nat (fun y => y = n). Proof. apply reads_atom; reflexivity. Qed.
  Lemma reads_flo x : reads (sv_flo x) ld_flo (fun y => y = x). Proof. apply reads_atom; reflexivity. Qed.
  Lemma reads_point x : reads (sv_point x) ld_point (fun y => y = x). Proof. apply reads_atom; reflexivity. Qed.
  Lemma reads_str x : reads (sv_str x) ld_str (fun y => y = x). Proof. apply reads_atom; reflexivity. Qed.
  Lemma reads_bool b : reads (sv_bool b) ld_bool (fun y => y = b).
  Proof. unfold ld_bool. eapply reads_last; [apply reads_nat|]. intros y ->. now destruct b. Qed.
  Lemma reads_pair {A B} (sa : A -> list atom) (sb : B -> list atom) la lb (x : A * B) :
    reads (sa (fst x)) la (fun y => y = fst x) -> reads (sb (snd x)) lb (fun y => y = snd x) -> reads (sv_pair sa sb x) (ld_pair la lb) (fun y => y = x).
  Proof.
    intros RA RB. unfold sv_pair, ld_pair. eapply reads_bind; [exact RA|]. intros y ->. cbv beta. eapply reads_last; [exact RB|]. intros z ->. now destruct x.
  Qed.
  Lemma reads_items {A} (s : A -> list atom) r (l : list A) : (forall x, reads (s x) r (fun y => y = x)) -> reads (flat_map s l) (ld_items r (length l)) (fun y => y = l).
  Proof.
    intros H. induction l as [|x l IH]; cbn [flat_map ld_items length]; [now apply reads_ret|].
    eapply reads_bind; [apply H|]. intros y ->. cbv beta. eapply reads_last; [exact IH|]. now intros z ->.
  Qed.
  Lemma reads_list {A} (s : A -> list atom) r (l : list A) : (forall x, reads (s x) r (fun y => y = x)) -> reads (sv_list s l) (ld_list r) (fun y => y = l).
  Proof. intros H. unfold sv_list, ld_list. eapply reads_bind; [apply reads_nat|]. intros y ->. now apply reads_items. Qed.
  Lemma reads_ptr {A} (s : A -> list atom) r (p : option A) : (forall x, reads (s x) r (fun y => y = x)) -> reads (sv_ptr s p) (ld_ptr r) (fun y => y = p).
  Proof.
    intros H. unfold sv_ptr, ld_ptr. destruct p as [x|].
    - eapply reads_bind; [apply reads_bool|]. intros y ->. cbv beta iota. eapply reads_last; [apply H|]. now intros y ->.
    - rewrite <- (app_nil_r (sv_bool false)). eapply reads_bind; [apply reads_bool|]. intros y ->. now apply reads_ret.
  Qed.

  (** *** maps *)
  Section Maps.
    Context {K D : Type}.
    Variable keqb : K -> K -> bool.
    Hypothesis keqb_eq : forall a b, keqb a b = true <-> a = b.
    (** the same entries under every key *)
    Definition same_map (m m' : list (K * D)) : Prop := forall k, find_key keqb k m' = find_key keqb k m.
    Lemma find_in (m : list (K * D)) k d : NoDup (map fst m) -> (find_key keqb k m = Some d <-> In (k, d) m).
    Proof.
      induction m as [|[a e] m IH]; cbn; intros N; [split; [discriminate|tauto]|]. inversion_clear N as [|? ? H N'].
      destruct (keqb k a) eqn:E.
      - apply keqb_eq in E. subst a. split; [intros X; injection X as ->; auto|]. intros [X|X]; [injection X as ->; reflexivity|].
        elim H. apply (in_map fst) in X. exact X.
      - rewrite (IH N'). split; [auto|]. intros [X|X]; [|exact X]. injection X as -> ->. rewrite (proj2 (keqb_eq k k) eq_refl) in E. discriminate.
    Qed.
    Lemma find_none (m : list (K * D)) k : find_key keqb k m = None <-> ~ In k (map fst m).
    Proof.
      induction m as [|[a e] m IH]; cbn; [tauto|]. destruct (keqb k a) eqn:E.
      - apply keqb_eq in E. split; [discriminate|]. intros X. elim X. auto.
      - rewrite IH. split; [|tauto]. intros X [->|Y]; [rewrite (proj2 (keqb_eq k k) eq_refl) in E; discriminate|auto].
    Qed.
    Lemma emplaced (l : list (K * D)) : forall m, NoDup (map fst m ++ map fst l) -> fold_left (fun m kd => emplace keqb (fst kd) (snd kd) m) l m = m ++ l.
    Proof.
      induction l as [|[k d] l IH]; intros m N; cbn; [now rewrite app_nil_r|]. cbn in N.
      assert (find_key keqb k m = None) as E by (apply find_none; intros X; apply NoDup_remove_2 in N; apply N, in_or_app; auto).
      unfold emplace. rewrite E, IH, <- app_assoc; [reflexivity|]. rewrite map_app, <- app_assoc. exact N.
    Qed.
    Lemma reads_map (shuffle : list (K * D) -> list (K * D)) sk sd lk lv m : (forall l, Permutation (shuffle l) l) -> NoDup (map fst m) ->
      (forall x, reads (sk x) lk (fun y => y = x)) -> (forall x, reads (sd x) lv (fun y => y = x)) ->
      reads (sv_map shuffle sk sd m) (ld_map keqb lk lv) (fun m' => NoDup (map fst m') /\ same_map m m').
    Proof.
      intros Sh N RK RD. unfold sv_map, ld_map. eapply reads_last; [apply reads_list; intros x; apply reads_pair; [apply RK|apply RD]|].
      intros y ->. assert (N' : NoDup (map fst (shuffle m))) by (eapply Permutation_NoDup; [apply Permutation_map, Permutation_sym, Sh|exact N]).
      rewrite emplaced by exact N'. cbn [app]. split; [exact N'|]. intros k.
      destruct (find_key keqb k m) as [d|] eqn:E.
      - apply (find_in _ _ _ N'). apply (find_in _ _ _ N) in E. eapply Permutation_in; [apply Permutation_sym, Sh|exact E].
      - apply find_none. apply find_none in E. intros X. apply E. eapply Permutation_in; [apply Permutation_map, Sh|exact X].
    Qed.
  End Maps.

  Variable seqb : Str -> Str -> bool.
  Hypothesis seqb_eq : forall a b, seqb a b = true <-> a = b.
  Variable sh_str : list (nat * Str) -> list (nat * Str).
  Variable sh_rev : list (Str * nat) -> list (Str * nat).
  Variable sh_tags : list (nat * (nat * nat)) -> list (nat * (nat * nat)).
  Variable sh_ids : list ((nat * nat) * nat) -> list ((nat * nat) * nat).
  Variable sh_vec : list (nat * list nat) -> list (nat * list nat).
  Hypothesis perm_str : forall l, Permutation (sh_str l) l.
  Hypothesis perm_rev : forall l, Permutation (sh_rev l) l.
  Hypothesis perm_tags : forall l, Permutation (sh_tags l) l.
  Hypothesis perm_ids : forall l, Permutation (sh_ids l) l.
  Hypothesis perm_vec : forall l, Permutation (sh_vec l) l.

  (** the maps have each key once, as hash maps do *)
  Definition maps (s : tags_state Str) : Prop :=
    NoDup (map fst (id_key s)) /\ NoDup (map fst (id_value s)) /\ NoDup (map fst (tags s)) /\ NoDup (map fst (nodes s)) /\ NoDup (map fst (edges s)) /\
    NoDup (map fst (key_id s)) /\ NoDup (map fst (value_id s)) /\ NoDup (map fst (ids s)).
  (** what the loaded tags have in common with those saved *)
  Definition same_tags (s t : tags_state Str) : Prop :=
    finalized t = finalized s /\ (forall i, tag t i = tag s i) /\ (forall i, node_tags t i = node_tags s i) /\ (forall i, edge_tags t i = edge_tags s i) /\
    (finalized s = false -> (forall k, find_key seqb k (key_id t) = find_key seqb k (key_id s)) /\
       (forall k, find_key seqb k (value_id t) = find_key seqb k (value_id s)) /\ (forall k, find_key peqb k (ids t) = find_key peqb k (ids s))).

  Local Notation sv_tags := (sv_tags (F := F) (P := P) sh_str sh_rev sh_tags sh_ids sh_vec).
  Local Notation ld_tags := (ld_tags (F := F) (P := P) seqb).
  Lemma peqb_eq a b : peqb a b = true <-> a = b.
  Proof. unfold peqb. destruct a, b; cbn. rewrite andb_true_iff, !Nat.eqb_eq. split; [intros [-> ->]; reflexivity|intros E; injection E; auto]. Qed.
  Lemma reads_tags s : maps s -> reads (sv_tags s) ld_tags (same_tags s).
  Proof.
    intros (N1 & N2 & N3 & N4 & N5 & N6 & N7 & N8). unfold Archive.sv_tags, Archive.ld_tags.
    eapply reads_bind; [apply reads_bool|]. intros fin ->. cbv beta.
    eapply reads_bind; [apply (reads_map Nat.eqb Nat.eqb_eq sh_str); [exact perm_str|exact N1|apply reads_nat|apply reads_str]|]. intros ik [_ IK]. cbv beta.
    eapply reads_bind; [apply (reads_map Nat.eqb Nat.eqb_eq sh_str); [exact perm_str|exact N2|apply reads_nat|apply reads_str]|]. intros iv [_ IV]. cbv beta.
    eapply reads_bind; [apply (reads_map Nat.eqb Nat.eqb_eq sh_tags); [exact perm_tags|exact N3|apply reads_nat|intros x; apply reads_pair; apply reads_nat]|]. intros tg [_ TG]. cbv beta.
    eapply reads_bind; [apply (reads_map Nat.eqb Nat.eqb_eq sh_vec); [exact perm_vec|exact N4|apply reads_nat|intros x; apply reads_list, reads_nat]|]. intros ns [_ NS]. cbv beta.
    eapply reads_bind; [apply (reads_map Nat.eqb Nat.eqb_eq sh_vec); [exact perm_vec|exact N5|apply reads_nat|intros x; apply reads_list, reads_nat]|]. intros es [_ ES]. cbv beta.
    eapply reads_bind; [apply reads_list, reads_nat|]. intros em _. cbv beta.
    assert (T : forall ki vi is c m, (finalized s = false -> same_map seqb (key_id s) ki /\ same_map seqb (value_id s) vi /\ same_map peqb (ids s) is) ->
      same_tags s (mkTags ki ik vi iv is tg ns es (finalized s) c m)).
    { intros ki vi is c m H. unfold same_tags. cbn. split; [reflexivity|]. split; [|split; [|split]].
      - intros i. unfold tag. cbn. rewrite (TG i). destruct (find_key Nat.eqb i (tags s)) as [[a b]|]; [|reflexivity]. now rewrite (IK a), (IV b).
      - intros i. unfold node_tags. cbn. now rewrite (NS i).
      - intros i. unfold edge_tags. cbn. now rewrite (ES i).
      - exact H. }
    destruct (finalized s) eqn:Fin; rewrite ?Fin in T.
    - apply reads_ret. apply T. discriminate.
    - eapply reads_bind; [apply (reads_map seqb seqb_eq sh_rev); [exact perm_rev|exact N6|apply reads_str|apply reads_nat]|]. intros ki [_ KI]. cbv beta.
      eapply reads_bind; [apply (reads_map seqb seqb_eq sh_rev); [exact perm_rev|exact N7|apply reads_str|apply reads_nat]|]. intros vi [_ VI]. cbv beta.
      eapply reads_last; [apply (reads_map peqb peqb_eq sh_ids); [exact perm_ids|exact N8|intros x; apply reads_pair; apply reads_nat|apply reads_nat]|].
      intros is [_ IS]. apply T. auto.
  Qed.
  Lemma reads_rich r : reads (sv_rich r) ld_rich (fun y => y = r).
  Proof.
    unfold sv_rich, ld_rich. do 4 (eapply reads_bind; [apply reads_flo|]; intros ? ->; cbv beta).
    eapply reads_bind; [apply reads_list, reads_flo|]. intros ? ->. cbv beta. eapply reads_bind; [apply reads_list, reads_flo|]. intros ? ->. cbv beta.
    eapply reads_last; [apply reads_list, reads_point|]. intros ? ->. now destruct r.
  Qed.
  Lemma reads_graph g : reads (sv_graph g) ld_graph (fun y => y = g).
  Proof.
    unfold sv_graph, ld_graph. eapply reads_bind; [apply reads_list; intros x; apply reads_pair; [apply reads_nat|apply reads_pair; [apply reads_nat|apply reads_point]]|].
    intros ? ->. cbv beta. eapply reads_last; [apply reads_list; intros x; apply reads_pair; [apply reads_pair; apply reads_nat|apply reads_pair; [apply reads_nat|apply reads_rich]]|].
    intros ? ->. now destruct g.
  Qed.
  Lemma reads_index x : reads (sv_index x) ld_index (fun y => y = x).
  Proof.
    unfold sv_index, ld_index. eapply reads_bind; [apply reads_ptr; intros y; apply reads_list; intros z; apply reads_pair; [apply reads_point|apply reads_nat]|].
    intros ? ->. cbv beta. eapply reads_last; [apply reads_ptr; intros y; apply reads_list; intros z; apply reads_pair; [apply reads_pair; apply reads_point|apply reads_pair; apply reads_nat]|].
    intros ? ->. now destruct x.
  Qed.

  Local Notation network := (network F P Str).
  Local Notation disk := (disk F P Str).
  Local Notation prepare := (prepare sh_str sh_rev sh_tags sh_ids sh_vec).
  Local Notation open := (open seqb).
  Definition every : bool * bool * bool := (true, true, true).

  (** Whatever is memory-mapped, whatever is in the directory before, and in whatever order the hash maps are written: opening with the
      same settings what a preparation has written gives the same graph, with every cached length and angle, the same indices, and tags that
      answer every question as those saved. *)
  Theorem C74_round_trip : forall m (n : network) (d : disk), maps (n_tags n) -> exists t,
    open m every (prepare m every n d) = Ok (t, n_index n, Some (n_graph n)) /\ same_tags (n_tags n) t.
  Proof.
    intros [[mt mi] mg] n d M. cbn.
    assert (T : exists t, get mt true ld_tags empty_tags (put mt true sv_tags (n_tags n) (f_tags d)) = Ok t /\ same_tags (n_tags n) t).
    { unfold put, get. destruct mt; [exists (n_tags n); split; [reflexivity|unfold same_tags; auto 10]|].
      destruct (reads_tags (n_tags n) M) as [R _]. destruct (R []) as (t & E & H). rewrite app_nil_r in E. exists t. now rewrite E. }
    assert (I : get mi true ld_index (None, None) (put mi true sv_index (n_index n) (f_index d)) = Ok (n_index n)).
    { unfold put, get. destruct mi; [reflexivity|]. destruct (reads_index (n_index n)) as [R _]. destruct (R []) as (t & E & ->). rewrite app_nil_r in E. now rewrite E. }
    assert (G : get mg true (ld_ptr ld_graph) (Some (mkC [] [])) (put mg true sv_graph_ptr (Some (n_graph n)) (f_graph d)) = Ok (Some (n_graph n))).
    { unfold put, get. destruct mg; [reflexivity|]. destruct (reads_ptr sv_graph ld_graph (Some (n_graph n)) reads_graph) as [R _].
      destruct (R []) as (t & E & ->). rewrite app_nil_r in E. unfold sv_graph_ptr. now rewrite E. }
    destruct T as (t & T & S). exists t. split; [|exact S]. rewrite T. cbn [bindO]. rewrite I. cbn [bindO]. rewrite G. reflexivity.
  Qed.

  (** the first part of what was written, not all of it *)
  Definition cut (f f' : list atom) : Prop := exists a rest, f = f' ++ a :: rest.
  (** A file that was not written to its end is not loaded: whichever of the archives is cut, opening throws. *)
  Theorem C74_truncated : forall (n : network) (d : disk) l, maps (n_tags n) ->
    (cut (sv_tags (n_tags n)) l -> exists x, open (false, false, false) every (mkDisk (Archived l) (f_index d) (f_graph d)) = Throw x) /\
    (cut (sv_index (n_index n)) l -> forall t, exists x, open (false, false, false) every (mkDisk t (Archived l) (f_graph d)) = Throw x) /\
    (cut (sv_graph_ptr (Some (n_graph n))) l -> forall t i, exists x, open (false, false, false) every (mkDisk t i (Archived l)) = Throw x).
  Proof.
    intros n d l M.
    assert (NF : forall {X} (ld : rd X) made f, get false true ld made f <> Fuel /\ get false true ld made f <> UB).
    { intros X ld made [|k|x]; cbn; try (split; discriminate). destruct (ld k) as [[x ?]|]; split; discriminate. }
    split; [|split].
    - intros (a & t & C). cbn. destruct (reads_tags (n_tags n) M) as [_ S]. rewrite (S _ _ _ C). cbn. eauto.
    - intros (a & r & C) t. cbn. destruct (NF _ ld_tags empty_tags t) as [X Y]. destruct (get false true ld_tags empty_tags t); cbn [bindO]; try congruence; [|eauto].
      destruct (reads_index (n_index n)) as [_ S]. rewrite (S _ _ _ C). cbn. eauto.
    - intros (a & r & C) t i. cbn. destruct (NF _ ld_tags empty_tags t) as [X Y]. destruct (get false true ld_tags empty_tags t); cbn [bindO]; try congruence; [|eauto].
      destruct (NF _ ld_index (None, None) i) as [X' Y']. destruct (get false true ld_index (None, None) i); cbn [bindO]; try congruence; [|eauto].
      destruct (reads_ptr sv_graph ld_graph (Some (n_graph n)) reads_graph) as [_ S]. unfold sv_graph_ptr in C. rewrite (S _ _ _ C). cbn. eauto.
  Qed.

  (** the network without the cached values of its lines *)
  Definition plain (g : @csr (nat * P) (nat * rich F P)) : @csr (nat * P) (nat * list P) :=
    mkC (c_vs g) (map (fun e => (fst e, (fst (snd e), r_line (snd (snd e))))) (c_es g)).
  (** C74: a network that lies there memory-mapped in any of its three parts is not taken for archives, one of which any part is missing is not
      opened either: an exception is thrown.  A file that cannot be read is passed over. *)
  Theorem C74_wrong_kind : forall (m m' : bool * bool * bool) (n : network) (d : disk), maps (n_tags n) ->
    let '(mt, mi, mg) := m in let '(mt', mi', mg') := m' in
    (mt' = true -> mt = true) -> (mi' = true -> mi = true) -> (mg' = true -> mg = true) -> m <> m' ->
    exists x, open m' every (prepare m every n d) = Throw x.
  Proof.
    intros [[mt mi] mg] [[mt' mi'] mg'] n d M At Ai Ag N. cbn.
    assert (T : (mt = mt' -> exists t, get mt' true ld_tags empty_tags (put mt true sv_tags (n_tags n) (f_tags d)) = Ok t)).
    { intros <-. destruct (C74_round_trip (mt, mi, mg) n d M) as (t & E & _). cbn in E.
      destruct (get mt true ld_tags empty_tags _) as [t'| | |]; try discriminate. eauto. }
    assert (I : (mi = mi' -> exists t, get mi' true ld_index (None, None) (put mi true sv_index (n_index n) (f_index d)) = Ok t)).
    { intros <-. destruct (C74_round_trip (mt, mi, mg) n d M) as (t & E & _). cbn in E.
      destruct (get mt true ld_tags empty_tags _) as [t'| | |]; try discriminate. cbn in E. destruct (get mi true ld_index _ _) as [i'| | |]; try discriminate. eauto. }
    destruct mt, mt'; try (exfalso; now specialize (At eq_refl)); try (cbn; eexists; reflexivity);
      (destruct T as (t & ->); [reflexivity|]; cbn [bindO]);
      destruct mi, mi'; try (exfalso; now specialize (Ai eq_refl)); try (cbn; eexists; reflexivity);
      (destruct I as (i & ->); [reflexivity|]; cbn [bindO]);
      destruct mg, mg'; try (exfalso; now specialize (Ag eq_refl)); try (cbn; eexists; reflexivity); exfalso; apply N; reflexivity.
  Qed.
  Theorem C74_missing : forall m r (d : disk), f_tags d = Absent \/ (exists x, f_tags d = Image x) /\ fst (fst m) = true /\ (f_index d = Absent \/ (exists y, f_index d = Image y) /\ snd (fst m) = true /\ f_graph d = Absent) ->
    exists x, open m r d = Throw x.
  Proof.
    intros [[mt mi] mg] [[rt ri] rg] d [E | ((x & E) & Em & [E2 | ((y & E2) & Em2 & E3)])]; cbn in *; rewrite E; subst; cbn; rewrite ?E2; cbn; rewrite ?E3; cbn; eexists; reflexivity.
  Qed.
  (** a file that cannot be read does not count at all *)
  Theorem C74_unread : forall (d : disk), f_tags d <> Absent -> f_index d <> Absent -> f_graph d <> Absent ->
    open (false, false, false) (false, false, false) d = Ok (empty_tags, (None, None), Some (mkC [] [])).
  Proof.
    intros d T I G. cbn. destruct (f_tags d); [congruence| |]; cbn; (destruct (f_index d); [congruence| |]; cbn; (destruct (f_graph d); [congruence| |]; reflexivity)).
  Qed.
  (** With the building of the indices (C73): after building, saving and opening, the indices hold exactly the nodes and segments of the
      network that was opened. *)
  Theorem C74_indices : forall m bm im rp rs ri ans tg g d s, maps tg -> (bm = true -> 1 <= rp /\ 1 <= rs) -> (im = true -> 1 <= ri) ->
    build_spatial_indices bm im rp rs ri (plain g) (fresh ans) = Ok s ->
    exists t i g', open m every (prepare m every (mkNet tg (i_points s, i_segs s) g) d) = Ok (t, i, Some g') /\
      indexes (plain g') (mkIx [] [] (fst i) (snd i) []).
  Proof.
    intros m bm im rp rs ri ans tg g d s M RB RI B. destruct (C74_round_trip m (mkNet tg (i_points s, i_segs s) g) d M) as (t & E & _).
    exists t, (i_points s, i_segs s), g. split; [exact E|]. pose proof (C73_build bm im rp rs ri (plain g) ans RB RI) as H. rewrite B in H.
    destruct H as (points & segs & H1 & H2 & _ & H3 & _ & H4). exists points, segs. cbn. auto.
  Qed.
End ArchiveProps.

(** Finalizing the tags, the last step before saving, changes no answer, is saved and loaded, and makes every request for a new tag throw. *)
Theorem C74_finalize : forall {Str} (s : tags_state Str), (forall i, tag (finalize s) i = tag s i) /\ (forall i, node_tags (finalize s) i = node_tags s i) /\
  (forall i, edge_tags (finalize s) i = edge_tags s i) /\
  forall oom seqb store seqb' (t : tags_state Str) mm retry k v, same_tags seqb' (finalize s) t -> Tags.id oom seqb store mm retry k v t = Throw (None, t).
Proof.
  intros Str s. split; [reflexivity|split; [reflexivity|split; [reflexivity|]]]. intros oom seqb store seqb' t mm retry k v (Fin & _). unfold Tags.id. rewrite Fin. reflexivity.
Qed.

(** *** Examples *)
Definition ex_tags : tags_state nat := mkTags [(7, 0); (8, 1)] [(0, 7); (1, 8)] [(9, 0)] [(0, 9)] [((0, 0), 0); ((1, 0), 1)] [(0, (0, 0)); (1, (1, 0))]
  [(30, [1])] [(20, [0; 1]); (21, [1])] false 0 0.
Definition ex_rich (l : list nat) : rich nat nat := mkRich 1 2 3 4 [5] [6; 7] l.
Definition ex_graph : @csr (nat * nat) (nat * rich nat nat) := mkC [(0, (10, 100)); (1, (11, 101))] [((0, 1), (20, ex_rich [100; 101])); ((1, 0), (21, ex_rich [101; 102; 100]))].
Definition ex_net : network nat nat nat := mkNet (finalize ex_tags) (Some [(100, 0); (101, 1)], Some [((100, 101), (0, 0)); ((101, 102), (1, 0)); ((102, 100), (1, 1))]) ex_graph.
Definition other_graph : @csr (nat * nat) (nat * rich nat nat) := mkC [(0, (50, 500))] [].
Definition no_disk : disk nat nat nat := mkDisk Absent Absent Absent.
Definition rev_prepare := prepare (F := nat) (P := nat) (Str := nat) (@rev _) (@rev _) (@rev _) (@rev _) (@rev _).
Example C74_maps_ex : maps ex_tags /\ maps (n_tags ex_net).
Proof. unfold maps. cbn. repeat split; repeat constructor; cbn; intuition discriminate. Qed.
(** hash maps written in reverse order, tags in an archive, indices memory-mapped *)
Example C74_round_trip_ex : exists t, open Nat.eqb (false, true, false) every (rev_prepare (false, true, false) every ex_net no_disk) = Ok (t, n_index ex_net, Some ex_graph) /\
  tag t 1 = Some (8, 9) /\ edge_tags t 20 = [0; 1] /\ node_tags t 30 = [1] /\ finalized t = true.
Proof. eexists. vm_compute. repeat split. Qed.
(** the archive of the graph without its last number *)
Example C74_truncated_ex : exists l, cut (sv_graph_ptr (Str := nat) (Some ex_graph)) l /\
  exists x, open Nat.eqb (false, false, false) every (mkDisk (f_tags (rev_prepare (false, false, false) every ex_net no_disk))
                                             (f_index (rev_prepare (false, false, false) every ex_net no_disk)) (Archived l)) = Throw x.
Proof.
  exists (removelast (sv_graph_ptr (Some ex_graph))). split; [exists (AP 100), []; vm_compute; reflexivity|]. eexists. vm_compute. reflexivity.
Qed.
Example C74_indices_ex : exists s, build_spatial_indices false false 0 0 0 (plain ex_graph) (fresh []) = Ok s /\ i_points s = Some [(100, 0); (101, 1)].
Proof. eexists. split; [vm_compute; reflexivity|reflexivity]. Qed.

(** If the file of the graph cannot be written, the preparation reports nothing, and the next opening combines the new tags and indices
    with the graph of an earlier preparation. *)
Theorem C74_unwritable_refuted : exists (n old : network nat nat nat) d1 d2,
  d1 = rev_prepare (false, false, false) every old no_disk /\ d2 = rev_prepare (false, false, false) (true, true, false) n d1 /\
  exists t i, open Nat.eqb (false, false, false) every d2 = Ok (t, i, Some (n_graph old)) /\ i = n_index n /\ n_graph old <> n_graph n.
Proof.
  exists ex_net, (mkNet (finalize ex_tags) (None, None) other_graph). do 2 eexists. split; [reflexivity|]. split; [reflexivity|]. do 2 eexists.
  split; [vm_compute; reflexivity|]. split; [reflexivity|]. discriminate.
Qed.
(** C74: the other way round nothing is checked: archives that are opened as a memory-mapped network are taken for one. *)
Theorem C74_kind_refuted : exists (n : network nat nat nat), maps (n_tags n) /\
  open Nat.eqb (true, true, true) every (rev_prepare (false, false, false) every n no_disk) = UB.
Proof. exists ex_net. split; [apply C74_maps_ex|]. vm_compute. reflexivity. Qed.
Example C74_wrong_kind_ex : exists x, open Nat.eqb (true, false, true) every (rev_prepare (true, true, true) every ex_net no_disk) = Throw x.
Proof. eexists. vm_compute. reflexivity. Qed.
(** If the file of the indices cannot be read, opening reports nothing, and the first lookup follows a null pointer. *)
Theorem C74_unreadable_refuted : exists (n : network nat nat nat) t i g, maps (n_tags n) /\
  open Nat.eqb (false, false, false) (true, false, true) (rev_prepare (false, false, false) every n no_disk) = Ok (t, i, Some g) /\ g = n_graph n /\
  forall near eqp p, point_in_nodes near eqp (mkIx [] [] (fst i) (snd i) []) p = UB (A := bool * nat).
Proof.
  exists ex_net. do 3 eexists. split; [apply C74_maps_ex|]. split; [vm_compute; reflexivity|]. split; reflexivity.
Qed.

Print Assumptions C74_round_trip.
Print Assumptions C74_truncated.
Print Assumptions C74_indices.
Print Assumptions C74_finalize.
Print Assumptions C74_unwritable_refuted.
Print Assumptions C74_unreadable_refuted.
Print Assumptions C74_wrong_kind.
