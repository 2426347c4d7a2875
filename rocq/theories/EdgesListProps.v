(** C33: importing a list of edge ids. *)
From Coq Require Import ZArith.
From Verif Require Import Base ListAux EdgesList EdgesListProofs.
Local Open Scope nat_scope.

Section C33.
  Context {E P : Type}.
  Variable edge_id : E -> Z.
  Variable front back : E -> option P.
  Variable peq : P -> P -> bool.
  Notation chain := (chain front back peq).
  Notation import_file := (import_file edge_id front back peq).

  (** [q] is a choice of edges of the network with the ids [ids] *)
  Definition choice (edges : list E) (ids : list Z) (q : list E) : Prop :=
    Forall2 (fun i e => In e edges /\ edge_id e = i) ids q.

  Lemma chosen_choice edges ids start q :
    chosen (map (fun i => filter (fun e => Z.eqb (edge_id e) i) edges) ids) start q
    <-> length q <= length ids - start /\ choice edges (firstn (length q) (skipn start ids)) q.
  Proof.
    unfold chosen, choice. rewrite map_length. split; intros [L H]; split; auto.
    - revert start L H. induction q as [|e q IH]; intros start L H; [constructor|]. cbn in L |- *.
      destruct (H 0 e eq_refl) as (l & N & I). rewrite Nat.add_0_r, nth_error_map in N.
      destruct (nth_error ids start) as [i|] eqn:Ni; [|discriminate]. injection N as <-.
      apply filter_In in I as [I1 I2]. apply Z.eqb_eq in I2.
      assert (Sk : skipn start ids = i :: skipn (S start) ids).
      { clear - Ni. revert ids Ni. induction start as [|n IHn]; intros [|x l] H; try discriminate; cbn in *; [congruence|apply IHn; exact H]. }
      rewrite Sk. constructor; [auto|]. apply IH; [lia|].
      intros k x Hx. destruct (H (S k) x Hx) as (l & N & I). exists l. split; [|exact I]. rewrite <- N. f_equal. lia.
    - intros i e He. assert (Hi : i < length q) by (apply nth_error_Some; congruence).
      assert (exists z, nth_error (firstn (length q) (skipn start ids)) i = Some z /\ In e edges /\ edge_id e = z) as (z & Hz & I1 & I2).
      { revert i He Hi. induction H as [|z x zs xs Hx Hxs IH]; intros [|i] He Hi; try discriminate; cbn in *.
        - injection He as ->. exists z. tauto.
        - apply IH; auto; lia. }
      rewrite nth_error_firstn_lt in Hz by exact Hi. rewrite nth_error_skipn in Hz.
      rewrite nth_error_map, Hz. cbn. eexists. split; [reflexivity|]. apply filter_In. split; [exact I1|]. apply Z.eqb_eq; exact I2.
  Qed.

  Lemma greedy_inv lists start ps : greedy front back peq lists start ps ->
    start + length (concat ps) = length lists
    /\ (forall pre p post, ps = pre ++ p :: post ->
          p <> [] /\ chain p /\ chosen lists (start + length (concat pre)) p
          /\ forall q, chain q -> chosen lists (start + length (concat pre)) q -> length q <= length p).
  Proof.
    induction 1 as [|start p ps Hlt Hne Hc Hch Hmax _ [IH1 IH2]].
    - split; [cbn; lia|]. intros [|? ?] p post; discriminate.
    - split; [cbn; rewrite app_length; lia|]. intros [|x pre] r post Eq.
      + injection Eq as <- <-. cbn. rewrite Nat.add_0_r. auto.
      + injection Eq as <- ->. cbn. rewrite app_length. rewrite Nat.add_assoc. eapply IH2; reflexivity.
  Qed.

  Lemma choice_app edges i1 i2 q1 q2 : choice edges i1 q1 -> choice edges i2 q2 -> choice edges (i1 ++ i2) (q1 ++ q2).
  Proof. apply Forall2_app. Qed.

  Lemma greedy_choice edges ids start ps :
    greedy front back peq (map (fun i => filter (fun e => Z.eqb (edge_id e) i) edges) ids) start ps ->
    choice edges (skipn start ids) (concat ps).
  Proof.
    remember (map _ ids) as lists eqn:EL. induction 1 as [|start p ps Hlt Hne Hc Hch Hmax _ IH].
    - rewrite EL, map_length, skipn_all. constructor.
    - rewrite EL in Hch. apply chosen_choice in Hch as [L C]. cbn.
      rewrite <- (firstn_skipn (length p) (skipn start ids)). apply choice_app; [exact C|].
      replace (skipn (length p) (skipn start ids)) with (skipn (start + length p) ids); [exact IH|].
      clear. revert ids. induction start as [|n IH]; intros ids; [reflexivity|]. destruct ids; [destruct p; reflexivity|]. apply IH.
  Qed.

  (** **** C33.  If every listed id belongs to an edge, the import yields, in order, one edge per listed id, consecutive
      repetitions collapsed.  The result falls into stretches; each is a connected choice, and no connected choice of
      edges for the ids from its start on is longer. *)
  Theorem C33_import edges ids :
    ids <> [] -> hd_error ids <> Some int64_min -> (forall i, In i ids -> In i (map edge_id edges)) ->
    exists ps, import_file edges ids = Ok (Some (concat ps))
      /\ choice edges (collapse ids) (concat ps)
      /\ forall pre p post, ps = pre ++ p :: post ->
           p <> [] /\ chain p
           /\ forall n q, choice edges (firstn n (skipn (length (concat pre)) (collapse ids))) q -> chain q -> length q <= length p.
  Proof.
    intros Hne Hmin Hin. unfold EdgesList.import_file. rewrite collect_spec by exact Hin. cbn [bindO].
    set (ids' := match collapse (int64_min :: ids) with _ :: r => r | [] => [] end).
    assert (Ei : ids' = collapse ids).
    { unfold ids'. destruct ids as [|i ids]; [congruence|]. cbn [hd_error] in Hmin.
      change (collapse (int64_min :: i :: ids)) with (if Z.eqb int64_min i then collapse (i :: ids) else int64_min :: collapse (i :: ids)).
      destruct (Z.eqb_spec int64_min i); [subst; congruence|reflexivity]. }
    rewrite Ei. clear ids' Ei.
    assert (Hne' : collapse ids <> []) by (destruct ids as [|i ids]; [congruence|]; rewrite collapse_skip; discriminate).
    assert (Hsub : forall i, In i (collapse ids) -> In i ids).
    { clear. induction ids as [|a [|b r] IH]; intros i; [auto|auto|]. change (collapse (a :: b :: r)) with (if Z.eqb a b then collapse (b :: r) else a :: collapse (b :: r)).
      destruct (Z.eqb a b); intros H; [right; apply IH; exact H|]. destruct H as [H|H]; [left; exact H|right; apply IH; exact H]. }
    set (lists := map _ (collapse ids)).
    assert (HF : Forall (fun l : list E => l <> []) lists).
    { apply Forall_forall. unfold lists. intros l Hl. apply in_map_iff in Hl as (i & <- & Hi).
      destruct (proj1 (in_map_iff _ _ _) (Hin i (Hsub i Hi))) as (e & He & Ie). intros F.
      assert (K : In e []) by (rewrite <- F; apply filter_In; rewrite He, Z.eqb_refl; auto). destruct K. }
    destruct (stretches_spec front back peq (length lists) lists HF 0 (Nat.le_0_l _)) as (ps & Es & G); [lia|].
    assert (EM : match lists with [] => Ok None | _ :: _ => bindO (stretches front back peq (length lists) (weight lists) lists 0) (fun _ => None) (fun ps => Ok (Some (concat ps))) end = Ok (Some (concat ps))).
    { rewrite Es. destruct lists eqn:EL; [|reflexivity]. unfold lists in EL. apply map_eq_nil in EL. contradiction. }
    exists ps. split; [exact EM|]. split; [exact (greedy_choice edges (collapse ids) 0 ps G)|].
    intros pre p post Eq. destruct (greedy_inv _ _ _ G) as [_ Inv]. destruct (Inv pre p post Eq) as (A & B & C & D).
    cbn [plus] in *. split; [exact A|]. split; [exact B|]. intros n q Q1 Q2. apply D; [exact Q2|].
    apply chosen_choice. pose proof (Forall2_len _ _ _ Q1) as Len. rewrite firstn_length, skipn_length in Len. split; [lia|].
    unfold choice in *. replace (firstn (length q) _) with (firstn n (skipn (length (concat pre)) (collapse ids))); [exact Q1|].
    rewrite <- Len. destruct (Nat.le_ge_cases n (length (collapse ids) - length (concat pre))).
    - rewrite Nat.min_l by lia. reflexivity.
    - rewrite Nat.min_r by lia. rewrite <- (skipn_length (length (concat pre)) (collapse ids)), firstn_all. apply firstn_all2. rewrite skipn_length. lia.
  Qed.

  (** an id that no edge has makes the import throw *)
  Theorem C33_unknown_id edges ids i :
    In i ids -> ~ In i (map edge_id edges) -> i <> int64_min -> import_file edges ids = Throw None.
  Proof.
    intros Hi Hn Hm. unfold EdgesList.import_file.
    assert (K : forall prev, i <> prev -> exists r, collect (edge_map edge_id edges) prev ids = Throw r).
    { clear Hm. induction ids as [|j ids IH]; [destruct Hi|]. intros prev Hp. cbn [collect].
      destruct (Z.eqb_spec j prev) as [->|Ne].
      - destruct Hi as [->|Hi]; [congruence|]. apply IH; auto.
      - rewrite edge_map_find. destruct (filter (fun e => Z.eqb (edge_id e) j) edges) as [|e l] eqn:F; [exists []; reflexivity|].
        assert (Hij : i <> j).
        { intros ->. assert (In e (e :: l)) as H by (left; reflexivity). rewrite <- F in H. apply filter_In in H as [H1 H2].
          apply Z.eqb_eq in H2. apply Hn. rewrite <- H2. apply in_map; exact H1. }
        destruct Hi as [->|Hi]; [congruence|]. destruct (IH Hi j Hij) as (r & ->). cbn. eexists; reflexivity. }
    destruct (K int64_min Hm) as (r & ->). reflexivity.
  Qed.
End C33.

(** edges as (id, from, to); id 1 exists in both directions, id 4 is detached *)
Definition demo_edges : list (Z * nat * nat) :=
  [(1%Z, 10, 11); (1%Z, 11, 10); (2%Z, 11, 12); (2%Z, 12, 11); (3%Z, 12, 13); (4%Z, 20, 21)].
Definition demo_import := import_file (E:=Z * nat * nat) (P:=nat) (fun e => fst (fst e)) (fun e => Some (snd (fst e))) (fun e => Some (snd e)) Nat.eqb demo_edges.
Example C33_demo :
  demo_import [1; 1; 2; 3; 4; 3]%Z = Ok (Some [(1%Z, 10, 11); (2%Z, 11, 12); (3%Z, 12, 13); (4%Z, 20, 21); (3%Z, 12, 13)])
  /\ (forall i, In i [1; 1; 2; 3; 4; 3]%Z -> In i (map (fun e => fst (fst e)) demo_edges))
  /\ demo_import [2; 1]%Z = Ok (Some [(2%Z, 12, 11); (1%Z, 11, 10)]).
Proof.
  split; [vm_compute; reflexivity|]. split; [|vm_compute; reflexivity].
  intros i [<-|[<-|[<-|[<-|[<-|[<-|[]]]]]]]; vm_compute; tauto.
Qed.

(** **** What is not true.  The message for an edge that is missing in the network is never reached: an unknown id
    aborts the whole import. *)
Theorem C33_missing_edge_message_refuted : exists ids, demo_import ids = Throw None.
Proof. exists [1; 7]%Z. vm_compute. reflexivity. Qed.
(** The id that serves as the initial previous id is dropped when it comes first. *)
Theorem C33_first_id_minimum_refuted : exists (edges : list (Z * nat * nat)) ids,
  (forall i, In i ids -> In i (map (fun e => fst (fst e)) edges))
  /\ import_file (P:=nat) (fun e => fst (fst e)) (fun e => Some (snd (fst e))) (fun e => Some (snd e)) Nat.eqb edges ids = Ok None
  /\ ids <> [].
Proof.
  exists [(int64_min, 1, 2)], [int64_min]. split; [|split; [vm_compute; reflexivity|discriminate]].
  intros i [<-|[]]. left; reflexivity.
Qed.

Print Assumptions C33_import.
Print Assumptions C33_unknown_id.
