(** C102: a node table that is moved. *)
From Verif Require Import Base ListAux Osm OsmProofs OsmProps OsmMove.
Local Open Scope nat_scope.

Section C102.
  Context {P : Type}.
  Variable sort : list (osm_vertex P) -> list (osm_vertex P).

  (** calls to the table, and moves of it in between *)
  Inductive use := Call (o : table_op P) | Moved | MovedOnto (t : osm P).
  Fixpoint uses (s : osm P) (us : list use) : option (list (@table_answer P)) :=
    match us with
    | [] => Some []
    | Call o :: r => match table_call sort s o with None => None | Some (s1, a) => option_map (cons a) (uses s1 r) end
    | Moved :: r => uses (move_new s) r
    | MovedOnto t :: r => uses (move_onto t s) r
    end.
  Definition calls_of (us : list use) : list (table_op P) := flat_map (fun u => match u with Call o => [o] | _ => [] end) us.

  (** moves that do no harm: before anything is added, after a lookup, after an addition of an id that is not less than those before,
      or onto a table that is marked to be sorted; [top] is the greatest id so far *)
  Fixpoint harmless (settled : bool) (top : nat) (us : list use) : bool :=
    match us with
    | [] => true
    | Call (Seen _ visible id _ _ _) :: r => if visible then harmless (top <=? id) (max top id) r else harmless settled top r
    | Call (Contains _) :: r => harmless true top r
    | Call (Get _) :: r => harmless true top r
    | Moved :: r => settled && harmless true top r
    | MovedOnto t :: r => (settled || o_sort t) && harmless settled top r
    end.

  Hypothesis Hs : sorts sort.
  Notation below top s := (Forall (fun x => ov_id x <= top) (o_vs s)).

  Lemma ordered_snoc (l : list (osm_vertex P)) x : ordered l -> Forall (fun y => ov_id y <= ov_id x) l -> ordered (l ++ [x]).
  Proof.
    intros O F i j a b L Hi Hj. assert (J : j < length (l ++ [x])) by (apply nth_error_Some; congruence). rewrite app_length in J. cbn in J.
    rewrite nth_error_app1 in Hi by lia. destruct (Nat.eq_dec j (length l)) as [->|Ne].
    - rewrite nth_error_app2, Nat.sub_diag in Hj by lia. injection Hj as <-. rewrite Forall_forall in F. apply F. eapply nth_error_In. exact Hi.
    - rewrite nth_error_app1 in Hj by lia. exact (O i j a b L Hi Hj).
  Qed.
  Lemma below_perm top (l l' : list (osm_vertex P)) : Permutation l l' -> Forall (fun x => ov_id x <= top) l -> Forall (fun x => ov_id x <= top) l'.
  Proof. intros E F. rewrite Forall_forall in *. intros x Hx. apply F. apply (Permutation_in x (Permutation_sym E)). exact Hx. Qed.

  (** an addition: everything is below the greatest id, and the table is in order if the new id is the greatest *)
  Lemma seen_order mmap id p ok1 ok2 s known top s1 : table s known -> below top s ->
    (node sort mmap true id p ok1 ok2 s = Ok s1 \/ node sort mmap true id p ok1 ok2 s = Throw s1) ->
    below (max top id) s1 /\ ((top <=? id) = true -> ordered (o_vs s1)).
  Proof.
    intros T B E. unfold node in E. destruct (contains_spec sort Hs s known id T) as (s2 & E2 & T2 & F2 & P2). rewrite E2 in E.
    pose proof (below_perm _ _ _ P2 B) as B2. pose proof (tb_ord _ _ T2 F2) as O2.
    assert (Bm : below (max top id) s2) by (eapply Forall_impl; [|exact B2]; cbn; lia).
    destruct (lookup known id); [destruct E as [E|E]; [injection E as <-; split; auto|discriminate]|].
    assert (K : o_vs s1 = o_vs s2 \/ o_vs s1 = o_vs s2 ++ [mkOV id p 0 false]).
    { unfold add_node, add_node_once in E. destruct ok1; cbn in E.
      - right. destruct E as [E|E]; [injection E as <-; reflexivity|discriminate].
      - destruct mmap; cbn in E; [destruct ok2; cbn in E|].
        + right. destruct E as [E|E]; [injection E as <-; reflexivity|discriminate].
        + left. destruct E as [E|E]; [discriminate|injection E as <-; reflexivity].
        + left. destruct E as [E|E]; [discriminate|injection E as <-; reflexivity]. }
    destruct K as [-> | ->]; [split; auto|]. split.
    - apply Forall_app. split; [exact Bm|]. constructor; [cbn; lia|constructor].
    - intro L. apply Nat.leb_le in L. apply ordered_snoc; [exact O2|]. eapply Forall_impl; [|exact B2]. cbn. lia.
  Qed.

  (** C102: calls and harmless moves in any order are answered as by the abstract table of C30, as if the table had not been moved. *)
  Theorem C102_moves (us : list use) : harmless true 0 us = true -> uses empty_osm us = Some (expected (fun _ => None) (calls_of us)).
  Proof.
    assert (K : forall (us : list use) s known m settled top, table s known -> (forall n, m n = lookup known n) -> below top s ->
                (settled = true -> ordered (o_vs s)) -> harmless settled top us = true -> uses s us = Some (expected m (calls_of us))).
    { clear us. induction us as [|u us IH]; intros s known m settled top T M B O H; [reflexivity|].
      destruct u as [o| |t]; cbn [uses harmless] in *.
      - change (calls_of (Call o :: us)) with (o :: calls_of us).
        destruct o as [mmap v id p ok1 ok2|id|id]; cbn [table_call expected].
        + destruct (node_spec sort Hs mmap v id p ok1 ok2 s known T) as (s1 & T1 & _ & E).
          destruct v; cbn [negb].
          2: { cbn [node]. rewrite (IH s known m settled top T M B O H). reflexivity. }
          assert (E' : node sort mmap true id p ok1 ok2 s = Ok s1 \/ node sort mmap true id p ok1 ok2 s = Throw s1) by tauto.
          destruct (seen_order _ _ _ _ _ _ _ _ _ T B E') as [B1 O1]. rewrite (M id). destruct (lookup known id) as [q|] eqn:L.
          { destruct E as [E|[E _]].
            - rewrite E. rewrite (IH s1 known m (top <=? id) (max top id) T1 M B1 O1 H). reflexivity.
            - exfalso. unfold node in E. destruct (contains_spec sort Hs s known id T) as (s2 & E2 & _).
              rewrite E2, L in E. discriminate. }
          assert (EE : node sort mmap true id p ok1 ok2 s = if ok1 || (mmap && ok2) then Ok s1 else Throw s1).
          { clear IH. revert E. unfold node. destruct (contains_spec sort Hs s known id T) as (s2 & E2 & _).
            rewrite E2, L. unfold add_node, add_node_once.
            destruct ok1; cbn [orb]; [intros [E|[E _]]; congruence|].
            destruct mmap; cbn [andb]; [|intros [E|[E _]]; congruence].
            destruct ok2; intros [E|[E _]]; congruence. }
          rewrite EE. destruct (ok1 || (mmap && ok2)).
          * rewrite (IH s1 _ (first_wins m id p) (top <=? id) (max top id) T1); [reflexivity| |exact B1|exact O1|exact H].
            intros n. unfold first_wins. rewrite lookup_app, (M id), L, (M n). cbn [lookup].
            destruct (Nat.eqb_spec n id) as [->|Ne].
            -- rewrite L, Nat.eqb_refl. reflexivity.
            -- destruct (Nat.eqb_spec id n); [congruence|]. destruct (lookup known n); reflexivity.
          * rewrite (IH s1 known m (top <=? id) (max top id) T1 M B1 O1 H). reflexivity.
        + destruct (contains_spec sort Hs s known id T) as (s1 & E & T1 & F1 & P1).
          rewrite E, (IH s1 known m true top T1 M (below_perm _ _ _ P1 B) (fun _ => tb_ord _ _ T1 F1) H), (M id). reflexivity.
        + destruct (get_spec sort Hs s known id T) as (s1 & T1 & F1 & P1 & _ & R).
          pose proof (IH s1 known m true top T1 M (below_perm _ _ _ P1 B) (fun _ => tb_ord _ _ T1 F1) H) as I. rewrite (M id).
          destruct (lookup known id) as [p|].
          * destruct R as (k & x & E & X & Ei & Ept). rewrite E, X, I, Ei, Ept. reflexivity.
          * rewrite R, I. reflexivity.
      - apply andb_true_iff in H. destruct H as [Hst H]. specialize (O Hst). destruct T as [T1 T2 T3].
        apply (IH (move_new s) known m true top); [|exact M|exact B|intros _; exact O|exact H]. constructor; [exact T1|exact T2|intros _; exact O].
      - apply andb_true_iff in H. destruct H as [Hst H]. destruct T as [T1 T2 T3].
        apply (IH (move_onto t s) known m settled top); [|exact M|exact B|exact O|exact H]. constructor; [exact T1|exact T2|].
        cbn [o_sort move_onto o_vs]. intro Ft. rewrite Ft, orb_false_r in Hst. exact (O Hst). }
    intro H. apply (K us empty_osm [] _ true 0); [|reflexivity|constructor| |exact H].
    - constructor; cbn; [constructor|constructor|]. intros _ i j x y _ Hx. destruct i; discriminate.
    - intros _ i j x y _ Hx. destruct i; discriminate.
  Qed.
End C102.
Arguments use P : clear implicits.

(** C102: it is not true that a moved table answers as before: node 1 is seen after node 2, then the table is moved, and node 2, stored before, is not
    found, since the new helper does not know that it has to sort; without the move it is found. So also if it is moved onto a helper. *)
Theorem C102_moves_refuted : exists (us : list (table_op nat)) (o : table_op nat),
  uses isort empty_osm (map (@Call nat) us ++ [Moved; Call o]) <> Some (expected (fun _ => None) (us ++ [o])) /\
  uses isort empty_osm (map (@Call nat) us ++ [MovedOnto empty_osm; Call o]) <> Some (expected (fun _ => None) (us ++ [o])) /\
  uses isort empty_osm (map (@Call nat) us ++ [Call o]) = Some (expected (fun _ => None) (us ++ [o])) /\
  expected (fun _ => None) (us ++ [o]) = [ADone; ADone; AFound 2 20].
Proof.
  exists [Seen false true 2 20 true true; Seen false true 1 10 true true], (Get 2).
  split; [vm_compute; discriminate|]. split; [vm_compute; discriminate|]. split; vm_compute; reflexivity.
Qed.

(** nodes in ascending order with moves anywhere, and a node out of order with a lookup before the move *)
Example C102_case :
  harmless true 0 [Moved; Call (Seen false true 1 10 true true); MovedOnto (mkOsm [] true); Call (Seen false true 2 20 true true); Moved;
    Call (Get 1)] = true /\
  harmless true 0 [Call (Seen false true 2 20 true true); Call (Seen false true 1 10 true true); Call (Contains 1); Moved; Call (Get 2)] = true /\
  uses isort empty_osm [Call (Seen false true 2 20 true true); Call (Seen false true 1 10 true true); Call (Contains 1); Moved; Call (Get 2)]
  = Some [ADone; ADone; AContains true; AFound 2 20] /\
  harmless true 0 [Call (Seen false true 2 20 true true); Call (Seen false true 1 10 true true); MovedOnto (mkOsm [] true); Call (Get 2)] = true /\ sorts (@isort nat).
Proof. split; [reflexivity|]. split; [reflexivity|]. split; [vm_compute; reflexivity|]. split; [reflexivity|apply isort_sorts]. Qed.

Print Assumptions C102_moves.
Print Assumptions C102_moves_refuted.
