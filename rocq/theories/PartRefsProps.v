(** C103: the learners of the parts of a track keep valid references to their environments. *)
From Verif Require Import Base ListAux PartRefs.
Local Open Scope nat_scope.

Section C103.
  Context {Track Env Policy Route : Type}.
  Variable grow : nat -> nat.
  Variable fresh : Env.
  Variable set : Env -> Track -> Env.
  Variable learn : Env -> Env * Policy.
  Variable no_policy : Policy.
  Variable result : Env -> Policy -> Route.
  Variable late stop : nat -> bool.

  (** what a part is to end as, if it is worked on alone *)
  Definition alone (i : nat) (track : Track) : Env * Policy * Route :=
    let e := set fresh track in
    if late i then (e, no_policy, result e no_policy) else (fst (learn e), snd (learn e), result (fst (learn e)) (snd (learn e))).
  (** the parts up to the first after which the time is up *)
  Fixpoint done (i : nat) (tracks : list Track) : list (Env * Policy * Route) :=
    match tracks with
    | [] => []
    | t :: r => alone i t :: (if stop i then [] else done (S i) r)
    end.

  Lemma put_last {A} (l : list A) x y : put_nth (l ++ [x]) (length l) y = l ++ [y].
  Proof. induction l as [|z l IH]; cbn; [reflexivity|]. rewrite IH. reflexivity. Qed.
  Lemma last_nth {A} (l : list A) x : nth_error (l ++ [x]) (length l) = Some x.
  Proof. rewrite nth_error_app2, Nat.sub_diag by lia. reflexivity. Qed.

  Notation st es ls c a b ps ms := (mkState (mkVec es c a) (mkVec ls c b) ps ms).
  Lemma part_ok i track es ls c a b ps (ms : list Route) : length es < c -> length ls = length es ->
    part grow fresh set learn no_policy result late i track (st es ls c a b ps ms) =
    Ok (st (es ++ [fst (fst (alone i track))]) (ls ++ [mkRef a (length es)]) c a b (ps ++ [snd (fst (alone i track))]) (ms ++ [snd (alone i track)])).
  Proof.
    intros H L. assert (LL : forall x, nth_error (ls ++ [x]) (length es) = Some x) by (intro x; rewrite <- L; apply last_nth). unfold part, emplace_back, fetch, store. cbn [p_envs p_learners items cap alloc]. rewrite L.
    destruct (Nat.ltb_spec (length es) c); [|lia]. cbn [items cap alloc r_alloc r_pos p_policies p_matches]. unfold fetch. cbn [items cap alloc r_alloc r_pos].
    rewrite !Nat.eqb_refl, !last_nth. cbn [derefO bindO]. rewrite put_last. unfold alone. destruct (late i); cbn [bindO fst snd items alloc cap].
    - rewrite !Nat.eqb_refl, !last_nth. reflexivity.
    - rewrite LL. cbn [derefO r_alloc r_pos items alloc cap]. rewrite !Nat.eqb_refl, !last_nth. cbn [derefO bindO items alloc cap fst snd].
      rewrite !Nat.eqb_refl, put_last, last_nth. reflexivity.
  Qed.
  Lemma parts_ok tracks : forall i es ls c a b ps (ms : list Route), length es + length tracks <= c -> length ls = length es ->
    (forall k, k < length ls -> nth_error ls k = Some (mkRef a k)) ->
    exists ls', parts grow fresh set learn no_policy result late stop i tracks (st es ls c a b ps ms) =
      Ok (st (es ++ map (fun x => fst (fst x)) (done i tracks)) ls' c a b (ps ++ map (fun x => snd (fst x)) (done i tracks)) (ms ++ map snd (done i tracks))) /\
      length ls' = length es + length (done i tracks) /\ (forall k, k < length ls' -> nth_error ls' k = Some (mkRef a k)).
  Proof.
    induction tracks as [|t r IH]; intros i es ls c a b ps ms H L K; cbn [parts done map].
    - exists ls. rewrite !app_nil_r. split; [reflexivity|]. split; [cbn; lia|exact K].
    - cbn [length] in H. rewrite part_ok by lia. cbn [bindO].
      assert (K' : forall k, k < length (ls ++ [mkRef a (length es)]) -> nth_error (ls ++ [mkRef a (length es)]) k = Some (mkRef a k)).
      { intros k Hk. rewrite app_length in Hk. cbn in Hk. destruct (Nat.eq_dec k (length ls)) as [->|Ne].
        - rewrite last_nth, L. reflexivity.
        - rewrite nth_error_app1 by lia. apply K. lia. }
      destruct (stop i).
      + eexists. split; [reflexivity|]. split; [rewrite app_length; cbn; lia|exact K'].
      + destruct (IH (S i) (es ++ [fst (fst (alone i t))]) (ls ++ [mkRef a (length es)]) c a b (ps ++ [snd (fst (alone i t))]) (ms ++ [snd (alone i t)]))
          as (ls' & E & L' & K''); [rewrite app_length; cbn; lia|rewrite !app_length; cbn; lia|exact K'|].
        exists ls'. rewrite E. rewrite <- !app_assoc. split; [reflexivity|]. split; [rewrite L', app_length; cbn; lia|exact K''].
  Qed.

  (** C103: for any number of parts and however vectors grow, no stale reference is used; every part that was reached ends as if it had been the only
      one, each learner still refers to the environment of its part, and the exporter of candidates finds a policy for each environment. *)
  Theorem C103_references (tracks : list Track) : exists s, match_parts grow fresh set learn no_policy result late stop tracks = Ok s /\
    items (p_envs s) = map (fun x => fst (fst x)) (done 0 tracks) /\
    p_policies s = map (fun x => snd (fst x)) (done 0 tracks) /\
    p_matches s = map snd (done 0 tracks) /\
    length (items (p_learners s)) = length (done 0 tracks) /\
    (forall i l, nth_error (items (p_learners s)) i = Some l -> exists e, nth_error (items (p_envs s)) i = Some e /\ fetch (p_envs s) l Ok = Ok e) /\
    exported no_policy s = Ok (map fst (done 0 tracks)).
  Proof.
    set (n := length tracks).
    assert (R : forall A, reserve n (@empty_vec A) = mkVec [] n (if 0 <? n then 1 else 0)).
    { intro A. unfold reserve, empty_vec. cbn [cap items alloc]. destruct (Nat.ltb_spec 0 n); [reflexivity|]. replace n with 0 by lia. reflexivity. }
    unfold match_parts. fold n. rewrite !R. generalize (if 0 <? n then 1 else 0). intro a.
    destruct (parts_ok tracks 0 [] [] n a a [] []) as (ls' & E & L & K); [cbn; lia|reflexivity|cbn; intros; lia|].
    rewrite E. eexists. split; [reflexivity|]. cbn [p_envs p_policies p_matches p_learners items app]. split; [reflexivity|]. split; [reflexivity|]. split; [reflexivity|].
    split; [exact L|]. split.
    - intros i l Hl. assert (Hi : i < length ls') by (apply nth_error_Some; congruence). rewrite (K i Hi) in Hl. injection Hl as <-.
      cbn in L. rewrite L in Hi. destruct (nth_error (done 0 tracks) i) as [x|] eqn:X; [|apply nth_error_None in X; lia].
      exists (fst (fst x)). rewrite (map_nth_error _ _ _ X). split; [reflexivity|]. unfold fetch. cbn [r_alloc alloc items r_pos]. rewrite Nat.eqb_refl, (map_nth_error _ _ _ X). reflexivity.
    - unfold exported. cbn [p_envs items p_policies]. rewrite map_length. clear.
      generalize (done 0 tracks). intro d.
      assert (G : forall r pre, mapO (fun i => match nth_error (map (fun x => fst (fst x)) (pre ++ r)) i, nth_error (map (fun x : Env * Policy * Route => snd (fst x)) (pre ++ r)) i with
                   | Some e, Some p => Ok (e, p) | Some e, None => Throw (e, no_policy) | None, _ => UB end) (seq (length pre) (length r)) = Ok (map fst r)).
      { induction r as [|x r IH]; intro pre; [reflexivity|]. cbn [length seq mapO].
        assert (X : nth_error (pre ++ x :: r) (length pre) = Some x) by (rewrite nth_error_app2, Nat.sub_diag by lia; reflexivity).
        rewrite !(map_nth_error _ _ _ X). cbn [bindO].
        specialize (IH (pre ++ [x])). rewrite <- app_assoc, app_length, Nat.add_1_r in IH. cbn [app] in IH. rewrite IH. cbn [bindO map]. destruct x as [[e p] m]. reflexivity. }
      exact (G d []).
  Qed.
End C103.

(** C103: it is not true that the learners' references would be valid without the reservation: two parts, vectors that double, and the reference of
    the first learner is stale. *)
Theorem C103_unreserved_refuted : exists s l,
  parts (fun c => max 1 (2 * c)) 0 Nat.add (fun e => (e, e)) 0 (fun _ p => p) (fun _ => false) (fun _ => false) 0 [4; 5]
    (mkState empty_vec empty_vec [] []) = Ok s /\ nth_error (items (p_learners s)) 0 = Some l /\ fetch (p_envs s) l Ok = UB.
Proof. eexists. eexists. split; [vm_compute; reflexivity|]. split; vm_compute; reflexivity. Qed.

(** three parts, the time is up after the second *)
Example C103_case :
  exists s, match_parts (fun c => c) 0 Nat.add (fun e => (e + 1, 10 * e)) 0 Nat.add (fun i => 1 =? i) (fun i => 1 =? i) [4; 5; 6] = Ok s /\
  items (p_envs s) = [5; 5] /\ p_policies s = [40; 0] /\ p_matches s = [45; 5] /\ items (p_learners s) = [mkRef 1 0; mkRef 1 1] /\
  exported 0 s = Ok [(5, 40); (5, 0)].
Proof. eexists. split; [vm_compute; reflexivity|]. vm_compute. repeat split. Qed.

Print Assumptions C103_references.
Print Assumptions C103_unreserved_refuted.
