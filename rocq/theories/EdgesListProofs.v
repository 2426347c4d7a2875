(** Proofs about the import of a list of edge ids. *)
From Coq Require Import ZArith.
From Verif Require Import Base ListAux EdgesList.
Local Open Scope nat_scope.

Section Proofs.
  Context {E P : Type}.
  Variable edge_id : E -> Z.
  Variable front back : E -> option P.
  Variable peq : P -> P -> bool.
  Notation attached := (attached front back peq).
  Notation is_connected := (is_connected front back peq).
  Notation search := (search front back peq).
  Notation stretches := (stretches front back peq).

  (** consecutive edges touch *)
  Definition chain (l : list E) : Prop :=
    forall i a b, nth_error l i = Some a -> nth_error l (S i) = Some b ->
      exists p q, back a = Some p /\ front b = Some q /\ peq p q = true.

  Lemma attached_spec a b : attached a b = true <-> exists p q, back a = Some p /\ front b = Some q /\ peq p q = true.
  Proof.
    unfold EdgesList.attached. split.
    - destruct (back a) as [p|], (front b) as [q|]; intros H; try discriminate. exists p, q; auto.
    - intros (p & q & -> & -> & H). exact H.
  Qed.
  Lemma connected_chain l : is_connected l = true <-> chain l.
  Proof.
    induction l as [|a [|b l] IH]; cbn.
    - split; [|reflexivity]. intros _ [|i] ? ? H; discriminate.
    - split; [|reflexivity]. intros _ [|[|i]] ? ? ? H; discriminate.
    - rewrite andb_true_iff, attached_spec. change ((exists p q, back a = Some p /\ front b = Some q /\ peq p q = true) /\ is_connected (b :: l) = true <-> chain (a :: b :: l)).
      rewrite IH. split.
      + intros [H1 H2] [|i] x y; cbn; [intros [= <-] [= <-]; exact H1|]. apply H2.
      + intros H. split; [apply (H 0); reflexivity|]. intros i x y. apply (H (S i)).
  Qed.
  Lemma chain_prefix l m : chain (l ++ m) -> chain l.
  Proof.
    intros H i a b A B. apply (H i); rewrite nth_error_app1; auto; [|]; apply nth_error_Some; congruence.
  Qed.

  (** a choice of one candidate each from the lists from [start] on *)
  Definition chosen (lists : list (list E)) (start : nat) (q : list E) : Prop :=
    length q <= length lists - start /\
    forall i e, nth_error q i = Some e -> exists l, nth_error lists (start + i) = Some l /\ In e l.

  Lemma chosen_nil lists start : chosen lists start [].
  Proof. split; [cbn; lia|]. intros [|i] e H; discriminate. Qed.
  Lemma chosen_snoc lists start q e l :
    chosen lists start q -> nth_error lists (start + length q) = Some l -> In e l -> chosen lists start (q ++ [e]).
  Proof.
    intros [L H] N I. assert (start + length q < length lists) by (apply nth_error_Some; congruence). split.
    - rewrite app_length; cbn; lia.
    - intros i x Hx. destruct (Nat.lt_ge_cases i (length q)) as [Hi|Hi].
      + rewrite nth_error_app1 in Hx by exact Hi. auto.
      + rewrite nth_error_app2 in Hx by exact Hi. destruct (i - length q) as [|k] eqn:K; [|destruct k; discriminate].
        injection Hx as <-. replace i with (length q) by lia. exists l; auto.
  Qed.

  (** *** The search *)
  Section Search.
    Variable lists : list (list E).
    Variable start : nat.
    Hypothesis Hs : start < length lists.

    Definition item (x : nat * list E) : Prop := fst x = start + length (snd x) /\ chain (snd x) /\ chosen lists start (snd x).
    Definition mass (q : list (nat * list E)) : nat := list_sum (map (fun x => weight (skipn (fst x) lists)) q).

    Definition covered (queue : list (nat * list E)) (path : list E) : Prop :=
      forall q, chain q -> chosen lists start q ->
        length q <= length path \/ exists x t, In x queue /\ q = snd x ++ t.

    Lemma mass_app a b : mass (a ++ b) = mass a + mass b.
    Proof. unfold mass. rewrite map_app, list_sum_app. reflexivity. Qed.
    Lemma mass_cons x q : mass (x :: q) = weight (skipn (fst x) lists) + mass q.
    Proof. reflexivity. Qed.
    Lemma mass_const (f : E -> bool) g step (ds : list E) :
      mass (filter (fun p => is_connected (snd p)) (map (fun d => (step, g d)) ds)) <= length ds * weight (skipn step lists).
    Proof.
      induction ds as [|d ds IH]; [apply Nat.le_0_l|]. cbn [map filter snd length]. rewrite Nat.mul_succ_l.
      destruct (is_connected (g d)); [rewrite mass_cons; cbn [fst]|]; lia.
    Qed.
    Lemma skipn_nth n (l : list (list E)) d : nth_error l n = Some d -> skipn n l = d :: skipn (S n) l.
    Proof. revert l; induction n as [|n IH]; intros [|x l] H; try discriminate; cbn in *; [congruence|apply IH; exact H]. Qed.

    Lemma search_spec fuel : forall queue path,
      mass queue <= fuel ->
      (forall x, In x queue -> item x) -> chain path -> chosen lists start path ->
      covered queue path ->
      exists p, search fuel lists (length lists - start) queue path = Ok p /\ chain p /\ chosen lists start p
        /\ forall q, chain q -> chosen lists start q -> length q <= length p.
    Proof.
      induction fuel as [|fuel IH]; intros [|[step cur] queue] path Hm Hq Hc Hch Hcov.
      - cbn. exists path. split; [reflexivity|]. split; [exact Hc|]. split; [exact Hch|]. intros q Q1 Q2.
        destruct (Hcov q Q1 Q2) as [H|(x & t & [] & _)]. exact H.
      - exfalso. unfold mass in Hm. cbn in Hm. destruct (skipn step lists); cbn in Hm; lia.
      - cbn. exists path. split; [reflexivity|]. split; [exact Hc|]. split; [exact Hch|]. intros q Q1 Q2.
        destruct (Hcov q Q1 Q2) as [H|(x & t & [] & _)]. exact H.
      - cbn [EdgesList.search].
        destruct (Hq (step, cur) (or_introl eq_refl)) as (Istep & Icon & Icho). cbn in Istep, Icon, Icho.
        assert (Con : is_connected cur = true) by (apply connected_chain; exact Icon). rewrite Con. cbn [andb].
        set (path' := if length path <? length cur then cur else path).
        assert (P1 : chain path') by (unfold path'; destruct (_ <? _); auto).
        assert (P2 : chosen lists start path') by (unfold path'; destruct (_ <? _); auto).
        assert (P3 : length path <= length path' /\ length cur <= length path')
          by (unfold path'; destruct (Nat.ltb_spec (length path) (length cur)); lia).
        destruct (Nat.eqb_spec (length cur) (length lists - start)) as [Full|NFull].
        + exists path'. split; [reflexivity|]. split; [exact P1|]. split; [exact P2|]. intros q _ [Q _]. lia.
        + assert (Lt : length cur < length lists - start) by (destruct Icho; lia).
          destruct (Nat.ltb_spec step (length lists)) as [Ls|Ls]; [|lia].
          destruct (nth_error lists step) as [ds|] eqn:N; [|apply nth_error_None in N; lia].
          set (new := filter _ _). apply IH; auto.
          * rewrite mass_app. rewrite mass_cons in Hm. cbn [fst] in Hm. rewrite (skipn_nth _ _ _ N) in Hm. cbn [weight] in Hm.
            pose proof (mass_const (fun _ => true) (fun d => cur ++ [d]) (S step) ds) as M. cbn beta in M. fold new in M.
            lia.
          * intros x Hx. apply in_app_iff in Hx as [Hx|Hx]; [apply Hq; right; exact Hx|].
            unfold new in Hx. apply filter_In in Hx as [Hx C]. apply in_map_iff in Hx as (d & <- & Hd). cbn in C |- *.
            split; [cbn; rewrite app_length; cbn; lia|]. split; [apply connected_chain; exact C|].
            cbn. eapply chosen_snoc; [exact Icho|rewrite <- Istep; exact N|exact Hd].
          * intros q Q1 Q2. destruct (Hcov q Q1 Q2) as [H|(x & t & [<-|Hx] & ->)].
            -- left; lia.
            -- cbn [snd] in *. destruct t as [|e t]; [rewrite app_nil_r in *; left; lia|]. right.
               exists (S step, cur ++ [e]), t. split; [|cbn; rewrite <- app_assoc; reflexivity].
               apply in_app_iff. right. unfold new. apply filter_In. split.
               ++ apply in_map_iff. exists e. split; [reflexivity|].
                  destruct Q2 as [_ Q2]. destruct (Q2 (length cur) e) as (l & Nl & Il).
                  { rewrite nth_error_app2, Nat.sub_diag by lia. reflexivity. }
                  rewrite <- Istep, N in Nl. injection Nl as <-. exact Il.
               ++ cbn. apply connected_chain. apply (chain_prefix _ t). rewrite <- app_assoc. exact Q1.
            -- right. exists x, t. split; [apply in_app_iff; left; exact Hx|reflexivity].
    Qed.
  End Search.

  Lemma weight_skipn n : forall lists : list (list E), Forall (fun l => l <> []) lists -> weight (skipn n lists) <= weight lists.
  Proof.
    induction n as [|n IH]; intros [|l r] H; cbn; try lia. inversion H as [|? ? Hl Hr]; subst.
    specialize (IH r Hr). destruct l; [congruence|]. cbn. lia.
  Qed.

  (** *** All stretches *)
  Inductive greedy (lists : list (list E)) : nat -> list (list E) -> Prop :=
  | greedy_end : greedy lists (length lists) []
  | greedy_step start p ps :
      start < length lists -> p <> [] -> chain p -> chosen lists start p ->
      (forall q, chain q -> chosen lists start q -> length q <= length p) ->
      greedy lists (start + length p) ps -> greedy lists start (p :: ps).

  Lemma stretches_spec fuel lists : Forall (fun l => l <> []) lists -> forall start,
    start <= length lists -> length lists - start <= fuel ->
    exists ps, stretches fuel (weight lists) lists start = Ok ps /\ greedy lists start ps.
  Proof.
    intros Hn. induction fuel as [|fuel IH]; intros start Hle Hf; cbn [EdgesList.stretches].
    - destruct (Nat.ltb_spec start (length lists)); [lia|]. exists []. split; [reflexivity|].
      replace start with (length lists) by lia. constructor.
    - destruct (Nat.ltb_spec start (length lists)) as [Hs|Hs].
      2: { exists []. split; [reflexivity|]. replace start with (length lists) by lia. constructor. }
      destruct (search_spec lists start Hs (weight lists) [(start, [])] []) as (p & E1 & C1 & C2 & C3).
      + unfold mass. cbn. rewrite Nat.add_0_r. apply weight_skipn; exact Hn.
      + intros x [<-|[]]. split; [cbn; lia|]. split; [|apply chosen_nil]. intros [|i] ? ? H; discriminate.
      + intros [|i] ? ? H; discriminate.
      + apply chosen_nil.
      + intros q _ _. right. exists (start, []), q. split; [left; reflexivity|reflexivity].
      + rewrite E1. cbn [bindO].
        assert (Np : p <> []).
        { destruct (nth_error lists start) as [[|e l]|] eqn:N.
          - rewrite Forall_forall in Hn. exfalso. apply (Hn []); [eapply nth_error_In; exact N|reflexivity].
          - intros ->. assert (length [e] <= 0); [|cbn in *; lia]. apply (C3 [e]).
            + intros [|[|i]] ? ? ? H; discriminate.
            + apply (chosen_snoc lists start [] e (e :: l)); [apply chosen_nil|cbn; rewrite Nat.add_0_r; exact N|left; reflexivity].
          - apply nth_error_None in N. lia. }
        destruct (IH (start + length p)) as (ps & E2 & G2).
        * destruct C2; lia.
        * destruct p; [congruence|cbn; lia].
        * destruct p as [|e p]; [congruence|]. rewrite E2. cbn [bindO]. exists ((e :: p) :: ps). split; [reflexivity|].
          econstructor; eauto.
  Qed.

  (** *** Candidates by id *)
  Notation candidates edges i := (filter (fun e => Z.eqb (edge_id e) i) edges).

  Lemma find_em_add i j e m :
    find (fun x => Z.eqb (fst x) i) (em_add j e m)
    = if Z.eqb j i then Some (i, match find (fun x => Z.eqb (fst x) i) m with Some (_, l) => l ++ [e] | None => [e] end : list E)
      else find (fun x => Z.eqb (fst x) i) m.
  Proof.
    induction m as [|[k l] m IH]; cbn.
    - destruct (Z.eqb_spec j i); [subst|]; reflexivity.
    - destruct (Z.eqb_spec k j) as [->|Ne]; cbn.
      + destruct (Z.eqb_spec j i) as [->|]; reflexivity.
      + destruct (Z.eqb_spec k i) as [->|]; cbn.
        * destruct (Z.eqb_spec j i); [congruence|reflexivity].
        * exact IH.
  Qed.
  Lemma edge_map_find edges i :
    find (fun x => Z.eqb (fst x) i) (edge_map edge_id edges)
    = match candidates edges i with [] => None | l => Some (i, l) end.
  Proof.
    unfold edge_map. rewrite <- (rev_involutive edges). set (r := rev edges). induction r as [|e r IH]; cbn [rev].
    - reflexivity.
    - rewrite fold_left_app. cbn [fold_left]. rewrite find_em_add, IH, filter_app. cbn [filter].
      destruct (Z.eqb (edge_id e) i).
      + destruct (candidates (rev r) i); reflexivity.
      + rewrite app_nil_r. reflexivity.
  Qed.

  (** consecutive repetitions collapsed *)
  Fixpoint collapse (ids : list Z) : list Z :=
    match ids with
    | a :: ((b :: _) as r) => if Z.eqb a b then collapse r else a :: collapse r
    | l => l
    end.
  Lemma collapse_skip prev ids : collapse (prev :: ids) = prev :: match collapse (prev :: ids) with _ :: r => r | [] => [] end.
  Proof.
    induction ids as [|b ids IH]; [reflexivity|]. cbn [collapse]. destruct (Z.eqb_spec prev b) as [->|]; [exact IH|reflexivity].
  Qed.

  Lemma collect_spec edges ids : forall prev,
    (forall i, In i ids -> In i (map edge_id edges)) ->
    collect (edge_map edge_id edges) prev ids
    = Ok (map (fun i => candidates edges i) (match collapse (prev :: ids) with _ :: r => r | [] => [] end)).
  Proof.
    induction ids as [|i ids IH]; intros prev H; [reflexivity|]. cbn [collect]. rewrite Z.eqb_sym.
    change (collapse (prev :: i :: ids)) with (if Z.eqb prev i then collapse (i :: ids) else prev :: collapse (i :: ids)).
    destruct (Z.eqb_spec prev i) as [->|Ne].
    - apply IH. intros j Hj. apply H. right; exact Hj.
    - rewrite edge_map_find. destruct (candidates edges i) as [|e l] eqn:F.
      + exfalso. destruct (proj1 (in_map_iff _ _ _) (H i (or_introl eq_refl))) as (e & <- & He).
        assert (K : In e []) by (rewrite <- F; apply filter_In; rewrite Z.eqb_refl; auto). destruct K.
      + rewrite IH by (intros j Hj; apply H; right; exact Hj). cbn [bindO]. rewrite (collapse_skip i ids). cbn [map].
        rewrite F. reflexivity.
  Qed.
End Proofs.
