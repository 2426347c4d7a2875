(** C101: what the printed numbers of candidates and combinations count. *)
From Coq Require Import ZArith QArith.
From Verif Require Import Base ListAux Env EnvProps Viterbi Deadline Limit Counts.
Local Open Scope nat_scope.

Lemma sum_cons x l : list_sum (x :: l) = x + list_sum l.
Proof. reflexivity. Qed.
Lemma fold_sum {X : Type} (f : X -> nat) : forall l a, fold_left (fun s x => s + f x) l a = a + list_sum (map f l).
Proof. induction l as [|x l IH]; intro a; cbn [fold_left map]; [unfold list_sum; cbn; lia|]. rewrite IH. unfold list_sum. cbn. lia. Qed.

(** C101: the number of candidates is the number of edges of all candidates. *)
Theorem C101_edges {Cand : Type} (width : Cand -> nat) (cands : list Cand) :
  count_edges width cands = length (flat_map (fun c => seq 0 (width c)) cands).
Proof.
  unfold count_edges. rewrite fold_sum. induction cands as [|c r IH]; [reflexivity|]. cbn [flat_map map]. rewrite app_length, seq_length, <- IH. reflexivity.
Qed.

(** *** The hidden Markov model *)
Definition entries {V : Type} (trans : list (list (list V))) : nat := length (concat (concat trans)).

Section Hmm.
  Context {C Line Cand V : Type}.
  Variable look : C -> C * bool.
  Variable log_inv : nat -> V.
  Variable width : Cand -> nat.
  Variable obs : list Cand -> nat -> nat -> V.
  Variable trans : list Cand -> nat -> nat -> nat -> V.
  Variable search : Line -> C -> list Cand * C.
  Variable filter : bool.
  Variable simplify median : option (Line -> Line).
  Notation row := (trans_row log_inv width trans).

  (** a loop that is left for the time has done the first rounds *)
  Lemma watched_rows (f : nat -> list (list V)) : forall n k a c a' late c',
    watched look (fun ts i => ts ++ [f i]) (seq k n) a c = (a', late, c') -> exists m, m <= n /\ a' = a ++ map f (seq k m).
  Proof.
    induction n as [|n IH]; intros k a c a' late c' E; cbn [seq watched] in E.
    - injection E as <- _ _. exists 0. rewrite app_nil_r. split; [lia|reflexivity].
    - destruct (look c) as [c1 l1]. destruct l1.
      + injection E as <- _ _. exists 1. split; [lia|reflexivity].
      + destruct (IH _ _ _ _ _ _ E) as (m & Hm & ->). exists (S m). split; [lia|]. cbn. rewrite <- app_assoc. reflexivity.
  Qed.

  Lemma row_length cs i : length (row cs i) = size_at width cs i.
  Proof. destruct i; cbn [trans_row]; rewrite map_length, seq_length; reflexivity. Qed.
  Lemma row_entries cs i : length (concat (row cs i)) = match i with 0 => size_at width cs 0 | S from => size_at width cs i * size_at width cs from end.
  Proof.
    destruct i as [|from]; cbn [trans_row].
    - rewrite <- (seq_length (size_at width cs 0) 0) at 2. induction (seq 0 (size_at width cs 0)) as [|x l IH]; [reflexivity|]. cbn. rewrite IH. reflexivity.
    - rewrite <- (seq_length (size_at width cs (S from)) 0) at 2. induction (seq 0 (size_at width cs (S from))) as [|x l IH]; [reflexivity|].
      cbn [map concat length]. rewrite app_length, map_length, seq_length, IH. lia.
  Qed.

  Lemma states_table cs n m : m <= n -> hmm_states n (map (row cs) (seq 0 m)) = Ok (entries (map (row cs) (seq 0 m))).
  Proof.
    intro H. set (T := map (row cs) (seq 0 m)).
    assert (L : length T = m) by (unfold T; rewrite map_length, seq_length; reflexivity).
    assert (N : forall i, i < m -> nth_error T i = Some (row cs i)).
    { intros i Hi. unfold T. rewrite (map_nth_error (row cs) i (seq 0 m) (d := i)); [reflexivity|].
      rewrite (nth_error_nth' _ 0) by (rewrite seq_length; exact Hi). rewrite seq_nth by exact Hi. reflexivity. }
    assert (R : forall s i, states_round T s i = Ok (if i <? m then s + length (concat (row cs i)) else s)).
    { intros s i. unfold states_round. rewrite L, row_entries. destruct i as [|from].
      - destruct (Nat.ltb_spec 0 m); [|reflexivity]. rewrite N by lia. cbn [derefO]. rewrite row_length. reflexivity.
      - destruct (Nat.ltb_spec from m), (Nat.ltb_spec (S from) m); cbn [andb]; try lia; [|reflexivity..].
        rewrite !N by lia. cbn [derefO]. rewrite !row_length. reflexivity. }
    unfold hmm_states.
    assert (F : forall k j s, foldO (states_round T) (seq j k) s =
              Ok (s + list_sum (map (fun i => length (concat (row cs i))) (seq j (min k (m - j)))))).
    { induction k as [|k IH]; intros j s; cbn [seq foldO]; [cbn; f_equal; lia|]. rewrite R. cbn [bindO]. rewrite IH. f_equal. destruct (Nat.ltb_spec j m).
      - replace (min (S k) (m - j)) with (S (min k (m - S j))) by lia. cbn [seq map]. rewrite sum_cons. lia.
      - replace (min (S k) (m - j)) with 0 by lia. replace (min k (m - S j)) with 0 by lia. reflexivity. }
    rewrite F. rewrite Nat.sub_0_r, Nat.min_r by exact H. cbn [Nat.add]. unfold entries, T. f_equal.
    generalize (seq 0 m). induction l as [|i l IH]; [reflexivity|]. cbn [map concat]. rewrite concat_app, app_length, <- IH. reflexivity.
  Qed.

  (** C101: whenever the environment is set, in time or not, the number of combinations is worked out without reading past the end and is the
      number of scores in its table; in time, these are
      one for each edge of the first candidate and one for each pair of edges of neighbouring candidates. *)
  Theorem C101_hmm (track : Line) (c : C) :
    let h := fst (l_set look log_inv width obs trans search filter simplify median track c) in
    hmm_states (length (h_cands h)) (h_trans h) = Ok (entries (h_trans h)) /\
    (length (h_trans h) = length (h_cands h) ->
     hmm_states (length (h_cands h)) (h_trans h) =
       Ok (match map width (h_cands h) with
           | [] => 0
           | w :: ws => w + list_sum (map (fun p => fst p * snd p) (combine (w :: ws) ws))
           end)).
  Proof.
    cbv zeta.
    assert (K : exists cs m, h_cands (fst (l_set look log_inv width obs trans search filter simplify median track c)) = cs /\ m <= length cs /\
              h_trans (fst (l_set look log_inv width obs trans search filter simplify median track c)) = map (row cs) (seq 0 m)).
    { unfold l_set. destruct (if filter then look c else (c, false)) as [c1 late1]. destruct late1; [exists [], 0; repeat split; cbn; lia|].
      destruct (match simplify with Some _ => look c1 | None => (c1, false) end) as [c2 late2]. destruct late2; [exists [], 0; repeat split; cbn; lia|].
      destruct (match median with Some _ => look c2 | None => (c2, false) end) as [c3 late3]. destruct late3; [exists [], 0; repeat split; cbn; lia|].
      destruct (search _ c3) as [cs c4]. destruct (look c4) as [c5 late5]. destruct late5; [exists cs, 0; repeat split; cbn; lia|].
      destruct (watched look _ (seq 0 (length cs)) [] c5) as [[os late6] c6]. destruct late6; [exists cs, 0; repeat split; cbn; lia|].
      destruct (watched look (fun ts i => ts ++ [row cs i]) (seq 0 (length cs)) [] c6) as [[ts late7] c7] eqn:E7.
      destruct (watched_rows (row cs) _ _ _ _ _ _ _ E7) as (m & Hm & ->). exists cs, m. repeat split; assumption. }
    destruct K as (cs & m & -> & Hm & ->). split; [apply states_table; exact Hm|].
    rewrite map_length, seq_length. intros ->. rewrite states_table by lia. unfold entries. f_equal.
    assert (E : forall l, length (concat (concat (map (row cs) l))) = list_sum (map (fun i => length (concat (row cs i))) l)).
    { induction l as [|i l IH]; [reflexivity|]. cbn [map concat]. rewrite concat_app, app_length, IH. reflexivity. }
    rewrite E. destruct cs as [|x cs]; [reflexivity|]. cbn [length seq map]. rewrite !sum_cons. rewrite row_entries. unfold size_at at 1. cbn [nth_error].
    f_equal.
    assert (G : forall cs' pre w0, (size_at width pre (length pre - 1) = w0 -> pre <> [] ->
              list_sum (map (fun i => length (concat (row (pre ++ cs') i))) (seq (length pre) (length cs'))) =
              list_sum (map (fun p => fst p * snd p) (combine (w0 :: map width cs') (map width cs'))))).
    { induction cs' as [|y cs' IH]; intros pre w0 Hw Hn; [reflexivity|]. cbn [length seq map combine fst snd]. rewrite !sum_cons. cbn [fst snd].
      destruct (length pre) as [|k] eqn:Lp; [destruct pre; [contradiction|discriminate]|].
      rewrite row_entries.
      assert (S1 : size_at width (pre ++ y :: cs') (S k) = width y).
      { unfold size_at. rewrite nth_error_app2 by lia. rewrite Lp, Nat.sub_diag. reflexivity. }
      assert (S2 : size_at width (pre ++ y :: cs') k = w0).
      { rewrite <- Hw. unfold size_at. rewrite nth_error_app1 by lia. replace (S k - 1) with k by lia. reflexivity. }
      rewrite S1, S2. f_equal; [lia|].
      specialize (IH (pre ++ [y]) (width y)). rewrite <- app_assoc in IH. rewrite app_length, Lp in IH. cbn [app length] in IH.
      replace (S k + 1) with (S (S k)) in IH by lia. apply IH.
      - unfold size_at. replace (S (S k) - 1) with (length pre) by lia. rewrite nth_error_app2 by lia. rewrite Nat.sub_diag. reflexivity.
      - destruct pre; discriminate. }
    apply (G cs [x] (width x)); [reflexivity|discriminate].
  Qed.
End Hmm.

(** *** The step-wise environment *)
Section Single.
  Context {R : Type}.
  Variable zeroR : R.
  Variable cands : list nat.
  Variable state_size : nat.
  Variable first_reward : istate -> iaction -> R.
  Variable judge : istate -> iaction -> @verdict R.
  Variable sort : list (nat * R) -> list (nat * R).
  Notation step := (step zeroR cands state_size first_reward judge).
  Notation plays := (plays zeroR cands state_size first_reward judge sort).
  Notation play := (play zeroR cands state_size first_reward judge sort).

  (** the edges to choose from in a state, and both special actions; past the end only that of doing nothing *)
  Definition choices (s : istate) : nat :=
    match s with
    | [] => 1
    | _ => let p := last s 0%Z in
           if (0 <=? p)%Z then match nth_error cands (Z.to_nat p) with Some n => n + 2 | None => 1 end else 1
    end.
  Lemma choices_count s : choices s = action_count cands s.
  Proof.
    destruct s as [|x s]; [reflexivity|]. unfold action_count, special_actions.
    assert (E : Env.back (x :: s) = Some (last (x :: s) 0%Z)).
    { unfold Env.back. rewrite (app_removelast_last 0%Z (l := x :: s)) at 1 by discriminate. rewrite rev_app_distr. reflexivity. }
    rewrite E. unfold choices, at_pos. destruct (Z.ltb_spec (last (x :: s) 0%Z) 0), (Z.leb_spec 0 (last (x :: s) 0%Z)); try lia; reflexivity.
  Qed.

  Definition fits (e : @env R) : Prop := map (@length _) (st_cache e) = map (action_count cands) (st_list e).
  Lemma fits_i2s e s : fits e -> fits (fst (internal2state cands e s)) /\ exists l, st_list (fst (internal2state cands e s)) = st_list e ++ l.
  Proof.
    intro F. unfold internal2state. destruct (find_state (st_map e) s); cbn [fst]; [split; [exact F|exists []; rewrite app_nil_r; reflexivity]|].
    split; [|exists [s]; reflexivity]. unfold fits in *. cbn [st_cache st_list]. rewrite !map_app, F. cbn. rewrite repeat_length. reflexivity.
  Qed.
  Lemma put_length (row : list (option (@result R))) : forall a r, a < length row -> length (put row a r) = length row.
  Proof. induction row as [|x row IH]; intros [|a] r H; cbn in *; try lia. rewrite IH by lia. reflexivity. Qed.
  Lemma put_at_lengths (cache : list (list (option (@result R)))) : forall i a r c' row, nth_error cache i = Some row -> a < length row ->
    put_at cache i a r = Ok c' -> map (@length _) c' = map (@length _) cache.
  Proof.
    induction cache as [|x cache IH]; intros i a r c' row N H E; [destruct i; discriminate|]. destruct i as [|i]; cbn in *.
    - injection N as ->. injection E as <-. cbn. rewrite put_length by exact H. reflexivity.
    - destruct (put_at cache i a r) as [t| | |] eqn:Et; try discriminate. cbn in E. injection E as <-. cbn. f_equal. eapply IH; eassumption.
  Qed.
  Lemma offered_lt s a : offered cands s a -> a < action_count cands s.
  Proof.
    unfold offered, action_count, special_actions. destruct (Env.back s) as [p|]; [|lia]. destruct (at_pos cands p) as [[|n]|]; lia.
  Qed.
  Lemma fits_step e a e' r s : fits e -> nth_error (st_list e) (st_cur e) = Some s -> offered cands s a -> step e a = Ok (e', r) ->
    fits e' /\ exists l, st_list e' = st_list e ++ l.
  Proof.
    intros F N O E. unfold Env.step in E. destruct (cached e a) as [r0|].
    - injection E as <- _. split; [exact F|exists []; rewrite app_nil_r; reflexivity].
    - rewrite N in E. cbn [derefO] in E.
      destruct (new_state _ _ _) as [new0| | |]; try discriminate. cbn [bindO] in E.
      destruct (Env.reward _ _ _ _ _ _ _) as [[[rw new1] a1]| | |]; try discriminate. cbn [bindO] in E.
      destruct (fits_i2s e new1 F) as (F1 & l & X). destruct (internal2state cands e new1) as [e1 next]. cbn [fst] in *.
      destruct (is_done cands new1) as [d| | |]; try discriminate. cbn [bindO] in E.
      destruct (put_at (st_cache e1) (st_cur e) a _) as [cache| | |] eqn:Ep; try discriminate. cbn [bindO] in E. injection E as <- _.
      cbn [st_list]. split; [|exists l; exact X]. unfold fits. cbn [st_cache st_list].
      assert (N1 : nth_error (st_list e1) (st_cur e) = Some s).
      { rewrite X. rewrite nth_error_app1; [exact N|]. apply nth_error_Some. congruence. }
      assert (Q : nth_error (map (@length _) (st_cache e1)) (st_cur e) = Some (action_count cands s)).
      { rewrite F1. apply map_nth_error. exact N1. }
      rewrite nth_error_map in Q. destruct (nth_error (st_cache e1) (st_cur e)) as [row|] eqn:Er; [|discriminate]. cbn in Q. injection Q as Q.
      rewrite (put_at_lengths _ _ _ _ _ _ Er ltac:(rewrite Q; apply offered_lt; exact O) Ep). exact F1.
  Qed.
  Lemma fits_try l : forall e s e' rs, fits e -> nth_error (st_list e) (st_cur e) = Some s -> (forall a, In a l -> offered cands s a) ->
    try_actions zeroR cands state_size first_reward judge e l = Ok (e', rs) -> fits e'.
  Proof.
    induction l as [|a l IH]; intros e s e' rs F N O E; cbn [try_actions] in E; [injection E as <- _; exact F|].
    destruct (step e a) as [[e1 r]| | |] eqn:E1; try discriminate. cbn [bindO] in E.
    destruct (fits_step _ _ _ _ _ F N (O a (or_introl eq_refl)) E1) as (F1 & m & X).
    destruct (try_actions _ _ _ _ _ (set_cur e1 (st_cur e)) l) as [[e2 rs']| | |] eqn:E2; try discriminate. cbn [bindO] in E. injection E as <- _.
    apply (IH (set_cur e1 (st_cur e)) s e2 rs' F1); [|intros b Hb; apply O; right; exact Hb|exact E2].
    cbn [st_list st_cur set_cur]. rewrite X, nth_error_app1; [exact N|]. apply nth_error_Some. congruence.
  Qed.
  Lemma fits_play e e' : fits e -> play e e' -> fits e'.
  Proof.
    intros F M. destruct M as [e|e i Hi|e b e' l E|e s a e' r N O E].
    - unfold Env.reset. pose proof (fits_i2s e [0%Z] F) as (F1 & _). destruct (internal2state cands e [0%Z]). exact F1.
    - exact F.
    - unfold Env.actions in E. destruct (nth_error (st_list e) (st_cur e)) as [s|] eqn:N; [|discriminate]. cbn [derefO] in E.
      destruct (Env.back s) as [p|] eqn:B; [|injection E as <- _; exact F].
      destruct (at_pos cands p) as [[|n]|] eqn:A; cbn [Nat.ltb Nat.leb] in E; try (injection E as <- _; exact F).
      destruct b; [|injection E as <- _; exact F].
      destruct (try_actions _ _ _ _ _ e (seq special_actions (S n))) as [[e1 rs]| | |] eqn:T; try discriminate. cbn [bindO] in E. injection E as <- _.
      apply (fits_try (seq special_actions (S n)) e s e1 rs F N); [|exact T]. intros a Ha. apply in_seq in Ha. unfold offered. rewrite B, A. exact Ha.
    - exact (proj1 (fits_step _ _ _ _ _ F N O E)).
  Qed.

  (** C101: while a learner takes offered actions, the number of combinations is that of all choices in the states met so far; no more results
      than that have been worked out. *)
  Theorem C101_single c e : plays (init_env c) e ->
    single_states (st_cache e) = list_sum (map choices (st_list e)) /\
    length (List.filter (fun x : option (@result R) => match x with Some _ => true | None => false end) (concat (st_cache e))) <= single_states (st_cache e).
  Proof.
    intro M. assert (F : fits e).
    { assert (F0 : fits (@init_env R c)) by reflexivity. revert F0. induction M as [e|e1 e2 e3 M Ms IH]; [auto|]. intro F0. apply IH. eapply fits_play; eassumption. }
    unfold single_states. rewrite fold_sum. cbn [Nat.add]. split.
    - rewrite F. f_equal. apply map_ext. intro s. symmetry. apply choices_count.
    - assert (L : list_sum (map (@length _) (st_cache e)) = length (concat (st_cache e))).
      { clear. induction (st_cache e) as [|x l IH]; [reflexivity|]. cbn [map concat]. rewrite app_length, <- IH. reflexivity. }
      rewrite L. clear. induction (concat (st_cache e)) as [|x l IH]; [cbn; lia|]. cbn. destruct x; cbn; lia.
  Qed.
End Single.

(** C101: what the output prints for a match is the sum over its parts, and the candidates exporter reserves room for exactly that many rows. *)
Theorem C101_sums (envs : list (nat * nat)) :
  printed envs = (list_sum (map fst envs), list_sum (map snd envs)) /\ reserved (map fst envs) = fst (printed envs).
Proof.
  assert (P : forall l s, fold_left (fun s e => (fst s + fst e, snd s + snd e)) l s = (fst s + list_sum (map fst l), snd s + list_sum (map snd l))).
  { induction l as [|x l IH]; intros [a b]; cbn [fold_left map]; [change (list_sum []) with 0; rewrite !Nat.add_0_r; reflexivity|]. rewrite IH, !sum_cons. cbn [fst snd]. f_equal; lia. }
  unfold printed, reserved. rewrite P. cbn [fst snd Nat.add]. split; [reflexivity|].
  rewrite (fold_sum (fun x => x)). rewrite map_id. reflexivity.
Qed.

(** C101: it is not true that the combinations of the step-wise environment are the results worked out: all offered actions of all states that
    are not done have been taken, one in all, and four combinations are printed. *)
Theorem C101_single_refuted : exists e : @env nat,
  plays 0 [1] 3 (fun _ _ => 5) (fun _ _ => mkVerdict 0 true false false) (fun l => l) (init_env 0) e /\
  map (fun s => is_done [1] s) (st_list e) = [Ok false; Ok true] /\
  map (map (fun x => match x with Some _ => true | None => false end)) (st_cache e) = [[false; false; true]; [false]] /\
  single_states (st_cache e) = 4.
Proof.
  eexists. split.
  - eapply plays_more; [apply play_reset|]. eapply plays_more; [|apply plays_none].
    eapply (play_step _ _ _ _ _ _ _ [0%Z] 2); [vm_compute; reflexivity|vm_compute; lia|vm_compute; reflexivity].
  - vm_compute. repeat split.
Qed.

(** three candidates with two, three and one edge: in time there are 2 + 2 * 3 + 3 * 1 scores; with the time up at the sixth look, 2 + 2 * 3 *)
Example C101_case :
  let set n := fst (l_set (fun k => (S k, Nat.leb n k)) (fun _ => 0) (fun w : nat => w) (fun _ _ _ => 0) (fun _ _ _ _ => 0) (fun (_ : unit) c => ([2; 3; 1], c))
    false None None tt 0) in
  hmm_states 3 (h_trans (set 100)) = Ok 11 /\ hmm_states 3 (h_trans (set 5)) = Ok 8 /\ length (h_trans (set 5)) = 2 /\ count_edges (fun w => w) [2; 3; 1] = 6.
Proof. vm_compute. repeat split. Qed.

Print Assumptions C101_edges.
Print Assumptions C101_hmm.
Print Assumptions C101_single.
Print Assumptions C101_sums.
Print Assumptions C101_single_refuted.
