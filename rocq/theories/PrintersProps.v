(** C75: what is printed about results, see Printers.v. *)
From Coq Require Import QArith Qminmax String Ascii Lia Lqa Permutation.
From Verif Require Import Base ListAux Compare Printers CompareProps.
Local Open Scope nat_scope.

(** **** What the statements need. *)
Fixpoint qsum (l : list Q) : Q := match l with [] => 0%Q | x :: r => (x + qsum r)%Q end.
Fixpoint nsum (l : list nat) : nat := match l with [] => 0 | x :: r => x + nsum r end.
(** the mean of some amounts: infinite if one of them is *)
Definition mean_of (l : list fraction) (m : fraction) : Prop :=
  (In Inf l -> m = Inf) /\ (forall qs, l = map Fin qs -> exists q, m = Fin q /\ (q * inject_Z (Z.of_nat (length l)) == qsum qs)%Q).
Definition feq (a b : fraction) : Prop := match a, b with Fin x, Fin y => (x == y)%Q | Inf, Inf => True | _, _ => False end.
(** the lines of a text *)
Fixpoint lines_from (acc s : string) : list string :=
  match s with
  | EmptyString => [acc]
  | String c r => if Ascii.eqb c "010" then acc :: lines_from "" r else lines_from (acc ++ String c "") r
  end.
Definition lines (s : string) : list string := lines_from "" s.
Fixpoint one_line (s : string) : Prop := match s with EmptyString => True | String c r => c <> "010"%char /\ one_line r end.

(** **** Lists of tasks. *)
Section Printer.
  Context {T S L E : Type}.
  Variable text : T -> string.
  Variable add : S -> T -> S.
  Variable line : S -> T -> L.
  Variable counter : S -> nat.
  Variable total : S -> E.
  Notation report := (report (L:=L) (E:=E) text add line counter total).

  Lemma execute_all_lines f s l : console f = false -> verbose f = true ->
    exists ls, execute_all (E:=E) text add line f s l = (fold_left add l s, map Line ls) /\ length ls = length l
      /\ forall i t, nth_error l i = Some t -> nth_error ls i = Some (line (fold_left add (firstn (Datatypes.S i) l) s) t).
  Proof.
    intros C V. revert s. induction l as [|t l IH]; intros s.
    - exists []. split; [reflexivity|]. split; [reflexivity|]. intros [|i] t H; discriminate H.
    - cbn [execute_all]. unfold execute, active. rewrite C, V. cbn [orb]. destruct (IH (add s t)) as (ls & -> & Hl & Hn).
      exists (line (add s t) t :: ls). split; [reflexivity|]. split; [cbn; lia|]. intros [|i] u H.
      + injection H as <-. reflexivity.
      + cbn [nth_error] in *. rewrite (Hn i u H). reflexivity.
  Qed.
  Lemma execute_all_console f s l : console f = true ->
    execute_all (L:=L) (E:=E) text add line f s l = (s, map Text (filter (fun x => negb (x =? "")%string) (map text l))).
  Proof.
    intros C. induction l as [|t l IH]; [reflexivity|]. cbn [execute_all map filter]. unfold execute, print_text, active. rewrite C. cbn [orb andb].
    rewrite IH. destruct (text t =? "")%string; reflexivity.
  Qed.
  Lemma report_lines f s l : console f = false -> verbose f = true -> 0 < counter (fold_left add l s) ->
    exists ls, report f s l = map Line ls ++ [Total (total (fold_left add l s))] /\ length ls = length l
      /\ forall i t, nth_error l i = Some t -> nth_error ls i = Some (line (fold_left add (firstn (Datatypes.S i) l) s) t).
  Proof.
    intros C V N. destruct (execute_all_lines f s l C V) as (ls & E1 & H). exists ls. split; [|exact H]. unfold Printers.report. rewrite E1.
    unfold finish, active. rewrite C, V. cbn [orb]. rewrite (proj2 (Nat.ltb_lt _ _) N). reflexivity.
  Qed.
  Lemma report_console f s l : console f = true -> counter s = 0 ->
    report f s l = map Text (filter (fun x => negb (x =? "")%string) (map text l)).
  Proof.
    intros C N. unfold Printers.report. rewrite execute_all_console by exact C. unfold finish, active. rewrite C, N. cbn. apply app_nil_r.
  Qed.
  Lemma report_silent f s l : console f = false -> verbose f = false -> report f s l = [].
  Proof.
    intros C V. unfold Printers.report. assert (H : execute_all (L:=L) (E:=E) text add line f s l = (s, [])).
    { induction l as [|t l IH]; [reflexivity|]. cbn [execute_all]. unfold execute, active. rewrite C, V. cbn [orb]. rewrite IH. reflexivity. }
    rewrite H. unfold finish, active. rewrite C, V. reflexivity.
  Qed.
  Lemma report_nothing f s : counter s = 0 -> report f s [] = [].
  Proof. intros N. cbn. unfold finish. rewrite N. destruct (active f); reflexivity. Qed.
End Printer.

(** **** Sums. *)
Lemma fold_count {T S} (add : S -> T -> S) (c : S -> nat) l s : (forall s t, c (add s t) = Datatypes.S (c s)) -> c (fold_left add l s) = c s + length l.
Proof. intros H. revert s. induction l as [|t l IH]; intros s; cbn; [lia|]. rewrite IH, H. lia. Qed.
Lemma fold_nsum {T S} (add : S -> T -> S) (c : S -> nat) g l s : (forall s t, c (add s t) = c s + g t) ->
  c (fold_left add l s) = c s + nsum (map g l).
Proof. intros H. revert s. induction l as [|t l IH]; intros s; cbn; [lia|]. rewrite IH, H. lia. Qed.
Lemma fold_qsum {T S} (add : S -> T -> S) (c : S -> Q) g l s : (forall s t, c (add s t) = (c s + g t)%Q) ->
  (c (fold_left add l s) == c s + qsum (map g l))%Q.
Proof. intros H. revert s. induction l as [|t l IH]; intros s; cbn; [ring|]. rewrite IH, H. ring. Qed.
Lemma fold_fsum {T S} (add : S -> T -> S) (c : S -> fraction) g l s : (forall s t, c (add s t) = fadd (c s) (g t)) ->
  match c s with Inf => c (fold_left add l s) = Inf | Fin q =>
    (In Inf (map g l) -> c (fold_left add l s) = Inf)
    /\ (forall qs, map g l = map Fin qs -> exists r, c (fold_left add l s) = Fin r /\ (r == q + qsum qs)%Q) end.
Proof.
  intros H. revert s. induction l as [|t l IH]; intros s; cbn.
  - destruct (c s) as [q|] eqn:E; [|reflexivity]. split; [tauto|]. intros [|x qs] X; [|discriminate X]. exists q. split; [reflexivity|]. cbn. ring.
  - specialize (IH (add s t)). rewrite H in IH. destruct (c s) as [q|] eqn:E; cbn [fadd] in IH; [|exact IH]. destruct (g t) as [x|] eqn:G.
    + destruct IH as [I1 I2]. split.
      * intros [D|D]; [discriminate D|apply I1, D].
      * intros [|y qs] X; [discriminate X|]. cbn in X. injection X as -> X. destruct (I2 qs X) as (r & R & Rq). exists r. split; [exact R|].
        rewrite Rq. cbn. ring.
    + split; [intros _; exact IH|]. intros [|y qs] X; discriminate X.
Qed.
Lemma mean_spec {T S} (add : S -> T -> S) (c : S -> fraction) g l s : (forall s t, c (add s t) = fadd (c s) (g t)) -> c s = Fin 0 -> l <> [] ->
  mean_of (map g l) (fdiv (c (fold_left add l s)) (length l)).
Proof.
  intros H Z N. pose proof (fold_fsum add c g l s H) as F. rewrite Z in F. destruct F as [F1 F2]. split.
  - intros I. rewrite (F1 I). reflexivity.
  - intros qs Q. destruct (F2 qs Q) as (r & -> & R). cbn. eexists. split; [reflexivity|]. rewrite map_length, R.
    assert (0 < inject_Z (Z.of_nat (length l)))%Q. { change 0%Q with (inject_Z 0). rewrite <- Zlt_Qlt. destruct l; [congruence|cbn; lia]. }
    field. intros X. lra.
Qed.

(** **** Comparisons. *)
Section Compares.
  Context {Sg : Type}.
  Variable wkt : Sg -> string.
  Notation result := (@cresult Sg).
  Notation cmp := (@r_comparison Sg).
  Definition counts : flags := mkFlags false true.

  (** The lengths of the results, 0 where there is none. *)
  Definition len_or_0 (l : option Q) : Q := match l with Some q => q | None => 0%Q end.
  Definition sum_of (l : list result) (g : result -> Q) : Q := qsum (map g l).

  (** C75: without a console, the verbose output is a line per result, numbered from 1 in the order of the results, then one line with the
      number of results, the sums and the means; an infinite fraction makes its mean infinite. *)
  Theorem C75_compares l : l <> [] ->
    exists ls t, compare_report wkt counts l = map Line ls ++ [Total t]
      /\ length ls = length l
      /\ (forall i r, nth_error l i = Some r -> exists ln, nth_error ls i = Some ln /\ l_number ln = i + 1 /\ l_id ln = r_id r
            /\ l_duration ln = r_duration r /\ l_truth_points ln = r_truth_points r /\ l_match_points ln = r_match_points r
            /\ l_correct_fraction ln = correct_fraction (cmp r) /\ l_error_fraction ln = error_fraction (cmp r)
            /\ l_correct ln = correct (cmp r) /\ l_added ln = error_added (cmp r) /\ l_missed ln = error_missed (cmp r))
      /\ t_count t = length l
      /\ (t_duration t == sum_of l r_duration)%Q
      /\ t_truth_points t = nsum (map r_truth_points l) /\ t_match_points t = nsum (map r_match_points l)
      /\ (t_truth_length t == sum_of l (fun r => len_or_0 (r_truth_length r)))%Q
      /\ (t_match_length t == sum_of l (fun r => len_or_0 (r_match_length r)))%Q
      /\ (t_correct t == sum_of l (fun r => correct (cmp r)))%Q
      /\ (t_added t == sum_of l (fun r => error_added (cmp r)))%Q
      /\ (t_missed t == sum_of l (fun r => error_missed (cmp r)))%Q
      /\ mean_of (map (fun r => correct_fraction (cmp r)) l) (t_mean_correct t)
      /\ mean_of (map (fun r => error_fraction (cmp r)) l) (t_mean_error t).
  Proof.
    intros N. unfold compare_report. set (ts := map (parse_compare wkt counts) l).
    assert (C : forall k s, s_count (fold_left add_compare k s) = s_count s + length k) by (intros; apply fold_count; reflexivity).
    destruct (report_lines compare_text add_compare compare_line s_count compare_total counts csums0 ts eq_refl eq_refl) as (ls & E & Hl & Hn).
    { rewrite C. unfold ts. rewrite map_length. destruct l; [congruence|cbn; lia]. }
    exists ls. eexists. split; [exact E|]. split; [rewrite Hl; apply map_length|]. split.
    { intros i r Hi. assert (Ht : nth_error ts i = Some (parse_compare wkt counts r)) by (unfold ts; apply map_nth_error, Hi).
      eexists. split; [apply (Hn i _ Ht)|]. unfold compare_line. cbn [l_number]. split; [|repeat split].
      rewrite C, firstn_length_le by (apply nth_error_Some; congruence). cbn. lia. }
    assert (G : forall c g, (forall s t, c (add_compare s t) = (c s + g t)%Q) -> c csums0 = 0%Q ->
      (c (fold_left add_compare ts csums0) == sum_of l (fun r => g (parse_compare wkt counts r)))%Q).
    { intros c g H Z. rewrite (fold_qsum add_compare c g ts csums0 H), Z. unfold sum_of, ts. rewrite map_map. ring. }
    assert (G' : forall c g, (forall s t, c (add_compare s t) = c s + g t) -> c csums0 = 0 ->
      c (fold_left add_compare ts csums0) = nsum (map (fun r => g (parse_compare wkt counts r)) l)).
    { intros c g H Z. rewrite (fold_nsum add_compare c g ts csums0 H), Z. unfold ts. rewrite map_map. reflexivity. }
    assert (Nt : ts <> []) by (unfold ts; destruct l; [congruence|discriminate]).
    assert (Hc : s_count (fold_left add_compare ts csums0) = length ts) by (rewrite C; reflexivity).
    unfold compare_total. cbn [t_count t_duration t_truth_points t_match_points t_truth_length t_match_length t_correct t_added t_missed t_mean_correct t_mean_error].
    split; [rewrite Hc; apply map_length|].
    split; [apply (G s_duration c_duration); reflexivity|]. split; [apply (G' s_truth_points c_truth_points); reflexivity|].
    split; [apply (G' s_match_points c_match_points); reflexivity|]. split; [apply (G s_truth_length c_truth_length); reflexivity|].
    split; [apply (G s_match_length c_match_length); reflexivity|]. split; [apply (G s_correct c_correct); reflexivity|].
    split; [apply (G s_added c_added); reflexivity|]. split; [apply (G s_missed c_missed); reflexivity|]. rewrite Hc. split.
    - pose proof (mean_spec add_compare s_correct_fraction c_correct_fraction ts csums0 (fun _ _ => eq_refl) eq_refl Nt) as M.
      unfold ts in M at 1. rewrite map_map in M. exact M.
    - pose proof (mean_spec add_compare s_error_fraction c_error_fraction ts csums0 (fun _ _ => eq_refl) eq_refl Nt) as M.
      unfold ts in M at 1. rewrite map_map in M. exact M.
  Qed.

  (** C75: the weighted values of the last line, from the sums in it.  The error is 0 without errors, else added plus missed length over the
      length of the ground truths, infinite if that is 0; the correct fraction is 1 without errors and is always between 0 and 1. *)
  Lemma total_weighted l t ls : compare_report wkt counts l = map Line ls ++ [Total t] ->
    t = compare_total (fold_left add_compare (map (parse_compare wkt counts) l) csums0).
  Proof.
    unfold compare_report. intros E. destruct l as [|r l].
    - cbn in E. destruct ls; discriminate E.
    - set (k := map (parse_compare wkt counts) (r :: l)) in *.
      destruct (report_lines compare_text add_compare compare_line s_count compare_total counts csums0 k eq_refl eq_refl) as (ls' & E' & _).
      { rewrite (fold_count add_compare s_count k csums0 (fun _ _ => eq_refl)). cbn. lia. }
      rewrite E' in E. apply app_inj_tail in E. destruct E as [_ E]. injection E as <-. reflexivity.
  Qed.
  Theorem C75_weighted l ls t : compare_report wkt counts l = map Line ls ++ [Total t] ->
    ((t_added t == 0 /\ t_missed t == 0)%Q -> t_weighted_error t = Fin 0 /\ t_weighted_correct t = 1%Q)
    /\ (~ (t_added t == 0 /\ t_missed t == 0)%Q -> (0 < t_truth_length t)%Q ->
          exists e, t_weighted_error t = Fin e /\ (e * t_truth_length t == t_added t + t_missed t)%Q)
    /\ (~ (t_added t == 0 /\ t_missed t == 0)%Q -> (t_truth_length t <= 0)%Q -> t_weighted_error t = Inf)
    /\ (0 <= t_weighted_correct t <= 1)%Q
    /\ ((0 < t_truth_length t)%Q -> (0 < t_match_length t)%Q -> (0 <= t_correct t)%Q -> (0 < t_added t + t_missed t)%Q ->
          forall m, m = t_truth_length t \/ m = t_match_length t -> (t_truth_length t <= m /\ t_match_length t <= m)%Q ->
          (t_correct t <= m -> t_weighted_correct t * m == t_correct t)%Q /\ (m <= t_correct t -> t_weighted_correct t == 1)%Q)
    /\ ((0 < t_truth_length t)%Q -> (t_match_length t == 0)%Q -> (0 < t_added t + t_missed t)%Q -> (t_weighted_correct t == 0)%Q)
    /\ ((t_truth_length t == 0)%Q -> (0 < t_match_length t)%Q -> (0 < t_added t + t_missed t)%Q -> (t_weighted_correct t == 0)%Q).
  Proof.
    intros E. rewrite (total_weighted l t ls E). generalize (fold_left add_compare (map (parse_compare wkt counts) l) csums0). clear. intros s.
    unfold compare_total. cbn [t_added t_missed t_truth_length t_match_length t_correct t_weighted_error t_weighted_correct].
    assert (Z : forall q, Qle_bool q 0 = false <-> (0 < q)%Q).
    { intros q. destruct (Qle_bool q 0) eqn:B; split; intros H; try reflexivity; try discriminate H.
      - apply Qle_bool_iff in B. lra.
      - assert (~ (q <= 0)%Q) by (intros X; apply Qle_bool_iff in X; congruence). lra. }
    assert (NE : ~ (s_added s == 0 /\ s_missed s == 0)%Q -> negb (Qeq_bool (s_added s) 0) || negb (Qeq_bool (s_missed s) 0) = true).
    { intros H. destruct (Qeq_bool (s_added s) 0) eqn:A; [|reflexivity]. destruct (Qeq_bool (s_missed s) 0) eqn:B; [|reflexivity].
      apply Qeq_bool_iff in A, B. tauto. }
    assert (P : (0 < s_added s + s_missed s)%Q -> ~ (s_added s == 0 /\ s_missed s == 0)%Q) by (intros H [A B]; lra).
    assert (NZ : (0 < s_added s + s_missed s)%Q -> is_zero (weighted_error s) = false).
    { intros H. unfold weighted_error. rewrite (NE (P H)). destruct (Qle_bool (s_truth_length s) 0) eqn:B; [reflexivity|]. cbn [negb is_zero].
      apply Z in B. destruct (Qeq_bool ((s_added s + s_missed s) / s_truth_length s) 0) eqn:Q; [|reflexivity]. apply Qeq_bool_iff in Q.
      assert (0 < (s_added s + s_missed s) / s_truth_length s)%Q by (apply Qlt_shift_div_l; lra). lra. }
    split; [|split; [|split; [|split; [|split; [|split]]]]].
    - intros [A B]. assert (W : weighted_error s = Fin 0).
      { unfold weighted_error. apply Qeq_bool_iff in A, B. rewrite A, B. reflexivity. }
      split; [exact W|]. unfold weighted_correct. rewrite W. reflexivity.
    - intros H L. unfold weighted_error. rewrite (NE H). apply Z in L. rewrite L. cbn [negb]. eexists. split; [reflexivity|]. field. apply Z in L. lra.
    - intros H L. unfold weighted_error. rewrite (NE H). apply Qle_bool_iff in L. rewrite L. reflexivity.
    - unfold weighted_correct. destruct (is_zero _); [lra|]. apply min_max_range.
    - intros T M C Pos m Hm [Le1 Le2]. unfold weighted_correct. rewrite (NZ Pos), (proj2 (Z _) T), (proj2 (Z _) M). cbn [negb andb].
      assert (Mx : (max_q (s_match_length s) (s_truth_length s) == m)%Q).
      { unfold max_q. destruct (Qle_bool (s_truth_length s) (s_match_length s)) eqn:B.
        - apply Qle_bool_iff in B. destruct Hm; subst; lra.
        - assert (~ (s_truth_length s <= s_match_length s)%Q) by (intros X; apply Qle_bool_iff in X; congruence). destruct Hm; subst; lra. }
      set (mx := max_q _ _) in *. assert (Pm : (0 < mx)%Q) by lra. set (c := s_correct s) in *. clearbody c mx.
      assert (F0 : (0 <= c / mx)%Q) by (apply Qle_shift_div_l; lra). assert (D : (c / mx * mx == c)%Q) by (field; lra).
      assert (Mx0 : (max_q 0 (c / mx) == c / mx)%Q) by (unfold max_q; destruct (Qle_bool (c / mx) 0) eqn:Q; [apply Qle_bool_iff in Q; lra|reflexivity]).
      split; intros Hc.
      + assert (Q1 : (c / mx <= 1)%Q) by (apply Qle_shift_div_r; lra).
        assert (R : (min_q 1 (max_q 0 (c / mx)) == c / mx)%Q).
        { unfold min_q. destruct (Qle_bool 1 _) eqn:Q; [apply Qle_bool_iff in Q; lra|exact Mx0]. }
        rewrite R, <- Mx. exact D.
      + assert (Q1 : (1 <= c / mx)%Q) by (apply Qle_shift_div_l; lra).
        unfold min_q. destruct (Qle_bool 1 _) eqn:Q; [reflexivity|]. assert (X : (1 <= max_q 0 (c / mx))%Q) by lra. apply Qle_bool_iff in X. congruence.
    - intros T M Pos. unfold weighted_correct. rewrite (NZ Pos), (proj2 (Z _) T).
      assert (Qle_bool (s_match_length s) 0 = true) as -> by (apply Qle_bool_iff; lra). cbn [negb andb].
      assert (Qeq_bool (s_truth_length s) 0 = false) as -> by (destruct (Qeq_bool (s_truth_length s) 0) eqn:Q; [apply Qeq_bool_iff in Q; lra|reflexivity]).
      cbn [andb]. vm_compute. reflexivity.
    - intros T M Pos. unfold weighted_correct. rewrite (NZ Pos).
      assert (Qle_bool (s_truth_length s) 0 = true) as -> by (apply Qle_bool_iff; lra). cbn [negb andb].
      assert (Qeq_bool (s_match_length s) 0 = false) as -> by (destruct (Qeq_bool (s_match_length s) 0) eqn:Q; [apply Qeq_bool_iff in Q; lra|reflexivity]).
      rewrite andb_false_r. vm_compute. reflexivity.
  Qed.

  (** C75: the weighted error is a weighted mean of the error fractions of the results, with the lengths of the ground truths as weights: it
      lies between the smallest and the largest of them. *)
  Lemma qsum_le {A} (f g : A -> Q) l : Forall (fun x => f x <= g x)%Q l -> (qsum (map f l) <= qsum (map g l))%Q.
  Proof. induction 1; cbn; lra. Qed.
  Lemma qsum_mul {A} (f : A -> Q) c l : (qsum (map (fun x => c * f x) l) == c * qsum (map f l))%Q.
  Proof. induction l as [|x l IH]; cbn; [ring|]. rewrite IH. ring. Qed.
  Lemma qsum_plus {A} (f g : A -> Q) l : (qsum (map (fun x => f x + g x) l) == qsum (map f l) + qsum (map g l))%Q.
  Proof. induction l as [|x l IH]; cbn; [ring|]. rewrite IH. ring. Qed.
  Lemma qsum_eq {A} (f g : A -> Q) l : Forall (fun x => f x == g x)%Q l -> (qsum (map f l) == qsum (map g l))%Q.
  Proof. induction 1; cbn; lra. Qed.
  Lemma qsum_pos {A} (f : A -> Q) l : l <> [] -> Forall (fun x => 0 < f x)%Q l -> (0 < qsum (map f l))%Q.
  Proof.
    intros N F. destruct F as [|x l H F]; [congruence|]. cbn. assert (0 <= qsum (map f l))%Q by (clear N H; induction F; cbn; lra). lra.
  Qed.
  Definition truth_of (r : result) : Q := len_or_0 (r_truth_length r).
  Definition match_of (r : result) : Q := len_or_0 (r_match_length r).
  Theorem C75_weighted_error_mean l (e : result -> Q) : l <> [] ->
    Forall (fun r => (0 < truth_of r)%Q /\ error_fraction (cmp r) = Fin (e r)
      /\ (e r * truth_of r == error_added (cmp r) + error_missed (cmp r))%Q /\ (0 <= error_added (cmp r) /\ 0 <= error_missed (cmp r))%Q) l ->
    exists ls t w, compare_report wkt counts l = map Line ls ++ [Total t] /\ t_weighted_error t = Fin w
      /\ (w * sum_of l truth_of == sum_of l (fun r => e r * truth_of r))%Q
      /\ forall lo hi, Forall (fun r => lo <= e r <= hi)%Q l -> (lo <= w <= hi)%Q.
  Proof.
    intros N F. destruct (C75_compares l N) as (ls & t & E & _ & _ & _ & _ & _ & _ & Lt & _ & _ & A & M & _).
    destruct (C75_weighted l ls t E) as (W0 & W1 & _).
    change (sum_of l (fun r => len_or_0 (r_truth_length r))) with (sum_of l truth_of) in Lt.
    assert (Pos : (0 < sum_of l truth_of)%Q) by (apply qsum_pos; [exact N|]; eapply Forall_impl; [|exact F]; cbn; tauto).
    assert (Sum : (sum_of l (fun r => e r * truth_of r) == t_added t + t_missed t)%Q).
    { rewrite A, M. unfold sum_of. rewrite <- qsum_plus. apply qsum_eq. eapply Forall_impl; [|exact F]. cbn. tauto. }
    assert (G : exists w, t_weighted_error t = Fin w /\ (w * sum_of l truth_of == t_added t + t_missed t)%Q).
    { destruct (Qeq_dec (t_added t) 0) as [Za|Za]; [destruct (Qeq_dec (t_missed t) 0) as [Zm|Zm]|].
      - exists 0%Q. destruct (W0 (conj Za Zm)) as [-> _]. split; [reflexivity|]. rewrite Za, Zm. ring.
      - destruct W1 as (w & -> & Hw); [tauto|lra|]. exists w. rewrite <- Lt. auto.
      - destruct W1 as (w & -> & Hw); [tauto|lra|]. exists w. rewrite <- Lt. auto. }
    destruct G as (w & Hw & Ew). exists ls, t, w. split; [exact E|]. split; [exact Hw|]. split; [rewrite Sum; exact Ew|].
    intros lo hi B. rewrite <- Sum in Ew.
    assert (B1 : (lo * sum_of l truth_of <= sum_of l (fun r => e r * truth_of r))%Q).
    { unfold sum_of. rewrite <- qsum_mul. apply qsum_le. rewrite Forall_forall in *. intros r Hr. specialize (F r Hr). specialize (B r Hr). cbn in *.
      apply Qmult_le_compat_r; [tauto|lra]. }
    assert (B2 : (sum_of l (fun r => e r * truth_of r) <= hi * sum_of l truth_of)%Q).
    { unfold sum_of. rewrite <- qsum_mul. apply qsum_le. rewrite Forall_forall in *. intros r Hr. specialize (F r Hr). specialize (B r Hr). cbn in *.
      apply Qmult_le_compat_r; [tauto|lra]. }
    rewrite <- Ew in B1, B2. split; [apply (Qmult_le_r _ _ _ Pos), B1|apply (Qmult_le_r _ _ _ Pos), B2].
  Qed.

  (** C75: the weighted correct fraction is not smaller than the mean of the correct fractions weighted with the longer of both lengths, so
      not smaller than the smallest of them. *)
  Definition longer (r : result) : Q := Qmax (truth_of r) (match_of r).
  Theorem C75_weighted_correct_bound l (f : result -> Q) : l <> [] ->
    Forall (fun r => (0 < truth_of r /\ 0 < match_of r)%Q /\ correct_fraction (cmp r) = Fin (f r) /\ (0 <= f r <= 1)%Q
      /\ (f r * longer r <= correct (cmp r))%Q /\ (0 <= error_added (cmp r) /\ 0 <= error_missed (cmp r))%Q) l ->
    exists ls t, compare_report wkt counts l = map Line ls ++ [Total t]
      /\ (sum_of l (fun r => f r * longer r) <= t_weighted_correct t * sum_of l longer)%Q
      /\ forall lo, Forall (fun r => lo <= f r)%Q l -> (lo <= t_weighted_correct t)%Q.
  Proof.
    intros N F. destruct (C75_compares l N) as (ls & t & E & _ & _ & _ & _ & _ & _ & Lt & Lm & C & A & M & _).
    destruct (C75_weighted l ls t E) as (W0 & _ & _ & _ & W4 & _). exists ls, t. split; [exact E|].
    change (sum_of l (fun r => len_or_0 (r_truth_length r))) with (sum_of l truth_of) in Lt.
    change (sum_of l (fun r => len_or_0 (r_match_length r))) with (sum_of l match_of) in Lm.
    assert (Pt : (0 < sum_of l truth_of)%Q) by (apply qsum_pos; [exact N|]; eapply Forall_impl; [|exact F]; cbn; tauto).
    assert (Pm : (0 < sum_of l match_of)%Q) by (apply qsum_pos; [exact N|]; eapply Forall_impl; [|exact F]; cbn; tauto).
    assert (L1 : (sum_of l truth_of <= sum_of l longer)%Q) by (apply qsum_le, Forall_forall; intros; apply Q.le_max_l).
    assert (L2 : (sum_of l match_of <= sum_of l longer)%Q) by (apply qsum_le, Forall_forall; intros; apply Q.le_max_r).
    assert (Lp : Forall (fun r => 0 < longer r)%Q l).
    { eapply Forall_impl; [|exact F]. cbn. intros r Hr. pose proof (Q.le_max_l (truth_of r) (match_of r)). unfold longer. lra. }
    assert (Sc : (sum_of l (fun r => f r * longer r) <= t_correct t)%Q).
    { rewrite C. apply qsum_le. eapply Forall_impl; [|exact F]. cbn. tauto. }
    assert (S1 : (sum_of l (fun r => f r * longer r) <= sum_of l longer)%Q).
    { apply qsum_le. rewrite Forall_forall in *. intros r Hr. specialize (F r Hr). specialize (Lp r Hr). cbn in *.
      rewrite <- (Qmult_1_l (longer r)) at 2. apply Qmult_le_compat_r; [tauto|lra]. }
    assert (S0 : (0 <= sum_of l (fun r => f r * longer r))%Q).
    { assert (Z : (sum_of l (fun _ => 0) == 0)%Q) by (clear; unfold sum_of; induction l; cbn; lra). rewrite <- Z. apply qsum_le.
      rewrite Forall_forall in *. intros r Hr. specialize (F r Hr). specialize (Lp r Hr). cbn in *. apply Qmult_le_0_compat; [tauto|lra]. }
    assert (Na : (0 <= t_added t /\ 0 <= t_missed t)%Q).
    { assert (Z : (sum_of l (fun _ => 0) == 0)%Q) by (clear; unfold sum_of; induction l; cbn; lra).
      rewrite A, M, <- Z. split; apply qsum_le; (eapply Forall_impl; [|exact F]); cbn; tauto. }
    assert (G : (sum_of l (fun r => f r * longer r) <= t_weighted_correct t * sum_of l longer)%Q).
    { destruct (Qlt_le_dec 0 (t_added t + t_missed t)) as [P|P].
      - assert (X : exists m, (m = t_truth_length t \/ m = t_match_length t) /\ (t_truth_length t <= m /\ t_match_length t <= m)%Q).
        { destruct (Qlt_le_dec (t_truth_length t) (t_match_length t)); [exists (t_match_length t)|exists (t_truth_length t)]; split; auto; split; lra. }
        destruct X as (m & Hm & Hle). destruct (W4 ltac:(lra) ltac:(lra) ltac:(lra) P m Hm Hle) as [Wa Wb].
        assert (Lem : (m <= sum_of l longer)%Q) by (destruct Hm as [-> | ->]; lra).
        destruct (Qlt_le_dec (t_correct t) m) as [Hc|Hc].
        + specialize (Wa (Qlt_le_weak _ _ Hc)). assert (W0' : (0 <= t_weighted_correct t)%Q) by (destruct (C75_weighted l ls t E) as (_ & _ & _ & R & _); lra).
          assert (t_weighted_correct t * m <= t_weighted_correct t * sum_of l longer)%Q.
          { rewrite !(Qmult_comm (t_weighted_correct t)). apply Qmult_le_compat_r; assumption. }
          lra.
        + rewrite (Wb Hc). lra.
      - destruct W0 as [_ W0]; [split; lra|]. rewrite W0. lra. }
    split; [exact G|]. intros lo B.
    assert (B1 : (lo * sum_of l longer <= sum_of l (fun r => f r * longer r))%Q).
    { unfold sum_of. rewrite <- qsum_mul. apply qsum_le. rewrite Forall_forall in *. intros r Hr. specialize (Lp r Hr). specialize (B r Hr). cbn in *.
      apply Qmult_le_compat_r; lra. }
    assert (Pl : (0 < sum_of l longer)%Q) by lra. apply (Qmult_le_r _ _ _ Pl). lra.
  Qed.

  (** C75: the last line does not depend on the order in which the comparisons are finished. *)
  Definition same_total (t u : ctotal) : Prop :=
    t_count t = t_count u /\ (t_duration t == t_duration u)%Q /\ t_truth_points t = t_truth_points u /\ t_match_points t = t_match_points u
    /\ (t_truth_length t == t_truth_length u)%Q /\ (t_match_length t == t_match_length u)%Q /\ feq (t_mean_correct t) (t_mean_correct u)
    /\ (t_weighted_correct t == t_weighted_correct u)%Q /\ feq (t_mean_error t) (t_mean_error u) /\ feq (t_weighted_error t) (t_weighted_error u)
    /\ (t_correct t == t_correct u)%Q /\ (t_added t == t_added u)%Q /\ (t_missed t == t_missed u)%Q.
  Definition same_sums (s u : csums) : Prop :=
    s_count s = s_count u /\ (s_duration s == s_duration u)%Q /\ s_truth_points s = s_truth_points u /\ s_match_points s = s_match_points u
    /\ (s_match_length s == s_match_length u)%Q /\ (s_truth_length s == s_truth_length u)%Q /\ feq (s_correct_fraction s) (s_correct_fraction u)
    /\ feq (s_error_fraction s) (s_error_fraction u) /\ (s_correct s == s_correct u)%Q /\ (s_added s == s_added u)%Q /\ (s_missed s == s_missed u)%Q.
  Lemma feq_refl a : feq a a.
  Proof. destruct a; cbn; [reflexivity|exact I]. Qed.
  Lemma feq_trans a b c : feq a b -> feq b c -> feq a c.
  Proof. destruct a, b, c; cbn; try tauto. intros. lra. Qed.
  Lemma feq_fadd a b c d : feq a b -> feq c d -> feq (fadd a c) (fadd b d).
  Proof. destruct a, b, c, d; cbn; try tauto. intros. lra. Qed.
  Lemma feq_swap a b c : feq (fadd (fadd a b) c) (fadd (fadd a c) b).
  Proof. destruct a, b, c; cbn; try tauto. ring. Qed.
  Lemma feq_fdiv a b n : feq a b -> feq (fdiv a n) (fdiv b n).
  Proof. destruct a, b; cbn; try tauto. intros ->. reflexivity. Qed.
  Lemma same_refl s : same_sums s s.
  Proof. unfold same_sums. repeat split; try apply feq_refl; reflexivity. Qed.
  Lemma same_trans a b c : same_sums a b -> same_sums b c -> same_sums a c.
  Proof.
    unfold same_sums. intros A B. repeat match goal with H : _ /\ _ |- _ => destruct H end. repeat split; try congruence; try (eapply feq_trans; eassumption); try lra.
  Qed.
  Lemma same_add s u t : same_sums s u -> same_sums (add_compare s t) (add_compare u t).
  Proof.
    unfold same_sums. intros A. repeat match goal with H : _ /\ _ |- _ => destruct H end. cbn. repeat split; try congruence; try (apply feq_fadd; [assumption|apply feq_refl]); try lra.
  Qed.
  Lemma same_swap s t u : same_sums (add_compare (add_compare s t) u) (add_compare (add_compare s u) t).
  Proof. unfold same_sums. cbn. repeat split; try apply feq_swap; try lia; try ring. Qed.
  Lemma same_fold l s u : same_sums s u -> same_sums (fold_left add_compare l s) (fold_left add_compare l u).
  Proof. revert s u. induction l as [|t l IH]; intros s u H; [exact H|]. cbn. apply IH, same_add, H. Qed.
  Lemma same_perm l l' s : Permutation l l' -> same_sums (fold_left add_compare l s) (fold_left add_compare l' s).
  Proof.
    intros P. revert s. induction P as [|t l l' P IH|t u l|l l' l'' P1 IH1 P2 IH2]; intros s; cbn.
    - apply same_refl.
    - apply IH.
    - apply same_fold, same_swap.
    - eapply same_trans; [apply IH1|apply IH2].
  Qed.
  Lemma Qle_bool_comp a b c d : (a == b)%Q -> (c == d)%Q -> Qle_bool a c = Qle_bool b d.
  Proof. intros -> ->. reflexivity. Qed.
  Lemma same_weighted s u : same_sums s u -> feq (weighted_error s) (weighted_error u) /\ (weighted_correct s == weighted_correct u)%Q.
  Proof.
    unfold same_sums. intros (H1 & H2 & H3 & H4 & H5 & H6 & H7 & H8 & H9 & H10 & H11).
    assert (W : feq (weighted_error s) (weighted_error u)).
    { unfold weighted_error. rewrite H6, H10, H11. destruct (negb (Qeq_bool (s_added u) 0) || negb (Qeq_bool (s_missed u) 0)); [|cbn; reflexivity].
      destruct (Qle_bool (s_truth_length u) 0); cbn; [exact I|]. rewrite H6, H10, H11. reflexivity. }
    split; [exact W|]. unfold weighted_correct.
    assert (is_zero (weighted_error s) = is_zero (weighted_error u)) as ->.
    { destruct (weighted_error s), (weighted_error u); cbn in *; try tauto. rewrite W. reflexivity. }
    destruct (is_zero (weighted_error u)); [reflexivity|]. cbv zeta. rewrite (Qle_bool_comp _ _ 0 0 H6), (Qle_bool_comp _ _ 0 0 H5) by reflexivity.
    assert (Qeq_bool (s_truth_length s) 0 = Qeq_bool (s_truth_length u) 0) as -> by (rewrite H6; reflexivity).
    assert (Qeq_bool (s_match_length s) 0 = Qeq_bool (s_match_length u) 0) as -> by (rewrite H5; reflexivity).
    assert (Mm : forall a b c d, (a == b)%Q -> (c == d)%Q -> (max_q a c == max_q b d)%Q /\ (min_q a c == min_q b d)%Q).
    { intros a b c d X Y. unfold max_q, min_q. rewrite (Qle_bool_comp _ _ _ _ Y X), (Qle_bool_comp _ _ _ _ X Y).
      destruct (Qle_bool d b), (Qle_bool b d); auto. }
    destruct (negb (Qle_bool (s_truth_length u) 0) && negb (Qle_bool (s_match_length u) 0)); [|reflexivity].
    apply Mm; [reflexivity|]. apply Mm; [reflexivity|]. rewrite H9. destruct (Mm _ _ _ _ H5 H6) as [-> _]. reflexivity.
  Qed.
  Theorem C75_order l l' : Permutation l l' -> l <> [] ->
    exists ls t ls' t', compare_report wkt counts l = map Line ls ++ [Total t] /\ compare_report wkt counts l' = map Line ls' ++ [Total t']
      /\ same_total t t'.
  Proof.
    intros P N. assert (N' : l' <> []) by (intros ->; apply N, Permutation_nil, Permutation_sym, P).
    destruct (C75_compares l N) as (ls & t & E & _). destruct (C75_compares l' N') as (ls' & t' & E' & _).
    exists ls, t, ls', t'. split; [exact E|]. split; [exact E'|]. rewrite (total_weighted _ _ _ E), (total_weighted _ _ _ E').
    pose proof (same_perm _ _ csums0 (Permutation_map (parse_compare wkt counts) P)) as S. pose proof (same_weighted _ _ S) as [W1 W2].
    destruct S as (H1 & H2 & H3 & H4 & H5 & H6 & H7 & H8 & H9 & H10 & H11).
    unfold same_total, compare_total. cbn. rewrite H1. repeat split; try assumption; apply feq_fdiv; assumption.
  Qed.

  (** C75: nothing is printed if neither a console nor verbose output is wanted; without results nothing is printed at all. *)
  Theorem C75_silent f l : console f = false /\ verbose f = false \/ l = [] ->
    compare_report wkt f l = [] /\ (forall ms, length ms = length l -> match_report f ms = []) /\ (forall ts, length ts = length l -> track_report f ts = []).
  Proof.
    intros [[C V]| ->].
    - unfold compare_report, match_report, track_report. split; [|split]; intros; apply report_silent; assumption.
    - unfold compare_report, match_report, track_report. split; [apply report_nothing; reflexivity|].
      split; intros [|] H; try discriminate H; apply report_nothing; reflexivity.
  Qed.

  (** C75: with a console: a text for every comparison, without a summary.  Its lines are the headings, and every correct and added segment
      on its own line; the first missed segment stands on the line of its heading. *)
  Lemma lines_from_app acc a b : one_line a -> lines_from acc (a ++ b) = lines_from (acc ++ a) b.
  Proof.
    revert acc. induction a as [|c a IH]; intros acc H; cbn.
    - f_equal. induction acc as [|x acc IH]; cbn; [reflexivity|f_equal; exact IH].
    - destruct H as [H1 H2]. destruct (Ascii.eqb_spec c "010") as [->|_]; [congruence|]. rewrite IH by exact H2. f_equal.
      clear. induction acc as [|x acc IH]; cbn; [reflexivity|f_equal; exact IH].
  Qed.
  Lemma lines_nl a b : one_line a -> lines (a ++ String "010" b) = a :: lines b.
  Proof. intros H. unfold lines. rewrite lines_from_app by exact H. reflexivity. Qed.
  Lemma sapp_assoc (a b c : string) : (((a ++ b) ++ c) = (a ++ (b ++ c)))%string.
  Proof. induction a as [|x a IH]; cbn; [reflexivity|]. rewrite IH. reflexivity. Qed.
  Lemma sapp_nil_r (a : string) : (a ++ "" = a)%string.
  Proof. induction a as [|x a IH]; cbn; [reflexivity|]. rewrite IH. reflexivity. Qed.
  Fixpoint joined (l : list Sg) : string := match l with [] => "" | x :: r => (wkt x ++ String "010" (joined r))%string end.
  Lemma texts_joined l : texts wkt l = joined l.
  Proof.
    unfold texts. enough (H : forall a, fold_left (fun s x => (s ++ wkt x ++ String "010"%char "")%string) l a = (a ++ joined l)%string) by apply (H ""%string).
    induction l as [|x l IH]; intros a; cbn; [symmetry; apply sapp_nil_r|]. rewrite IH, !sapp_assoc. reflexivity.
  Qed.
  Lemma lines_joined l b : (forall x, In x l -> one_line (wkt x)) -> lines (joined l ++ b) = map wkt l ++ lines b.
  Proof.
    induction l as [|x l IH]; intros H; [reflexivity|]. cbn [joined map app]. rewrite sapp_assoc. cbn [String.append].
    rewrite lines_nl by (apply H; left; reflexivity). rewrite IH by (intros y Hy; apply H; right; exact Hy). reflexivity.
  Qed.
  Theorem C75_console v l : (forall s, one_line (wkt s)) -> Forall (fun r => one_line (r_id r)) l ->
    exists ts, compare_report wkt (mkFlags true v) l = map Text ts
      /\ Forall2 (fun r s => lines s =
           ["Comparison '" ++ r_id r ++ "':"; "Corrects:"]%string ++ map wkt (corrects (cmp r)) ++ ["Error Adds:"%string] ++ map wkt (error_adds (cmp r))
           ++ match error_misses (cmp r) with
              | [] => ["Error Misses:"; ""]%string
              | m :: r => ["Error Misses:" ++ wkt m]%string ++ map wkt r ++ ["" ; ""]%string
              end) l ts.
  Proof.
    intros Hw Hid. unfold compare_report. rewrite report_console by reflexivity. rewrite map_map.
    set (g := fun r => compare_text (parse_compare wkt (mkFlags true v) r)).
    exists (map g l). split.
    - f_equal. induction l as [|r l IH]; [reflexivity|]. cbn [map filter]. inversion Hid; subst. rewrite IH by assumption. reflexivity.
    - induction Hid as [|r l Hr Hid IH]; [constructor|]. cbn [map]. constructor; [|exact IH]. clear IH Hid l.
      unfold g, compare_text, parse_compare, active. cbn [console orb andb c_id c_corrects c_adds c_misses]. rewrite !texts_joined.
      assert (Hcat : forall a b, one_line a -> one_line b -> one_line (a ++ b)).
      { clear. intros a b. induction a as [|c a IH]; cbn; [auto|]. intros [H1 H2] H3. auto. }
      match goal with |- lines ?X = _ => transitivity (lines
        (("Comparison '" ++ r_id r ++ "':") ++ String "010" ("Corrects:" ++ String "010" (joined (corrects (cmp r)) ++ ("Error Adds:" ++ String "010"
          (joined (error_adds (cmp r)) ++ ("Error Misses:" ++ joined (error_misses (cmp r)) ++ String "010" "")))))))%string end.
      { rewrite !sapp_assoc. reflexivity. }
      rewrite lines_nl by (apply Hcat; [cbn; repeat split; congruence|]; apply Hcat; [exact Hr|]; cbn; repeat split; congruence).
      rewrite lines_nl by (cbn; repeat split; congruence). rewrite lines_joined by auto.
      rewrite lines_nl by (cbn; repeat split; congruence). rewrite lines_joined by auto. cbn [app]. do 3 f_equal. f_equal. f_equal.
      destruct (error_misses (cmp r)) as [|m ms]; cbn [joined].
      + cbn. reflexivity.
      + replace ("Error Misses:" ++ (wkt m ++ String "010" (joined ms)) ++ String "010" "")%string
          with (("Error Misses:" ++ wkt m) ++ String "010" (joined ms ++ String "010" ""))%string by (rewrite !sapp_assoc; reflexivity).
        rewrite lines_nl by (apply Hcat; [cbn; repeat split; congruence|apply Hw]). rewrite lines_joined by auto. reflexivity.
  Qed.
End Compares.

(** **** Matches and tracks. *)
(** C75: the same for matches; the candidates and combinations of a match are summed up over its environments. *)
Theorem C75_matches l : l <> [] ->
  exists ls t, match_report (mkFlags false true) l = map Line ls ++ [Total t]
    /\ length ls = length l
    /\ (forall i r, nth_error l i = Some r -> exists ln, nth_error ls i = Some ln /\ ml_number ln = i + 1 /\ ml_id ln = n_id r
          /\ ml_aborted ln = n_aborted r /\ ml_duration ln = n_duration r /\ ml_track_points ln = n_track_points r
          /\ ml_prepared_points ln = n_prepared_points r /\ ml_candidates ln = nsum (map fst (n_environments r))
          /\ ml_combinations ln = nsum (map snd (n_environments r)))
    /\ u_count t = length l /\ (u_duration t == qsum (map n_duration l))%Q
    /\ u_track_points t = nsum (map n_track_points l) /\ u_prepared_points t = nsum (map n_prepared_points l)
    /\ u_candidates t = nsum (map (fun r => nsum (map fst (n_environments r))) l)
    /\ u_combinations t = nsum (map (fun r => nsum (map snd (n_environments r))) l).
Proof.
  intros N. unfold match_report. set (f := mkFlags false true). set (ts := map (parse_match f) l).
  assert (Env : forall (e : list (nat * nat)) s, fold_left (fun s e => (fst s + fst e, snd s + snd e)) e s = (fst s + nsum (map fst e), snd s + nsum (map snd e))).
  { induction e as [|x e IH]; intros [a b]; cbn; [f_equal; lia|]. rewrite IH. cbn. f_equal; lia. }
  assert (P : forall r, parse_match f r = mkMTask (n_id r) ""%string (n_track_points r) (n_prepared_points r) (nsum (map fst (n_environments r)))
    (nsum (map snd (n_environments r))) (n_aborted r) (n_duration r)) by (intros r; unfold parse_match; rewrite Env; reflexivity).
  assert (C : forall k s, u_count (fold_left add_match k s) = u_count s + length k) by (intros; apply fold_count; reflexivity).
  destruct (report_lines m_text add_match match_line u_count (fun s => s) f msums0 ts eq_refl eq_refl) as (ls & E & Hl & Hn).
  { rewrite C. unfold ts. rewrite map_length. destruct l; [congruence|cbn; lia]. }
  exists ls. eexists. split; [exact E|]. split; [rewrite Hl; apply map_length|]. split.
  { intros i r Hi. assert (Ht : nth_error ts i = Some (parse_match f r)) by (unfold ts; apply map_nth_error, Hi).
    eexists. split; [apply (Hn i _ Ht)|]. unfold match_line. cbn [ml_number ml_id ml_aborted ml_duration ml_track_points ml_prepared_points ml_candidates ml_combinations].
    split; [|rewrite P; repeat split].
    rewrite C, firstn_length_le by (apply nth_error_Some; congruence). cbn. lia. }
  assert (G' : forall c g, (forall s t, c (add_match s t) = c s + g t) -> c msums0 = 0 ->
    c (fold_left add_match ts msums0) = nsum (map (fun r => g (parse_match f r)) l)).
  { intros c g H Z. rewrite (fold_nsum add_match c g ts msums0 H), Z. unfold ts. rewrite map_map. reflexivity. }
  assert (X : forall g h, (forall r, g (parse_match f r) = h r) -> nsum (map (fun r => g (parse_match f r)) l) = nsum (map h l)).
  { intros g h H. f_equal. apply map_ext, H. }
  split; [rewrite C; apply map_length|]. split.
  { rewrite (fold_qsum add_match u_duration m_duration ts msums0 (fun _ _ => eq_refl)). unfold ts. rewrite map_map. cbn.
    rewrite (map_ext _ n_duration); [ring|]. intros r. rewrite P. reflexivity. }
  split; [|split; [|split]].
  - rewrite (G' u_track_points m_track_points); [|reflexivity|reflexivity]. apply X. intros. rewrite P. reflexivity.
  - rewrite (G' u_prepared_points m_prepared_points); [|reflexivity|reflexivity]. apply X. intros. rewrite P. reflexivity.
  - rewrite (G' u_candidates m_edges); [|reflexivity|reflexivity]. apply (X m_edges). intros. rewrite P. reflexivity.
  - rewrite (G' u_combinations m_combinations); [|reflexivity|reflexivity]. apply (X m_combinations). intros. rewrite P. reflexivity.
Qed.
(** C75: and for tracks. *)
Theorem C75_tracks l : l <> [] ->
  exists ls, track_report (mkFlags false true) l = map Line ls ++ [Total (length l, nsum (map tr_points l))]
    /\ length ls = length l /\ forall i r, nth_error l i = Some r -> nth_error ls i = Some (i + 1, tr_id r, tr_points r).
Proof.
  intros N. unfold track_report. set (f := mkFlags false true). set (ts := map (parse_track f) l).
  assert (C : forall k s, fst (fold_left add_track k s) = fst s + length k) by (intros; apply fold_count; reflexivity).
  destruct (report_lines tt_text add_track track_line fst (fun s => s) f (0, 0) ts eq_refl eq_refl) as (ls & E & Hl & Hn).
  { rewrite C. unfold ts. rewrite map_length. destruct l; [congruence|cbn; lia]. }
  exists ls. split; [|split].
  - rewrite E. do 3 f_equal. rewrite (surjective_pairing (fold_left add_track ts (0, 0))). f_equal.
    + rewrite C. unfold ts. rewrite map_length. reflexivity.
    + rewrite (fold_nsum add_track snd tt_points ts (0, 0)) by reflexivity. unfold ts. rewrite map_map. reflexivity.
  - rewrite Hl. apply map_length.
  - intros i r Hi. assert (Ht : nth_error ts i = Some (parse_track f r)) by (unfold ts; apply map_nth_error, Hi).
    rewrite (Hn i _ Ht). unfold track_line. do 3 f_equal. rewrite C, firstn_length_le by (apply nth_error_Some; congruence). cbn. lia.
Qed.
(** C75: with a console: exactly the texts that are not empty, in order, and no summary. *)
Theorem C75_console_texts v ms ts :
  match_report (mkFlags true v) ms = map Text (filter (fun x => negb (x =? "")%string) (map n_wkt ms))
  /\ track_report (mkFlags true v) ts = map Text (filter (fun x => negb (x =? "")%string) (map tr_wkt ts)).
Proof.
  unfold match_report, track_report. rewrite !report_console by reflexivity. rewrite !map_map. split; [|reflexivity]. do 2 f_equal. apply map_ext.
  intros r. unfold parse_match. destruct (fold_left _ _ _) as [a b]. reflexivity.
Qed.

Lemma Ok_inj {A} (x y : A) : Ok x = Ok y -> x = y.
Proof. congruence. Qed.
(** **** One comparison. *)
(** C75: for a single comparison of lines with extent the weighted values are its fractions. *)
Section One.
  Context {P D : Type}.
  Variable eqp : P -> P -> bool.
  Variable len : P -> P -> Q.
  Variable simplify : list (P * P) -> outcome (list (P * P)).
  Variable ltb : D -> D -> bool.
  Variable dist : P -> P -> D.
  Variable near : list P -> P -> list P.
  Variable tol : D.
  Variable as_set : list P -> list P.
  Variable touched splits : P -> P * P -> bool.
  Notation segs := (fun l => concat (map segments l)).
  Definition extent (l : list (P * P)) : Prop := l = [] \/ exists q, lengths eqp len l = Some q /\ (0 < q)%Q.
  Theorem C75_one wkt id mp tp d truth match_ r :
    compare_lines eqp len simplify ltb dist near tol as_set touched splits truth match_ = Ok r ->
    extent (segs truth) -> extent (segs match_) ->
    exists ln t, compare_report wkt (mkFlags false true) [mkCResult id mp tp (lengths eqp len (segs match_)) (lengths eqp len (segs truth)) d r]
        = [Line ln; Total t]
      /\ feq (t_weighted_error t) (error_fraction r) /\ feq (Fin (t_weighted_correct t)) (correct_fraction r)
      /\ feq (t_mean_error t) (error_fraction r) /\ feq (t_mean_correct t) (correct_fraction r).
  Proof.
    unfold compare_lines. set (a := concat (map segments truth)). set (b := concat (map segments match_)). intros E Ea Eb.
    eexists _, _. split; [reflexivity|].
    cbn [fold_left map]. unfold add_compare, csums0, compare_total. cbn [parse_compare t_weighted_error t_weighted_correct t_mean_error t_mean_correct s_count s_error_fraction s_correct_fraction fst
      c_error_fraction c_correct_fraction r_comparison].
    assert (Mean : forall f, feq (fdiv (fadd (Fin 0) f) 1) f).
    { intros [q|]; cbn; [field|exact I]. }
    refine (_ : _ /\ _ /\ _). assert (X : forall A B, A /\ B -> A /\ B /\ feq (fdiv (fadd (Fin 0) (error_fraction r)) 1) (error_fraction r) /\ feq (fdiv (fadd (Fin 0) (correct_fraction r)) 1) (correct_fraction r)) by (intros ? ? []; auto).
    apply X. clear X Mean.
    assert (Z : forall q, Qle_bool q 0 = false <-> (0 < q)%Q).
    { intros q. destruct (Qle_bool q 0) eqn:B; split; intros H; try reflexivity; try discriminate H.
      - apply Qle_bool_iff in B. lra.
      - assert (~ (q <= 0)%Q) by (intros X; apply Qle_bool_iff in X; congruence). lra. }
    (* the sums of one result *)
    set (s := mkCSums _ _ _ _ _ _ _ _ _ _ _).
    assert (S1 : (s_added s == error_added r)%Q) by (cbn; ring). assert (S2 : (s_missed s == error_missed r)%Q) by (cbn; ring).
    assert (S3 : (s_correct s == correct r)%Q) by (cbn; ring).
    assert (S4 : (s_truth_length s == value (lengths eqp len a))%Q) by (cbn; ring).
    assert (S5 : (s_match_length s == value (lengths eqp len b))%Q) by (cbn; ring).
    clearbody s.
    assert (W : forall tl ml, (s_truth_length s == value tl)%Q -> (s_match_length s == value ml)%Q ->
      feq (weighted_error s) (error_of (error_added r) (error_missed r) tl)
      /\ (weighted_correct s == correct_of (correct r) (error_of (error_added r) (error_missed r) tl) tl ml)%Q).
    { intros tl ml T M.
      assert (Pt : negb (Qle_bool (s_truth_length s) 0) = positive tl) by (rewrite (Qle_bool_comp _ _ 0 0 T (Qeq_refl 0)); destruct tl; reflexivity).
      assert (Pm : negb (Qle_bool (s_match_length s) 0) = positive ml) by (rewrite (Qle_bool_comp _ _ 0 0 M (Qeq_refl 0)); destruct ml; reflexivity).
      assert (Zt : Qeq_bool (s_truth_length s) 0 = zero tl) by (rewrite T; destruct tl; reflexivity).
      assert (Zm : Qeq_bool (s_match_length s) 0 = zero ml) by (rewrite M; destruct ml; reflexivity).
      assert (We : feq (weighted_error s) (error_of (error_added r) (error_missed r) tl)).
      { unfold weighted_error, error_of. rewrite S1, S2, Pt. destruct (negb (Qeq_bool (error_added r) 0) || negb (Qeq_bool (error_missed r) 0)); [|cbn; reflexivity].
        destruct (positive tl); cbn; [|exact I]. rewrite S1, S2, T. reflexivity. }
      split; [exact We|]. unfold weighted_correct, correct_of.
      assert (is_zero (weighted_error s) = is_zero (error_of (error_added r) (error_missed r) tl)) as ->.
      { destruct (weighted_error s), (error_of _ _ _); cbn in *; try tauto. rewrite We. reflexivity. }
      destruct (is_zero _); [reflexivity|]. cbv zeta. rewrite Pt, Pm, Zt, Zm.
      assert (Mm : forall a b c d, (a == b)%Q -> (c == d)%Q -> (max_q a c == max_q b d)%Q /\ (min_q a c == min_q b d)%Q).
      { intros a' b' c' d' X Y. unfold max_q, min_q. rewrite (Qle_bool_comp _ _ _ _ Y X), (Qle_bool_comp _ _ _ _ X Y).
        destruct (Qle_bool d' b'), (Qle_bool b' d'); auto. }
      assert (Sy : forall a b, (max_q a b == max_q b a)%Q).
      { intros a' b'. unfold max_q. destruct (Qle_bool b' a') eqn:X, (Qle_bool a' b') eqn:Y; try reflexivity.
        - apply Qle_bool_iff in X, Y. lra.
        - assert (~ (b' <= a')%Q /\ ~ (a' <= b')%Q) by (split; intros H; apply Qle_bool_iff in H; congruence). lra. }
      destruct (positive tl && positive ml); [|reflexivity].
      apply Mm; [reflexivity|]. apply Mm; [reflexivity|]. rewrite S3. destruct (Mm _ _ _ _ M T) as [-> _]. rewrite Sy. reflexivity. }
    destruct (W _ _ S4 S5) as [We Wc]. clear W.
    destruct a as [|x a'] eqn:Eqa, b as [|y b'] eqn:Eqb; cbn [compare_segments] in E.
    - apply Ok_inj in E. subst r. cbn in *. split; [exact We|exact Wc].
    - destruct Eb as [Eb|(q & Eb & Hq)]; [discriminate Eb|]. rewrite Eb in *. injection E as <-.
      cbn [error_added error_missed error_fraction correct_fraction correct lengths filter value] in We, Wc |- *.
      unfold error_of in We, Wc. assert (Qeq_bool q 0 = false) as Q by (destruct (Qeq_bool q 0) eqn:Q; [apply Qeq_bool_iff in Q; lra|reflexivity]).
      rewrite Q in We, Wc. cbn [negb orb positive lengths filter] in We, Wc. split; [exact We|]. unfold correct_of in Wc. cbn [is_zero positive andb zero] in Wc.
      rewrite Q in Wc. cbn in Wc. exact Wc.
    - destruct Ea as [Ea|(q & Ea & Hq)]; [discriminate Ea|]. rewrite Ea in *. injection E as <-.
      cbn [error_added error_missed error_fraction correct_fraction correct lengths filter value] in We, Wc |- *.
      unfold error_of in We, Wc. assert (Qeq_bool q 0 = false) as Q by (destruct (Qeq_bool q 0) eqn:Q; [apply Qeq_bool_iff in Q; lra|reflexivity]).
      cbn [positive value] in We, Wc. rewrite Q, (proj2 (Z q) Hq) in We, Wc. change (Qeq_bool 0 0) with true in We, Wc. cbn [negb orb] in We, Wc.
      assert (U : ((0 + q) / q == 1)%Q) by (field; lra). split.
      + eapply feq_trans; [exact We|]. cbn. exact U.
      + unfold correct_of in Wc. cbn [is_zero] in Wc. assert (V : Qeq_bool ((0 + q) / q) 0 = false) by (rewrite U; reflexivity).
        rewrite V in Wc. cbn [positive lengths filter zero] in Wc. rewrite Q, (proj2 (Z q) Hq) in Wc. cbn in Wc. exact Wc.
    - rewrite <- Eqa, <- Eqb in *. clear Eqa Eqb.
      destruct (prepare _ _ _ _ _ _ _ _ _ _ _ _) as [[a1 b1]| | |] eqn:Ep; try discriminate E. cbn [bindO fst snd] in E.
      unfold evaluate in E. destruct (classify eqp a1 b1) as [[[c m] k]| | |]; try discriminate E. cbn [bindO] in E.
      destruct (sum_up eqp len c) as [c' good], (sum_up eqp len m) as [m' added], (sum_up eqp len k) as [k' missed]. apply Ok_inj in E. subst r.
      cbn [error_added error_missed error_fraction correct_fraction correct] in *. split; [exact We|exact Wc].
  Qed.
End One.

(** **** Examples. *)
Definition wktZ (s : Z * Z) : string := if (fst s <? 20)%Z then "LINESTRING(0 0,14 0)"%string else "LINESTRING(20 0,25 0)"%string.
Definition cmp1 : comparison (Z * Z) := mkComparison (Fin (20 # 26)) (Fin (11 # 26)) 20 5 6 [(0, 14); (14, 20)]%Z [(20, 25)]%Z [(20, 14)]%Z.
Definition cmp2 : comparison (Z * Z) := mkComparison (Fin 1) (Fin 0) 26 0 0 [(0, 14)]%Z [] [].
Definition res1 : cresult := mkCResult "a" 3 3 (Some 25%Q) (Some 26%Q) 1 cmp1.
Definition res2 : cresult := mkCResult "b" 2 4 (Some 26%Q) (Some 26%Q) 2 cmp2.
Example C75_demo : compare_report wktZ counts [res1; res2] =
  [Line (mkCLine 1 "a" 1 3 3 (Fin (20 # 26)) (Fin (11 # 26)) 20 5 6); Line (mkCLine 2 "b" 2 4 2 (Fin 1) (Fin 0) 26 0 0);
   Total (mkCTotal 2 3 7 5 52 51 (Fin (46 # 52)) (46 # 52) (Fin (11 # 52)) (Fin (11 # 52)) 46 5 6)].
Proof. vm_compute. reflexivity. Qed.
Example C75_means_demo :
  Forall (fun r => (0 < truth_of r)%Q /\ error_fraction (r_comparison r) = Fin (match r_id r with "a"%string => 11 # 26 | _ => 0 end)
      /\ ((match r_id r with "a"%string => 11 # 26 | _ => 0 end) * truth_of r == error_added (r_comparison r) + error_missed (r_comparison r))%Q
      /\ (0 <= error_added (r_comparison r) /\ 0 <= error_missed (r_comparison r))%Q) [res1; res2]
  /\ Forall (fun r => (0 < truth_of r /\ 0 < match_of r)%Q /\ correct_fraction (r_comparison r) = Fin (match r_id r with "a"%string => 20 # 26 | _ => 1 end)
      /\ (0 <= (match r_id r with "a"%string => 20 # 26 | _ => 1 end) <= 1)%Q
      /\ ((match r_id r with "a"%string => 20 # 26 | _ => 1 end) * longer r <= correct (r_comparison r))%Q
      /\ (0 <= error_added (r_comparison r) /\ 0 <= error_missed (r_comparison r))%Q) [res1; res2].
Proof. split; repeat constructor; vm_compute; congruence. Qed.
Example C75_console_demo : (forall s, one_line (wktZ s)) /\ compare_report wktZ (mkFlags true true) [res2] =
  [Text ("Comparison 'b':" ++ String "010" ("Corrects:" ++ String "010" ("LINESTRING(0 0,14 0)" ++ String "010" ("Error Adds:" ++ String "010"
    ("Error Misses:" ++ String "010" "")))))%string].
Proof.
  split; [|vm_compute; reflexivity]. intros s. unfold wktZ. destruct (fst s <? 20)%Z; cbn; repeat split; congruence.
Qed.
Example C75_one_demo : exists r, compareZ 1 [[0; 20; 14]]%Z [[0; 10; 25]]%Z = Ok r
  /\ extent Z.eqb lenZ (concat (map segments [[0; 20; 14]]%Z)) /\ extent Z.eqb lenZ (concat (map segments [[0; 10; 25]]%Z)).
Proof.
  eexists. split; [vm_compute; reflexivity|]. split; right; eexists; split; [vm_compute; reflexivity|vm_compute; reflexivity| |];
  vm_compute; reflexivity.
Qed.
Example C75_matches_demo : match_report (mkFlags false true)
    [mkMResult "a" "w" 10 7 [(12, 30); (4, 6)] false 1; mkMResult "b" "w" 5 5 [] true 2] =
  [Line (mkMLine 1 "a" false 1 10 7 16 36); Line (mkMLine 2 "b" true 2 5 5 0 0); Total (mkMSums 2 3 15 12 16 36)].
Proof. vm_compute. reflexivity. Qed.
Example C75_tracks_demo : track_report (mkFlags false true) [mkTResult "a" "w" 10; mkTResult "b" "w" 5] =
  [Line (1, "a"%string, 10); Line (2, "b"%string, 5); Total (2, 15)].
Proof. vm_compute. reflexivity. Qed.

(** **** What is not true. *)
(** The weighted mean of the correct fractions is not a mean of them: two comparisons with 1/3 each give 1/2, because the longer of the summed
    lengths is taken, not the sum of the longer lengths. *)
Theorem C75_weighted_correct_refuted : exists (l : list (@cresult (Z * Z))) ls t, compare_report wktZ counts l = map Line ls ++ [Total t]
  /\ Forall (fun r => correct_fraction (r_comparison r) = Fin (1 # 3)) l
  /\ Forall (fun r => correct_fraction (r_comparison r)
       = Fin (correct_of (correct (r_comparison r)) (error_fraction (r_comparison r)) (r_truth_length r) (r_match_length r))
       /\ error_fraction (r_comparison r) = error_of (error_added (r_comparison r)) (error_missed (r_comparison r)) (r_truth_length r)) l
  /\ (t_weighted_correct t == 1 # 2)%Q.
Proof.
  exists [mkCResult "a" 2 2 (Some 1%Q) (Some 3%Q) 0 (mkComparison (Fin (1 # 3)) (Fin (2 # 3)) 1 0 2 [] [] []);
          mkCResult "b" 2 2 (Some 3%Q) (Some 1%Q) 0 (mkComparison (Fin (1 # 3)) (Fin 2) 1 2 0 [] [] [])].
  eexists [_; _], _. split; [vm_compute; reflexivity|]. split; [repeat constructor|]. split; [repeat constructor|]. vm_compute. reflexivity.
Qed.
(** A single comparison whose match has segments without extent and whose ground truth is empty: its line says infinitely wrong, the summary
    says completely correct. *)
Theorem C75_one_refuted : exists truth match_ r ln t, compareZ 1 truth match_ = Ok r
  /\ compare_report wktZ counts [mkCResult "a" 2 0 (lengths Z.eqb lenZ (concat (map segments match_))) (lengths Z.eqb lenZ (concat (map segments truth))) 1 r]
     = [Line ln; Total t]
  /\ l_error_fraction ln = Inf /\ l_correct_fraction ln = Fin 0 /\ t_weighted_error t = Fin 0 /\ t_weighted_correct t = 1%Q.
Proof.
  exists [], [[7; 7]]%Z. eexists _, _, _. split; [vm_compute; reflexivity|]. split; [vm_compute; reflexivity|]. vm_compute. auto.
Qed.
(** On the console a missed segment is not always on a line of its own, as the correct and the added ones are. *)
Theorem C75_console_refuted : exists (r : @cresult (Z * Z)) s x, compare_report wktZ (mkFlags true false) [r] = [Text s]
  /\ In x (error_misses (r_comparison r)) /\ ~ In (wktZ x) (lines s)
  /\ In ("Error Misses:" ++ wktZ x)%string (lines s).
Proof.
  eexists (mkCResult "a" 2 2 (Some 5%Q) (Some 5%Q) 1 (mkComparison (Fin 0) (Fin 1) 0 0 5 [] [] [(20, 25)]%Z)), _, (20, 25)%Z.
  split; [vm_compute; reflexivity|]. split; [cbn; auto|]. split.
  - vm_compute. intros H. repeat (destruct H as [H|H]; [discriminate H|]). exact H.
  - vm_compute. auto 8.
Qed.

Print Assumptions C75_compares.
Print Assumptions C75_weighted.
Print Assumptions C75_weighted_error_mean.
Print Assumptions C75_weighted_correct_bound.
Print Assumptions C75_order.
Print Assumptions C75_silent.
Print Assumptions C75_console.
Print Assumptions C75_matches.
Print Assumptions C75_tracks.
Print Assumptions C75_console_texts.
Print Assumptions C75_one.
Print Assumptions C75_weighted_correct_refuted.
Print Assumptions C75_one_refuted.
Print Assumptions C75_console_refuted.
