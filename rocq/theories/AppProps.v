(** C79: modes, help and exit status of the program, see App.v. *)
From Coq Require Import ZArith String.
From Verif Require Import Base Srs Options OptionsProofs OptionsProps App.
Local Open Scope string_scope.
Local Open Scope list_scope.

Definition mode_name (md : mode) : string := match md with PREPARE => "prepare" | MATCH => "match" | SERVER => "server" | COMPARE => "compare" | NONE => "" end.
Definition is_work (md : mode) : Prop := md = PREPARE \/ md = MATCH \/ md = COMPARE.

Lemma parse_ready ds md cli config m : process ds md cli config = Ready m -> parse ds md cli config = Ok m /\ m "version" = Empty
  /\ (m "help" = Empty \/ show_help_checker m md = false) /\ missing ds m = false.
Proof.
  unfold process. destruct (parse ds md cli config) as [m'| | |]; try discriminate. destruct (m' "help") eqn:H; cbn [is_empty negb andb].
  all: try (destruct (show_help_checker m' md) eqn:S; [discriminate|]).
  all: destruct (m' "version") eqn:V; cbn [is_empty negb]; try discriminate; destruct (missing ds m') eqn:M; try discriminate; intros [= <-]; auto.
Qed.
Lemma shared cores md n : is_work md -> In n (map d_name options_mode) -> find_desc (options_of cores md) n = find_desc options_mode n.
Proof.
  intros W I. destruct W as [->|[->| ->]]; cbn in I; repeat (destruct I as [<-|I]; [reflexivity|]); contradiction.
Qed.
Lemma unshared n : ~ In n (map d_name options_mode) -> find_desc options_mode n = None.
Proof.
  intros H. destruct (find_desc options_mode n) as [d|] eqn:F; [|reflexivity]. apply find_some in F. destruct F as [I E]. apply String.eqb_eq in E. exfalso. apply H. rewrite <- E. apply in_map. exact I.
Qed.
Lemma mode_ok cores md : is_work md -> NoDup (map d_name (options_of cores md)) /\ has_config (options_of cores md).
Proof. intros [->|[->| ->]]; apply (C78_names cores); cbn [In options_of]; tauto. Qed.

(** C79: both passes see the same values of the options of all modes. *)
Theorem C79_passes cores md cli config m m' : is_work md -> parse options_mode NONE cli config = Ok m -> parse (options_of cores md) md cli config = Ok m' ->
  forall n, In n ["help"; "version"; "config"; "verbose"; "quiet"; "prepare"; "match"; "server"; "compare"] -> m n = m' n.
Proof.
  intros W E E' n I. destruct (C78_names cores options_mode) as [N C]; [cbn [In]; tauto|]. destruct (mode_ok cores md W) as [N' C'].
  rewrite (C78_sources _ _ _ _ _ N C E n), (C78_sources _ _ _ _ _ N' C' E' n), (shared cores md n W I). reflexivity.
Qed.
Lemma flag_name m md : is_work md -> one_mode m -> flag m (mode_name md) = true -> last_mode m = md.
Proof.
  intros W (n & _ & T & U) F. assert (V : forall k, In k ["prepare"; "match"; "server"; "compare"] -> k <> mode_name md -> flag m k = false).
  { intros k Ik Nk. destruct (flag m k) eqn:K; [|reflexivity]. exfalso. apply Nk. rewrite (U k Ik K). symmetry. apply U; [|exact F].
    destruct W as [->|[->| ->]]; cbn; tauto. }
  unfold last_mode. destruct W as [->|[->| ->]]; cbn [mode_name] in *; rewrite ?F; rewrite ?(V "compare") by (cbn; tauto || discriminate);
    rewrite ?(V "server") by (cbn; tauto || discriminate); rewrite ?(V "match") by (cbn; tauto || discriminate); reflexivity.
Qed.
Lemma last_mode_flag m md : last_mode m = md -> md <> NONE -> flag m (mode_name md) = true.
Proof.
  unfold last_mode. destruct (flag m "compare") eqn:A; [intros <- _; exact A|]. destruct (flag m "server") eqn:B; [intros <- _; exact B|].
  destruct (flag m "match") eqn:C; [intros <- _; exact C|]. destruct (flag m "prepare") eqn:D; [intros <- _; exact D|]. congruence.
Qed.
Lemma one_not_none m : one_mode m -> last_mode m <> NONE.
Proof.
  intros (n & I & T & _). unfold last_mode. cbn [In] in I. destruct I as [<-|[<-|[<-|[<-|[]]]]]; rewrite T;
    destruct (flag m "compare"), (flag m "server"), (flag m "match"), (flag m "prepare"); discriminate.
Qed.

Section C79.
  Variable cores : Z.
  Variable works : mode -> vm -> bool.
  Notation app := (app cores works).

  Lemma dispatch_work d md m cli config : In (Work md m) (fst (let '(ev, ok) := dispatch cores works d cli config in if ok then (ev, 0) else (ev ++ [Error], 3))) ->
    is_work d /\ process (options_of cores d) d cli config = Ready m /\ d = md.
  Proof.
    intros I. assert (W : is_work d \/ ~ is_work d) by (unfold is_work; destruct d; [right; intros [?|[?|?]]; discriminate|tauto|tauto|right; intros [?|[?|?]]; discriminate|tauto]).
    destruct W as [W|W]; [|exfalso; unfold is_work in W; destruct d; cbn in I; tauto]. split; [exact W|].
    assert (I' : In (Work md m) (fst (let '(ev, r) := run_mode cores works d cli config in if match r with Some _ => true | None => false end then (ev, 0) else (ev ++ [Error], 3)))).
    { unfold dispatch in I. destruct W as [->|[->| ->]]; destruct (run_mode cores works _ cli config); exact I. }
    unfold run_mode in I'. destruct (process (options_of cores d) d cli config) as [m'| | |]; try (destruct I' as [[=]|[]]).
    destruct (works d m'); cbn [fst app In] in I'; destruct I' as [[= <- <-]|I']; auto; try contradiction. destruct I' as [[=]|[]].
  Qed.
  (** C79: the work of a mode is done exactly if this mode and no other is asked for, both passes accept the options, and neither help nor version is asked for. *)
  Theorem C79_work cli config md m : In (Work md m) (fst (app cli config)) <->
    is_work md /\ (exists m0, parse options_mode NONE cli config = Ok m0) /\ parse (options_of cores md) md cli config = Ok m /\ missing (options_of cores md) m = false
    /\ flag m (mode_name md) = true /\ one_mode m /\ m "help" = Empty /\ m "version" = Empty.
  Proof.
    split.
    - unfold App.app. destruct (process options_mode NONE cli config) as [m0| | |] eqn:P; try (intros [[=]|[]]).
      destruct (mode_correct m0) as [[v d]| | |] eqn:MC; try (intros [[=]|[]]). unfold mode_correct in MC. destruct (Nat.eqb (count m0) 1) eqn:O; [|discriminate].
      injection MC as _ L. intros I.
      assert (G : is_work d /\ process (options_of cores d) d cli config = Ready m /\ d = md).
      { apply dispatch_work. exact I. }
      destruct G as (W & Q & ->). destruct (parse_ready _ _ _ _ _ P) as (E0 & V0 & _ & _). destruct (parse_ready _ _ _ _ _ Q) as (E & V & H & Ms).
      pose proof (C79_passes cores md cli config m0 m W E0 E) as S.
      assert (F : flag m (mode_name md) = true).
      { assert (flag m0 (mode_name md) = true) as F0 by (apply last_mode_flag; [exact L|destruct W as [->|[->| ->]]; discriminate]).
        unfold flag in *. rewrite <- S; [exact F0|]. destruct W as [->|[->| ->]]; cbn; tauto. }
      apply one_mode_spec in O.
      assert (Om : one_mode m).
      { destruct O as (n & I1 & T & U). exists n. split; [exact I1|]. unfold flag in *. split.
        - rewrite <- S; [exact T|]. cbn [In] in *. tauto.
        - intros n' I' T'. apply U; [exact I'|]. rewrite S; [exact T'|]. cbn [In] in *. tauto. }
      split; [exact W|]. split; [eauto|]. split; [exact E|]. split; [exact Ms|]. split; [exact F|]. split; [exact Om|]. split; [|exact V]. destruct H as [H|H]; [exact H|]. exfalso. unfold show_help_checker in H.
      destruct W as [->|[->| ->]]; cbn [mode_name mode_eqb] in *; rewrite F in H; cbn in H; rewrite ?orb_true_r in H; discriminate.
    - intros (W & [m0 E0] & E & Ms & F & O & H & V). pose proof (C79_passes cores md cli config m0 m W E0 E) as S.
      assert (Q : process (options_of cores md) md cli config = Ready m) by (unfold process; rewrite E, H, V, Ms; reflexivity).
      assert (P : process options_mode NONE cli config = Ready m0).
      { unfold process. rewrite E0, (S "help"), (S "version"), H, V by (cbn; tauto). cbn [is_empty negb andb]. reflexivity. }
      assert (O0 : one_mode m0).
      { destruct O as (n & I1 & T & U). exists n. split; [exact I1|]. unfold flag in *. split.
        - rewrite S; [exact T|]. cbn [In] in *. tauto.
        - intros n' I' T'. apply U; [exact I'|]. rewrite <- S; [exact T'|]. cbn [In] in *. tauto. }
      assert (L : last_mode m0 = md).
      { apply flag_name; [exact W|exact O0|]. unfold flag in *. rewrite S; [exact F|]. destruct W as [->|[->| ->]]; cbn; tauto. }
      unfold App.app. rewrite P. unfold mode_correct. apply one_mode_spec in O0. rewrite O0, L. unfold dispatch, run_mode.
      destruct W as [->|[->| ->]]; rewrite Q; destruct (works _ m); cbn; tauto.
  Qed.
  (** C79: the work of each mode gets the options of this mode. *)
  Theorem C79_options cli config m :
    (In (Work PREPARE m) (fst (app cli config)) -> parse options_prepare PREPARE cli config = Ok m)
    /\ (In (Work MATCH m) (fst (app cli config)) -> parse (options_match cores) MATCH cli config = Ok m)
    /\ (In (Work COMPARE m) (fst (app cli config)) -> parse (options_compare cores) COMPARE cli config = Ok m).
  Proof.
    split; [|split]; intros I.
    - exact (proj1 (proj2 (proj2 (proj1 (C79_work cli config PREPARE m) I)))).
    - exact (proj1 (proj2 (proj2 (proj1 (C79_work cli config MATCH m) I)))).
    - exact (proj1 (proj2 (proj2 (proj1 (C79_work cli config COMPARE m) I)))).
  Qed.
  (** C79: at most one piece of work is done. *)
  Theorem C79_once cli config : length (filter (fun e => match e with Work _ _ => true | _ => false end) (fst (app cli config))) <= 1.
  Proof.
    unfold App.app. destruct (process options_mode NONE cli config) as [m0| | |]; [|cbn; lia..]. destruct (mode_correct m0) as [[v d]| | |]; [|cbn; lia..].
    destruct (dispatch cores works d cli config) as [ev ok] eqn:D. assert (L : length (filter (fun e => match e with Work _ _ => true | _ => false end) ev) <= 1).
    { unfold dispatch, run_mode in D. destruct d; try (injection D as <- _; cbn; lia).
      - destruct (process (options_of cores PREPARE) PREPARE cli config); injection D as <- _; cbn; lia.
      - destruct (process (options_of cores MATCH) MATCH cli config); injection D as <- _; cbn; lia.
      - destruct (process (options_of cores COMPARE) COMPARE cli config); injection D as <- _; cbn; lia. }
    destruct ok; cbn [fst]; [exact L|]. rewrite filter_app, app_length. cbn. lia.
  Qed.
  Lemma dispatch_cases d cli config ev ok : dispatch cores works d cli config = (ev, ok) ->
    (ok = true /\ forall md m, In (Work md m) ev -> works md m = true) \/ (ok = false /\ exists m, ev = [Work d m] /\ works d m = false).
  Proof.
    assert (R : forall d', (let '(ev, r) := run_mode cores works d' cli config in (ev, match r with Some _ => true | None => false end)) = (ev, ok) ->
      (ok = true /\ forall md m, In (Work md m) ev -> works md m = true) \/ (ok = false /\ exists m, ev = [Work d' m] /\ works d' m = false)).
    { intros d'. unfold run_mode. destruct (process (options_of cores d') d' cli config) as [m'| | |]; [destruct (works d' m') eqn:E|..]; intros [= <- <-].
      - left. split; [reflexivity|]. intros md m [[= <- <-]|[]]. exact E.
      - right. eauto.
      - left. split; [reflexivity|]. intros md m [[=]|[]].
      - left. split; [reflexivity|]. intros md m [[=]|[]].
      - left. split; [reflexivity|]. intros md m [[=]|[]]. }
    unfold dispatch. destruct d; try apply R; intros [= <- <-]; left; (split; [reflexivity|]); intros md m [].
  Qed.
  (** C79: the exit status: 3 exactly if work was begun and failed; 2 exactly if the first pass accepts the options but there is not exactly one mode;
      1 exactly if the first pass ends with help, version or an error; else 0. *)
  Theorem C79_status cli config : let s := snd (app cli config) in
    (s = 3 <-> exists md m, In (Work md m) (fst (app cli config)) /\ works md m = false)
    /\ (s = 2 <-> exists m, process options_mode NONE cli config = Ready m /\ ~ one_mode m)
    /\ (s = 1 <-> forall m, process options_mode NONE cli config <> Ready m) /\ s <= 3.
  Proof.
    cbv zeta. unfold App.app. destruct (process options_mode NONE cli config) as [m0| | |] eqn:P; cbn [fst snd].
    2,3,4: split; [split; [discriminate|intros (md & m & [[=]|[]] & _)]|]; split; [split; [discriminate|intros (m & [=] & _)]|]; split; [split; [discriminate|reflexivity]|lia].
    assert (N1 : ~ (forall m, Ready m0 <> Ready m)) by (intros H; apply (H m0); reflexivity).
    unfold mode_correct. destruct (Nat.eqb (count m0) 1) eqn:O.
    - assert (N2 : ~ exists m, Ready m0 = Ready m /\ ~ one_mode m) by (intros (m & [= <-] & H); apply H, one_mode_spec, O).
      destruct (dispatch cores works (last_mode m0) cli config) as [ev ok] eqn:D. destruct (dispatch_cases _ _ _ _ _ D) as [[-> A]|(-> & m' & -> & F)]; cbn [fst snd].
      + split; [split; [discriminate|intros (md & m & I & F); rewrite (A _ _ I) in F; discriminate]|]. split; [split; [discriminate|tauto]|]. split; [split; [discriminate|tauto]|lia].
      + split; [split; [intros _; exists (last_mode m0), m'; split; [left; reflexivity|exact F]|reflexivity]|]. split; [split; [discriminate|tauto]|]. split; [split; [discriminate|tauto]|lia].
    - cbn [fst snd]. split; [split; [discriminate|intros (md & m & [[=]|[]] & _)]|]. split; [split; [intros _; exists m0; split; [reflexivity|]; intros H; apply one_mode_spec in H; congruence|reflexivity]|].
      split; [split; [discriminate|tauto]|lia].
  Qed.
End C79.

(** **** Examples *)
Definition all_work (md : mode) (m : vm) : bool := true.
Example C79_work_ex : exists m, In (Work MATCH m) (fst (app 4 all_work cli_match conf_file)) /\ snd (app 4 all_work cli_match conf_file) = 0.
Proof.
  destruct (ex_ok (parse (options_match 4) MATCH cli_match conf_file) (fun m => missing (options_match 4) m = false /\ flag m "match" = true /\ Nat.eqb (count m) 1 = true /\ m "help" = Empty /\ m "version" = Empty))
    as (m & E & H1 & H2 & H3 & H4 & H5); [vm_compute; repeat split; reflexivity|].
  destruct (ex_ok (parse options_mode NONE cli_match conf_file) (fun _ => True)) as [m0 [E0 _]]; [vm_compute; exact I|].
  exists m. split; [|vm_compute; reflexivity]. apply (proj2 (C79_work 4 all_work cli_match conf_file MATCH m)). split; [unfold is_work; tauto|]. split; [eauto|]. split; [exact E|]. split; [exact H1|]. split; [exact H2|].
  split; [apply one_mode_spec; exact H3|]. auto.
Qed.
Example C79_status_ex : snd (app 4 (fun _ _ => false) cli_match conf_file) = 3 /\ snd (app 4 all_work (("server", VB true) :: cli_match) conf_file) = 2
  /\ snd (app 4 all_work [("config", VS "none.conf")] conf_file) = 1.
Proof. vm_compute. auto. Qed.
(** C79: options that the second pass refuses (an unknown one, a missing input) are reported, but the exit status is 0. *)
Theorem C79_status_refuted : app 4 all_work (("radios", VB true) :: cli_match) conf_file = ([Error], 0) /\ app 4 all_work [("match", VB true)] no_files = ([Error], 0).
Proof. vm_compute. auto. Qed.
(** C79: help for a mode ends with status 0, help without a mode and the version with 1; help for the server is not shown, and the server does nothing. *)
Theorem C79_help_refuted : app 4 all_work [("match", VB true); ("help", VB true)] no_files = ([Help MATCH], 0) /\ app 4 all_work [("help", VB true)] no_files = ([Help NONE], 1)
  /\ app 4 all_work [("version", VB true); ("match", VB true)] no_files = ([Version], 1)
  /\ app 4 all_work [("server", VB true); ("help", VB true)] no_files = ([], 0).
Proof. vm_compute. auto. Qed.
Print Assumptions C79_passes.
Print Assumptions C79_work.
Print Assumptions C79_options.
Print Assumptions C79_once.
Print Assumptions C79_status.
