(** C89: the work of the modes. *)
From Coq Require Import ZArith QArith Ascii String Lia.
From Verif Require Import Base Srs Options Work.
Local Open Scope string_scope.

(** ** Claims *)
(** the words of an importer: format and profile *)
Definition words (i : importer) : string * option string :=
  match i with
  | OsmCar => ("osm", Some "car") | OsmManual => ("osm", Some "manual")
  | ArcNode => ("arc-node", None) | Seattle => ("seattle", None) | Melbourne => ("melbourne", None) | Giscup => ("giscup", None)
  end.
Definition is_work (s : step) : bool := match s with Import _ | Run _ => true | _ => false end.
Definition wanted (m : vm) (c : prepare_conf) (p : pass) : bool :=
  match p with
  | Simplify => negb (String.eqb (str m "simplify") "none") | Unconnected => flag m "remove-unconnected" | DuplicateNodes => p_duplicate_nodes c
  | DuplicateEdges => flag m "remove-duplicate-edges" | Compress | BuildIndices => true
  end.
(** the files that a preparation writes *)
Definition used (m : vm) (c : prepare_conf) (r : role) : bool :=
  match r with
  | Graph | Tags | Index => true
  | GraphImport | TagsImport | IndexBuild => mapped c r
  | OsmVertices | OsmTags => mapped c r && String.eqb (str m "format") "osm"
  | NodesFile | EdgesFile | OsmFile => negb (String.eqb (name m r) "")
  end.
Definition stored (c : prepare_conf) (r : role) : form := if mapped c r then Image else Archive.

Definition role_dec (a b : role) : {a = b} + {a <> b}.
Proof. decide equality. Defined.
Lemma role_eqb_eq : forall a b, role_eqb a b = true <-> a = b.
Proof. intros a b. destruct a, b; split; intros H; try reflexivity; discriminate H. Qed.
Lemma role_eqb_neq : forall a b, a <> b -> role_eqb a b = false.
Proof. intros a b H. destruct (role_eqb a b) eqn:E; auto. apply role_eqb_eq in E. contradiction. Qed.

Section Accepted.
  Variables (is_directory filter_pattern : string -> bool) (latlong : Z -> option bool).

  Lemma prepare_correct_inv : forall m c, prepare_correct filter_pattern latlong m = Some c ->
    mem (str m "format") formats = true /\ p_format c = str m "format" /\ mem (str m "osm-profile") ["car"; "manual"] = true
    /\ p_simplify c = str m "simplify" /\ mem (str m "simplify") simplifications = true /\ files_correct m = true
    /\ p_duplicate_nodes c = duplicate_nodes_correct m /\ p_mapped c = memory_correct m /\ p_temporary c = prepare_memory_correct m.
  Proof.
    intros m c H. unfold prepare_correct in H.
    destruct (mode_correct m) as [[v md]| | |]; try discriminate H.
    destruct (mem (str m "format") formats && profile_correct filter_pattern m) eqn:E; [| discriminate H].
    apply andb_prop in E. destruct E as [E1 E2]. unfold profile_correct in E2. apply andb_prop in E2. destruct E2 as [E2 _].
    destruct (srs_transform_correct latlong m "") as [t| | |]; try discriminate H.
    destruct (files_correct m && mem (str m "simplify") simplifications) eqn:F; [| discriminate H].
    apply andb_prop in F. destruct F as [F1 F2].
    injection H as <-. repeat split; assumption.
  Qed.

  Lemma filter_on : forall f b l, filter f (on b l) = on b (filter f l).
  Proof. intros f [|] l; reflexivity. Qed.
  Lemma on_nil : forall b, on b [] = [].
  Proof. intros [|]; reflexivity. Qed.
  Lemma on_on : forall a b l, on a (on b l) = on (a && b) l.
  Proof. intros [|] [|] l; reflexivity. Qed.

  (** the import, then the passes that were asked for, in this order, each of them once *)
  Theorem C89_passes : forall m c, prepare_correct filter_pattern latlong m = Some c ->
    exists i, filter is_work (prepare_steps m c)
        = (Import i :: map Run (filter (wanted m c) [Simplify; Unconnected; DuplicateNodes; DuplicateEdges; Compress; BuildIndices]))%list
      /\ fst (words i) = str m "format" /\ (forall p, snd (words i) = Some p -> p = str m "osm-profile").
  Proof.
    intros m c H. apply prepare_correct_inv in H. destruct H as (F & PF & P & PS & S & _ & _ & _ & _).
    assert (I : exists i, filter is_work (execute_import m c) = [Import i] /\ fst (words i) = str m "format"
                          /\ (forall p, snd (words i) = Some p -> p = str m "osm-profile")).
    { unfold execute_import. rewrite PF. unfold formats, mem in F.
      destruct (String.eqb (str m "format") "osm") eqn:E1.
      { unfold import_osm, create, close. rewrite !filter_app, !filter_on. cbn [filter is_work temporary]. rewrite !on_nil. cbn [app].
        apply String.eqb_eq in E1. rewrite E1. unfold mem in P.
        destruct (String.eqb (str m "osm-profile") "car") eqn:Q1.
        - apply String.eqb_eq in Q1. exists OsmCar. split; [reflexivity|]. split; [reflexivity|]. intros p Hp. injection Hp as <-. symmetry; exact Q1.
        - destruct (String.eqb (str m "osm-profile") "manual") eqn:Q2; [| discriminate P].
          apply String.eqb_eq in Q2. exists OsmManual. split; [reflexivity|]. split; [reflexivity|]. intros p Hp. injection Hp as <-. symmetry; exact Q2. }
      destruct (String.eqb (str m "format") "arc-node") eqn:E2.
      { apply String.eqb_eq in E2. exists ArcNode. rewrite E2. repeat split. intros p Hp; discriminate Hp. }
      destruct (String.eqb (str m "format") "seattle") eqn:E3.
      { apply String.eqb_eq in E3. exists Seattle. rewrite E3. repeat split. intros p Hp; discriminate Hp. }
      destruct (String.eqb (str m "format") "melbourne") eqn:E4.
      { apply String.eqb_eq in E4. exists Melbourne. rewrite E4. repeat split. intros p Hp; discriminate Hp. }
      destruct (String.eqb (str m "format") "giscup") eqn:E5; [| discriminate F].
      apply String.eqb_eq in E5. exists Giscup. rewrite E5. repeat split. intros p Hp; discriminate Hp. }
    destruct I as (i & I1 & I2 & I3). exists i. split; [| split; assumption].
    unfold prepare_steps, clean, simplify, serialize, serialize_one, export, save, create, close.
    repeat (rewrite ?filter_app, ?filter_on). cbn [filter is_work temporary app]. rewrite I1, !on_nil. cbn [app]. rewrite ?on_nil, ?app_nil_r. cbn [app].
    f_equal. rewrite PS. cbn [wanted].
    assert (W : negb (String.eqb (str m "simplify") "none") && (String.eqb (str m "simplify") "all" || String.eqb (str m "simplify") "osm-aware")
                = negb (String.eqb (str m "simplify") "none")).
    { unfold simplifications, mem in S. destruct (String.eqb (str m "simplify") "none"); [reflexivity|]. cbn [orb] in S. rewrite orb_false_r in S. cbn [negb andb]. exact S. }
    rewrite W.
    destruct (negb (String.eqb (str m "simplify") "none")), (flag m "remove-unconnected"), (p_duplicate_nodes c), (flag m "remove-duplicate-edges"); reflexivity.
  Qed.
End Accepted.

(** ** The disk *)
Definition roles (s : step) : list role :=
  match s with
  | Create r | Destroy r | Serialize r | Save r => [r]
  | Run Compress => [Graph; Tags] | Run BuildIndices => [Index]
  | _ => []
  end.
Section Effects.
  Variable place : role -> string.
  Variable fails : step -> bool.
  Variable torn : role -> bool.

  Lemma put_same : forall d p x, put d p x p = x.
  Proof. intros. unfold put. rewrite String.eqb_refl. reflexivity. Qed.
  Lemma put_other : forall d p q x, q <> p -> put d p x q = d q.
  Proof. intros d p q x H. unfold put. apply String.eqb_neq in H. rewrite H. reflexivity. Qed.
  Lemma complete_other : forall r d p, p <> place r -> complete place r d p = d p.
  Proof.
    intros r d p H. unfold complete. destruct (d (place r)) as [[r' [| |] b|n]|]; try reflexivity.
    destruct (role_eqb r' r); [apply put_other; exact H | reflexivity].
  Qed.
  Lemma apply_other : forall s d p, (forall r, In r (roles s) -> p <> place r) -> apply place s d p = d p.
  Proof.
    intros s d p H. destruct s as [|r|r|r|i|q|r|r]; cbn [apply roles] in *; try reflexivity; try (apply put_other; apply H; left; reflexivity).
    destruct q; cbn [roles] in *; try reflexivity.
    - rewrite complete_other by (apply H; left; reflexivity). apply complete_other. apply H. right. left. reflexivity.
    - apply complete_other. apply H. left. reflexivity.
  Qed.
  Lemma apply_failed_other : forall s d p, (forall r, In r (roles s) -> p <> place r) -> apply_failed place torn s d p = d p.
  Proof.
    intros s d p H. destruct s as [|r|r|r|i|q|r|r]; cbn [apply_failed roles] in *; try reflexivity; apply put_other; apply H; left; reflexivity.
  Qed.
  Lemma unwind_other : forall open d p, (forall r, In r open -> p <> place r) -> unwind place open d p = d p.
  Proof.
    induction open as [|r l IH]; intros d p H; [reflexivity|]. unfold unwind. cbn [fold_left]. fold (unwind place l (if temporary r then put d (place r) None else d)).
    rewrite IH by (intros x Hx; apply H; right; exact Hx). destruct (temporary r); [apply put_other; apply H; left; reflexivity | reflexivity].
  Qed.
  Lemma unwind_none : forall open d p, d p = None -> unwind place open d p = None.
  Proof.
    induction open as [|r l IH]; intros d p H; [exact H|]. unfold unwind. cbn [fold_left]. fold (unwind place l (if temporary r then put d (place r) None else d)).
    apply IH. destruct (temporary r); [| exact H]. unfold put. destruct (String.eqb p (place r)); [reflexivity | exact H].
  Qed.
  Lemma unwind_open : forall open d r, In r open -> temporary r = true -> unwind place open d (place r) = None.
  Proof.
    induction open as [|x l IH]; intros d r H T; [destruct H|]. unfold unwind. cbn [fold_left]. fold (unwind place l (if temporary x then put d (place x) None else d)).
    destruct H as [<- | H]; [| apply IH; assumption].
    rewrite T. apply unwind_none. apply put_same.
  Qed.

  Lemma exec_other : forall l d open past p,
    (forall s r, In s l -> In r (roles s) -> p <> place r) -> (forall r, In r open -> p <> place r) -> r_disk (exec place fails torn l d open past) p = d p.
  Proof.
    induction l as [|s l IH]; intros d open past p H O; [reflexivity|]. cbn [exec]. destruct (can_fail s && fails s).
    - cbn [r_disk]. rewrite unwind_other by exact O. apply apply_failed_other. intros r Hr. apply (H s); [left; reflexivity | exact Hr].
    - rewrite IH.
      + apply apply_other. intros r Hr. apply (H s); [left; reflexivity | exact Hr].
      + intros s' r Hs Hr. apply (H s'); [right; exact Hs | exact Hr].
      + intros r Hr. destruct s as [|r0|r0|r0|i|q|r0|r0]; cbn [track] in Hr; try (apply O; exact Hr).
        * destruct Hr as [<- | Hr]; [apply (H (Create r0)); [left; reflexivity | left; reflexivity] | apply O; exact Hr].
        * apply filter_In in Hr. apply O. apply Hr.
        * apply filter_In in Hr. apply O. apply Hr.
  Qed.

  (** a temporary file of a storage is open as long as it is there *)
  Definition holds (r : role) (x : option content) : Prop := exists f b, x = Some (Holds r f b).
  Definition guarded (r : role) (d : disk) (open : list role) : Prop := holds r (d (place r)) -> In r open.
  Lemma put_holds : forall d p x r q, holds r (put d p x q) -> holds r x \/ holds r (d q).
  Proof. intros d p x r q. unfold put. destruct (String.eqb q p); intros H; [left | right]; exact H. Qed.
  Lemma complete_holds : forall a d r q, temporary a = false -> temporary r = true -> holds r (complete place a d q) -> holds r (d q).
  Proof.
    intros a d r q A T H. unfold complete in H. destruct (d (place a)) as [[r' [| |] b|n]|]; try exact H.
    destruct (role_eqb r' a); [| exact H]. apply put_holds in H. destruct H as [(f & b' & E) | H]; [| exact H].
    injection E as E1 E2 E3. subst. rewrite A in T. discriminate T.
  Qed.
  Definition tidy (s : step) : Prop := match s with Keep r | Serialize r | Save r => temporary r = false | _ => True end.
  Lemma guarded_apply : forall r s d open, temporary r = true -> tidy s -> guarded r d open -> guarded r (apply place s d) (track s open).
  Proof.
    intros r s d open T S G H. destruct s as [|a|a|a|i|q|a|a]; cbn [apply track tidy] in *; try (apply G; assumption).
    - apply put_holds in H. destruct H as [(f & b & E) | H]; [injection E as -> _ _; left; reflexivity | right; apply G; assumption].
    - unfold put in H. destruct (String.eqb (place r) (place a)) eqn:E; [destruct H as (f & b & E'); discriminate E'|].
      apply filter_In. split; [apply G; assumption|]. apply negb_true_iff. apply role_eqb_neq. intros ->. rewrite String.eqb_refl in E. discriminate E.
    - apply filter_In. split; [apply G; assumption|]. apply negb_true_iff. apply role_eqb_neq. intros ->. rewrite S in T. discriminate T.
    - destruct q; cbn [apply] in H; try (apply G; assumption).
      + apply complete_holds in H; [| reflexivity | exact T]. apply complete_holds in H; [| reflexivity | exact T]. apply G; assumption.
      + apply complete_holds in H; [| reflexivity | exact T]. apply G; assumption.
    - apply put_holds in H. destruct H as [(f & b & E) | H]; [injection E as -> _ _; rewrite S in T; discriminate T | apply G; assumption].
    - apply put_holds in H. destruct H as [(f & b & E) | H]; [injection E as -> _ _; rewrite S in T; discriminate T | apply G; assumption].
  Qed.
  Lemma exec_failed : forall l d open past s r, (forall x, In x l -> tidy x) -> guarded r d open ->
    r_failed (exec place fails torn l d open past) = Some s -> temporary r = true -> s <> Create r \/ torn r = false ->
    ~ holds r (r_disk (exec place fails torn l d open past) (place r)).
  Proof.
    induction l as [|x l IH]; intros d open past s r L G F T N; [discriminate F|]. cbn [exec] in *. destruct (can_fail x && fails x).
    - cbn [r_failed r_disk] in *. injection F as ->. intros H.
      assert (D : forall y, holds r y -> y = None -> False) by (intros y (f & b & E) E'; rewrite E' in E; discriminate E).
      destruct (in_dec role_dec r open) as [I | I].
      { apply (D _ H). apply unwind_open; assumption. }
      assert (A : ~ holds r (apply_failed place torn s d (place r))).
      { intros A. assert (Tx := L s (or_introl eq_refl)). destruct s as [|a|a|a|i|q|a|a]; cbn [apply_failed tidy] in *; try (apply I, G; assumption).
        - apply put_holds in A. destruct A as [(f & b & E) | A]; [| apply I, G; assumption].
          destruct (torn a) eqn:Ta; [| discriminate E]. injection E as -> _ _. destruct N as [N | N]; [apply N; reflexivity | congruence].
        - apply put_holds in A. destruct A as [(f & b & E) | A]; [| apply I, G; assumption]. injection E as -> _ _. rewrite Tx in T. discriminate T.
        - apply put_holds in A. destruct A as [(f & b & E) | A]; [| apply I, G; assumption]. injection E as -> _ _. rewrite Tx in T. discriminate T. }
      revert A H. generalize (apply_failed place torn s d). clear. induction open as [|a o IH]; intros e A H; [exact (A H)|].
      unfold unwind in H. cbn [fold_left] in H. fold (unwind place o (if temporary a then put e (place a) None else e)) in H. revert H. apply IH.
      destruct (temporary a); [| exact A]. intros H. apply put_holds in H. destruct H as [(f & b & E) | H]; [discriminate E | exact (A H)].
    - apply IH with (s := s); auto.
      + intros y Hy. apply L. right. exact Hy.
      + apply guarded_apply; [exact T | apply L; left; reflexivity | exact G].
  Qed.

  Lemma exec_prefix : forall l d open past,
    let R := exec place fails torn l d open past in
    exists rest, (past ++ l = r_steps R ++ rest)%list /\ match r_failed R with None => rest = [] | Some s => exists t, rest = s :: t end.
  Proof.
    induction l as [|s l IH]; intros d open past R; subst R.
    - exists []. cbn. split; reflexivity.
    - cbn [exec]. destruct (can_fail s && fails s).
      + exists (s :: l). cbn. split; [reflexivity | exists l; reflexivity].
      + destruct (IH (apply place s d) (track s open) (past ++ [s])%list) as (rest & E & F). exists rest. rewrite <- app_assoc in E. split; assumption.
  Qed.

  (** without a failure the disk is that of all steps *)
  Lemma exec_done : forall l d open past, r_failed (exec place fails torn l d open past) = None ->
    r_disk (exec place fails torn l d open past) = fold_left (fun d s => apply place s d) l d.
  Proof.
    induction l as [|s l IH]; intros d open past F; [reflexivity|]. cbn [exec fold_left] in *. destruct (can_fail s && fails s); [discriminate F|].
    apply IH. exact F.
  Qed.
  (** what a step does to the file of one storage *)
  Definition eff (r : role) (x : option content) (s : step) : option content :=
    match s with
    | Create a => if role_eqb a r then Some (Holds r Image false) else x
    | Destroy a => if role_eqb a r then None else x
    | Serialize a => if role_eqb a r then Some (Holds r Archive true) else x
    | Save a => if role_eqb a r then Some (Holds r Text true) else x
    | Run Compress => match r, x with Graph, Some (Holds Graph Image _) => Some (Holds Graph Image true) | Tags, Some (Holds Tags Image _) => Some (Holds Tags Image true) | _, _ => x end
    | Run BuildIndices => match r, x with Index, Some (Holds Index Image _) => Some (Holds Index Image true) | _, _ => x end
    | _ => x
    end.
  Lemma complete_self : forall r d, complete place r d (place r)
    = match d (place r) with Some (Holds r' Image b) => if role_eqb r' r then Some (Holds r Image true) else Some (Holds r' Image b) | x => x end.
  Proof.
    intros r d. unfold complete. destruct (d (place r)) as [[r' [| |] b|n]|] eqn:E; try exact E.
    destruct (role_eqb r' r); [apply put_same | exact E].
  Qed.
  Lemma apply_eff : forall s d r, (forall a, In a (roles s) -> place a = place r -> a = r) -> apply place s d (place r) = eff r (d (place r)) s.
  Proof.
    intros s d r H.
    assert (N : forall a, In a (roles s) -> role_eqb a r = false -> place r <> place a).
    { intros a Ia Ea E. rewrite (H a Ia (eq_sym E)) in Ea. destruct r; discriminate Ea. }
    destruct s as [|a|a|a|i|q|a|a]; cbn [apply eff roles] in *; try reflexivity;
      try (destruct (role_eqb a r) eqn:E; [apply role_eqb_eq in E; subst a; apply put_same | apply put_other; apply N; [left; reflexivity | exact E]]).
    destruct q; cbn [roles] in *; try (destruct r; reflexivity).
    - destruct (role_eqb Graph r) eqn:EG; [apply role_eqb_eq in EG; subst r|].
      + rewrite complete_self.
        assert (O : complete place Tags d (place Graph) = d (place Graph)).
        { apply complete_other. apply N; [right; left; reflexivity | reflexivity]. }
        rewrite O. destruct (d (place Graph)) as [[r' [| |] b|n]|]; try reflexivity; destruct r'; reflexivity.
      + rewrite complete_other by (apply N; [left; reflexivity | exact EG]).
        destruct (role_eqb Tags r) eqn:ET; [apply role_eqb_eq in ET; subst r|].
        * rewrite complete_self. destruct (d (place Tags)) as [[r' [| |] b|n]|]; try reflexivity; destruct r'; reflexivity.
        * rewrite complete_other by (apply N; [right; left; reflexivity | exact ET]). destruct r; try reflexivity; discriminate.
    - destruct (role_eqb Index r) eqn:EI; [apply role_eqb_eq in EI; subst r|].
      + rewrite complete_self. destruct (d (place Index)) as [[r' [| |] b|n]|]; try reflexivity; destruct r'; reflexivity.
      + rewrite complete_other by (apply N; [left; reflexivity | exact EI]). destruct r; try reflexivity; discriminate.
  Qed.
  Lemma fold_eff : forall l d r, (forall s a, In s l -> In a (roles s) -> place a = place r -> a = r) ->
    fold_left (fun d s => apply place s d) l d (place r) = fold_left (eff r) l (d (place r)).
  Proof.
    induction l as [|s l IH]; intros d r H; [reflexivity|]. cbn [fold_left]. rewrite IH by (intros s' a Hs; apply H; right; exact Hs).
    rewrite apply_eff by (intros a; apply H; left; reflexivity). reflexivity.
  Qed.
  Lemma eff_on : forall r b l x, fold_left (eff r) (on b l) x = if b then fold_left (eff r) l x else x.
  Proof. intros r [|] l x; reflexivity. Qed.
End Effects.

Lemma in_on : forall b l s, In s (on b l) -> b = true /\ In s l.
Proof. intros [|] l s H; [split; [reflexivity | exact H] | destruct H]. Qed.
Lemma steps_used : forall m c s r, p_format c = str m "format" -> In s (prepare_steps m c) -> In r (roles s) -> used m c r = true.
Proof.
  intros m c s r PF H R. unfold prepare_steps, create, close, clean, simplify, serialize, serialize_one, export, save, execute_import, import_osm, create, close in H.
  rewrite PF in H.
  repeat match goal with
  | H : In _ (_ ++ _)%list |- _ => apply in_app_or in H; destruct H as [H | H]
  | H : In _ (on _ _) |- _ => apply in_on in H; let B := fresh "B" in destruct H as [B H]
  | H : In _ (if ?b then _ else _) |- _ => destruct b eqn:?
  | H : In _ [_] |- _ => destruct H as [<- | []]
  | H : In _ [] |- _ => destruct H
  end; cbn [roles temporary] in R;
  repeat match goal with
  | H : In _ (_ :: _) |- _ => destruct H as [<- | H]
  | H : In _ [] |- _ => destruct H
  end; cbn [used]; try reflexivity; try assumption; apply andb_true_intro; split; assumption || reflexivity.
Qed.
Lemma steps_tidy : forall m c s, In s (prepare_steps m c) -> tidy s.
Proof.
  intros m c s H. unfold prepare_steps, create, close, clean, simplify, serialize, serialize_one, export, save, execute_import, import_osm, create, close in H.
  repeat match goal with
  | H : In _ (_ ++ _)%list |- _ => apply in_app_or in H; destruct H as [H | H]
  | H : In _ (on _ _) |- _ => apply in_on in H; let B := fresh "B" in destruct H as [B H]
  | H : In _ (if ?b then _ else _) |- _ => destruct b eqn:?
  | H : In _ [_] |- _ => destruct H as [<- | []]
  | H : In _ [] |- _ => destruct H
  end; cbn [tidy temporary]; exact I || reflexivity.
Qed.
Lemma if_same : forall (A : Type) (b : bool) (x : A), (if b then x else x) = x.
Proof. intros A [|] x; reflexivity. Qed.
Lemma eff_if : forall r (b : bool) l l' x, fold_left (eff r) (if b then l else l') x = if b then fold_left (eff r) l x else fold_left (eff r) l' x.
Proof. intros r [|] l l' x; reflexivity. Qed.
Definition after (m : vm) (c : prepare_conf) (r : role) (x : option content) : option content :=
  if used m c r then (if temporary r then None else match r with Graph | Tags | Index => Some (Holds r (stored c r) true) | _ => Some (Holds r Text true) end) else x.
Lemma eff_import : forall m c r x, p_format c = str m "format" ->
  fold_left (eff r) (execute_import m c) x
  = match r with OsmTags | OsmVertices => if used m c r then None else x | _ => x end.
Proof.
  intros m c r x PF. unfold execute_import, import_osm, create, close. rewrite PF.
  destruct (String.eqb (str m "format") "osm") eqn:E.
  - rewrite !fold_left_app, !eff_on, !eff_if.
    destruct r; cbn [fold_left eff role_eqb temporary used]; rewrite ?if_same, ?E, ?andb_true_r; try reflexivity;
      destruct (mapped c _); reflexivity.
  - rewrite !eff_if. destruct r; cbn [fold_left eff used]; rewrite ?if_same, ?E, ?andb_false_r; reflexivity.
Qed.
Lemma eff_none : forall r l x, (forall s, In s l -> eff r x s = x) -> fold_left (eff r) l x = x.
Proof. induction l as [|s l IH]; intros x H; [reflexivity|]. cbn [fold_left]. rewrite (H s (or_introl eq_refl)). apply IH. intros s' I. apply H. right. exact I. Qed.
Definition front (m : vm) (c : prepare_conf) : list step := ([Directory] ++ create c TagsImport ++ create c GraphImport ++ execute_import m c ++ clean m c)%list.
Definition middle (c : prepare_conf) : list step :=
  (create c Tags ++ create c IndexBuild ++ create c Index ++ create c Graph ++ [Run Compress] ++ close c GraphImport ++ close c TagsImport ++ [Run BuildIndices] ++ serialize c)%list.
Definition back (m : vm) (c : prepare_conf) : list step := (export m ++ close c Index ++ close c IndexBuild ++ close c Graph ++ close c Tags)%list.
Lemma steps_split : forall m c, prepare_steps m c = (front m c ++ middle c ++ back m c)%list.
Proof. intros. unfold prepare_steps, front, middle, back. rewrite <- !app_assoc. reflexivity. Qed.
Lemma eff_front : forall m c r x, p_format c = str m "format" ->
  fold_left (eff r) (front m c) x = match r with
    | OsmTags | OsmVertices => if used m c r then None else x
    | TagsImport | GraphImport => if mapped c r then Some (Holds r Image false) else x
    | _ => x end.
Proof.
  intros m c r x PF. unfold front, create, clean, simplify. rewrite !fold_left_app, !eff_on, eff_import by exact PF.
  destruct r; cbn [fold_left eff role_eqb]; rewrite ?if_same; reflexivity.
Qed.
Lemma eff_middle : forall c r x,
  fold_left (eff r) (middle c) x = match r with
    | Graph | Tags | Index => Some (Holds r (stored c r) true)
    | IndexBuild => if mapped c r then Some (Holds r Image false) else x
    | TagsImport | GraphImport => if mapped c r then None else x
    | _ => x end.
Proof.
  intros c r x. unfold middle, create, close, serialize, serialize_one, stored.
  destruct r; destruct (mapped c Tags), (mapped c Index), (mapped c Graph), (mapped c IndexBuild), (mapped c GraphImport), (mapped c TagsImport); reflexivity.
Qed.
Lemma eff_back : forall m c r x,
  fold_left (eff r) (back m c) x = match r with
    | IndexBuild => if mapped c r then None else x
    | NodesFile | EdgesFile | OsmFile => if used m c r then Some (Holds r Text true) else x
    | _ => x end.
Proof.
  intros m c r x. unfold back, export, save, close. rewrite !fold_left_app, !eff_on.
  destruct r; cbn [fold_left eff role_eqb temporary used]; rewrite ?if_same; reflexivity.
Qed.
Lemma eff_steps : forall m c r x, p_format c = str m "format" -> fold_left (eff r) (prepare_steps m c) x = after m c r x.
Proof.
  intros m c r x PF. rewrite steps_split, !fold_left_app, eff_back, eff_middle, eff_front by exact PF. unfold after.
  destruct r; cbn [used temporary]; try reflexivity; destruct (mapped c _); reflexivity.
Qed.

Lemma exec_last place fails torn : forall l d open past s, r_failed (exec place fails torn l d open past) = Some s ->
  exists done rest, l = (done ++ s :: rest)%list /\ r_steps (exec place fails torn l d open past) = (past ++ done)%list /\ can_fail s = true /\ fails s = true
    /\ r_disk (exec place fails torn l d open past) = unwind place (fold_left (fun o x => track x o) done open) (apply_failed place torn s (fold_left (fun d x => apply place x d) done d)).
Proof.
  induction l as [|x l IH]; intros d open past s F; [discriminate F|]. cbn [exec] in *. destruct (can_fail x && fails x) eqn:E.
  - cbn [r_failed r_disk r_steps] in *. injection F as ->. apply andb_prop in E. exists [], l. rewrite app_nil_r. cbn. intuition.
  - destruct (IH _ _ _ _ F) as (done & rest & E1 & E2 & E3 & E4 & E5). exists (x :: done), rest. rewrite E1, E2 in *. rewrite <- app_assoc. cbn [app fold_left]. repeat split; assumption.
Qed.
Lemma opened_created : forall l open x, In x (fold_left (fun o y => track y o) l open) -> In x open \/ In (Create x) l.
Proof.
  induction l as [|y l IH]; intros open x H; [left; exact H|]. cbn [fold_left] in H. destruct (IH _ _ H) as [K|K]; [|right; right; exact K].
  destruct y as [|a|a|a|i|q|a|a]; cbn [track] in K; try (left; exact K).
  - destruct K as [->|K]; [right; left; reflexivity|left; exact K].
  - apply filter_In in K. left. apply K.
  - apply filter_In in K. left. apply K.
Qed.
Lemma unwind_some place : forall open d p x, unwind place open d p = Some x -> d p = Some x.
Proof.
  intros open d p x H. destruct (d p) as [y|] eqn:E; [|rewrite (unwind_none place open d p E) in H; discriminate H].
  revert d E H. induction open as [|r l IH]; intros d E H; [unfold unwind in H; cbn in H; congruence|].
  unfold unwind in H. cbn [fold_left] in H. fold (unwind place l (if temporary r then put d (place r) None else d)) in H.
  destruct (temporary r); [|exact (IH d E H)]. destruct (String.eqb p (place r)) eqn:Q.
  - apply String.eqb_eq in Q. subst p. rewrite (unwind_none place l (put d (place r) None) (place r) (put_same _ _ _)) in H. discriminate H.
  - apply (IH (put d (place r) None)); [|exact H]. rewrite put_other by (apply String.eqb_neq; exact Q). exact E.
Qed.
Definition makes (r : role) (s : step) : bool := match s with Create a => role_eqb a r | _ => false end.
Lemma filter_on' (f : step -> bool) b l : filter f (on b l) = on b (filter f l).
Proof. destruct b; reflexivity. Qed.
Lemma filter_if (f : step -> bool) (b : bool) l l' : filter f (if b then l else l') = if b then filter f l else filter f l'.
Proof. destruct b; reflexivity. Qed.
Lemma creates_once m c r done rest : prepare_steps m c = (done ++ Create r :: rest)%list -> In (Create r) done -> False.
Proof.
  intros E I.
  assert (L : (length (filter (makes r) (prepare_steps m c)) <= 1)%nat).
  { unfold prepare_steps, create, close, clean, simplify, serialize, serialize_one, export, save, execute_import, import_osm, create, close.
    repeat (rewrite ?filter_app, ?filter_on', ?filter_if). destruct r; cbn [filter makes role_eqb temporary];
    rewrite ?on_nil, ?if_same; cbn [app]; rewrite ?on_nil, ?if_same, ?app_nil_r; cbn [app length]; rewrite ?on_nil, ?if_same, ?app_nil_r; cbn [app length];
    repeat match goal with |- context[if ?b then _ else _] => destruct b end; unfold on; repeat match goal with |- context[if ?b then _ else _] => destruct b end; cbn [app length]; lia. }
  rewrite E, filter_app in L. cbn [filter makes] in L. assert (R : role_eqb r r = true) by (destruct r; reflexivity). rewrite R in L. rewrite app_length in L. cbn [length] in L.
  assert (K : In (Create r) (filter (makes r) done)) by (apply filter_In; split; [exact I|exact R]).
  destruct (filter (makes r) done); [destruct K|cbn [length] in L; lia].
Qed.
Lemma written_closed m c r : In (Create r) (prepare_steps m c) -> In (Serialize r) (prepare_steps m c) \/ In (Save r) (prepare_steps m c) -> False.
Proof.
  intros H K.
  assert (H1 : mapped c r = true /\ In r [Graph; Tags; Index; GraphImport; TagsImport; IndexBuild; OsmVertices; OsmTags]).
  { clear K. unfold prepare_steps, create, close, clean, simplify, serialize, serialize_one, export, save, execute_import, import_osm, create, close in H.
    repeat match goal with
    | H : In _ (_ ++ _)%list |- _ => apply in_app_or in H; destruct H as [H | H]
    | H : In _ (on _ _) |- _ => apply in_on in H; let B := fresh "B" in destruct H as [B H]
    | H : In _ (if ?b then _ else _) |- _ => destruct b eqn:?
    | H : In _ [_] |- _ => destruct H as [H | []]
    | H : In _ [] |- _ => destruct H
    end; cbn [temporary] in H; try discriminate H; injection H as <-; split; try assumption; cbn; tauto. }
  assert (H2 : mapped c r = false \/ In r [NodesFile; EdgesFile; OsmFile]).
  { clear H H1. destruct K as [H|H]; unfold prepare_steps, create, close, clean, simplify, serialize, serialize_one, export, save, execute_import, import_osm, create, close in H;
    repeat match goal with
    | H : In _ (_ ++ _)%list |- _ => apply in_app_or in H; destruct H as [H | H]
    | H : In _ (on _ _) |- _ => apply in_on in H; let B := fresh "B" in destruct H as [B H]
    | H : In _ (if ?b then _ else _) |- _ => destruct b eqn:?
    | H : In _ [_] |- _ => destruct H as [H | []]
    | H : In _ [] |- _ => destruct H
    end; cbn [temporary] in H; try discriminate H; injection H as <-; try (left; apply negb_true_iff; assumption); right; cbn; tauto. }
  destruct H1 as [H1 H3]. destruct H2 as [H2|H2]; [congruence|]. cbn in H2, H3.
  repeat match goal with H : _ \/ _ |- _ => destruct H as [<- | H] end; try contradiction; repeat match goal with H : _ \/ _ |- _ => destruct H as [H | H] end; try discriminate; contradiction.
Qed.
Lemma eff_complete r f : forall l x, fold_left (eff r) l x = Some (Holds r f true) ->
  x = Some (Holds r f true) \/ In (match f with Image => Run (match r with Index => BuildIndices | _ => Compress end) | Archive => Serialize r | Text => Save r end) l.
Proof.
  induction l as [|s l IH]; intros x H; [left; exact H|]. cbn [fold_left] in H. destruct (IH _ H) as [K|K]; [|right; right; exact K]. clear H IH.
  destruct s as [|a|a|a|i|q|a|a]; cbn [eff] in K; try (left; exact K).
  - destruct (role_eqb a r); [discriminate K|left; exact K].
  - destruct (role_eqb a r); [discriminate K|left; exact K].
  - destruct q; try (left; exact K).
    + destruct r; try (left; exact K); destruct x as [[r' [| |] b|n]|]; try (left; exact K); destruct r'; try (left; exact K); injection K as <-; right; left; reflexivity.
    + destruct r; try (left; exact K); destruct x as [[r' [| |] b|n]|]; try (left; exact K); destruct r'; try (left; exact K); injection K as <-; right; left; reflexivity.
  - destruct (role_eqb a r) eqn:E; [|left; exact K]. apply role_eqb_eq in E. subst a. injection K as <-. right. left. reflexivity.
  - destruct (role_eqb a r) eqn:E; [|left; exact K]. apply role_eqb_eq in E. subst a. injection K as <-. right. left. reflexivity.
Qed.

Section Main.
  Variables (is_directory filter_pattern : string -> bool) (latlong : Z -> option bool).
  Variables (place : role -> string) (fails : step -> bool) (torn : role -> bool) (exists_file : string -> bool).
  Notation accepted m c := (prepare_correct filter_pattern latlong m = Some c).

  (** a preparation that ends has written the three files of the network and the exports that were asked for, removed its temporary files, and left
      all others alone - if its files are different files *)
  Theorem C89_files : forall m c d R, accepted m c ->
    (forall a b, used m c a = true -> used m c b = true -> place a = place b -> a = b) ->
    prepare place fails torn exists_file m c d = Some R -> r_failed R = None ->
    (forall r, In r [Graph; Tags; Index] -> r_disk R (place r) = Some (Holds r (if mapped c r then Image else Archive) true))
    /\ (forall r, In r [NodesFile; EdgesFile; OsmFile] -> name m r <> "" -> r_disk R (place r) = Some (Holds r Text true))
    /\ (forall r, temporary r = true -> used m c r = true -> r_disk R (place r) = None)
    /\ (forall p, (forall r, used m c r = true -> p <> place r) -> r_disk R p = d p).
  Proof.
    intros m c d R A D H F. apply prepare_correct_inv in A. destruct A as (_ & PF & _).
    unfold prepare in H. destruct (forallb exists_file (strs m "file")); [| discriminate H].
    assert (HR : R = exec place fails torn (prepare_steps m c) d [] []) by congruence. clear H. subst R.
    rewrite exec_done by exact F.
    assert (E : forall r, used m c r = true -> fold_left (fun d s => apply place s d) (prepare_steps m c) d (place r) = after m c r (d (place r))).
    { intros r U. rewrite fold_eff; [apply eff_steps; exact PF|]. intros s a Hs Ha. apply D; [| exact U]. apply (steps_used m c s a PF Hs Ha). }
    repeat split.
    - intros r [<- | [<- | [<- | []]]]; rewrite E by reflexivity; reflexivity.
    - intros r [<- | [<- | [<- | []]]] N; (assert (U : negb (String.eqb (name m _) "") = true) by (apply negb_true_iff, String.eqb_neq; exact N));
        rewrite E by exact U; unfold after; cbn [used]; rewrite U; reflexivity.
    - intros r T U. rewrite E by exact U. unfold after. rewrite U, T. reflexivity.
    - intros p N. rewrite <- (exec_done place fails torn (prepare_steps m c) d [] []) by exact F. apply exec_other; [| intros r []].
      intros s r Hs Hr. apply N. apply (steps_used m c s r PF Hs Hr).
  Qed.
  (** also when a step throws, other files are left alone; the steps before it were taken, none behind it *)
  Theorem C89_steps : forall m c d R, accepted m c -> prepare place fails torn exists_file m c d = Some R ->
    (forall p, (forall r, used m c r = true -> p <> place r) -> r_disk R p = d p)
    /\ exists rest, prepare_steps m c = (r_steps R ++ rest)%list /\ match r_failed R with None => rest = [] | Some s => exists t, rest = s :: t end.
  Proof.
    intros m c d R A H. apply prepare_correct_inv in A. destruct A as (_ & PF & _).
    unfold prepare in H. destruct (forallb exists_file (strs m "file")); [| discriminate H].
    assert (HR : R = exec place fails torn (prepare_steps m c) d [] []) by congruence. clear H. subst R. split.
    - intros p N. apply exec_other; [| intros r []]. intros s r Hs Hr. apply N. apply (steps_used m c s r PF Hs Hr).
    - exact (exec_prefix place fails torn (prepare_steps m c) d [] []).
  Qed.
  (** *** storages are there when they are needed *)
  Definition of_osm (i : importer) : bool := match i with OsmCar | OsmManual => true | _ => false end.
  (** the storages that a step reads or changes *)
  Definition needs (s : step) (r : role) : bool :=
    match s, r with
    | Import _, (TagsImport | GraphImport) => true
    | Import i, (OsmTags | OsmVertices) => of_osm i
    | Run (Simplify | Unconnected | DuplicateNodes | DuplicateEdges), (TagsImport | GraphImport) => true
    | Run Compress, (TagsImport | GraphImport | Graph | Tags | IndexBuild) => true
    | Run BuildIndices, (Graph | Tags | IndexBuild | Index) => true
    | Save _, (Graph | Tags) => true
    | _, _ => false
    end.
  Definition free (r : role) (l : list step) : Prop := forall s, In s l -> needs s r = false.
  Lemma free_app r a b : free r a -> free r b -> free r (a ++ b)%list.
  Proof. intros A B s I. apply in_app_or in I. destruct I; auto. Qed.
  Lemma free_on r b l : free r l -> free r (on b l).
  Proof. intros A. destruct b; auto. intros s []. Qed.
  Lemma free_one r s : needs s r = false -> free r [s].
  Proof. intros N x [<-|[]]. exact N. Qed.
  Lemma free_create c r a : free r (create c a).
  Proof. apply free_on, free_one. reflexivity. Qed.
  Lemma free_close c r a : free r (close c a).
  Proof. apply free_on, free_one. destruct (temporary a); reflexivity. Qed.
  Ltac free_tac := repeat first [apply free_create | apply free_close | apply free_app | apply free_on | apply free_one; reflexivity | (intros ? [])].

  (** a memory mapped storage is created once, and between that and its closing lie all steps that need it *)
  Theorem C89_between : forall m c r, accepted m c -> mapped c r = true -> used m c r = true ->
    exists a b e, prepare_steps m c = (a ++ Create r :: b ++ (if temporary r then Destroy r else Keep r) :: e)%list
      /\ ~ In (Create r) a /\ ~ In (Create r) (b ++ e)%list /\ forall s, In s (prepare_steps m c) -> needs s r = true -> In s b.
  Proof.
    intros m c r A M U.
    assert (C : forall a b e, prepare_steps m c = (a ++ create c r ++ b ++ close c r ++ e)%list -> free r a -> free r e ->
      exists a b e, prepare_steps m c = (a ++ Create r :: b ++ (if temporary r then Destroy r else Keep r) :: e)%list
      /\ ~ In (Create r) a /\ ~ In (Create r) (b ++ e)%list /\ forall s, In s (prepare_steps m c) -> needs s r = true -> In s b).
    { intros a b e E Fa Fe. unfold create, close in E. rewrite M in E. cbn [on app] in E. exists a, b, e. split; [exact E|].
      split; [exact (creates_once m c r _ _ E)|]. split.
      - intros I. assert (I2 : In (Create r) (b ++ (if temporary r then Destroy r else Keep r) :: e)%list).
        { apply in_app_or in I. apply in_or_app. destruct I; [left|right; right]; assumption. }
        apply in_split in I2. destruct I2 as (x & y & I2). rewrite I2 in E.
        apply (creates_once m c r (a ++ Create r :: x) y); [rewrite E, <- app_assoc; reflexivity|apply in_or_app; right; left; reflexivity].
      - intros s I N. rewrite E in I. apply in_app_or in I. destruct I as [I|[<-|I]]; [rewrite (Fa s I) in N; discriminate N|destruct r; discriminate N|].
        apply in_app_or in I. destruct I as [I|[<-|I]]; [exact I|destruct r; discriminate N|rewrite (Fe s I) in N; discriminate N]. }
    apply prepare_correct_inv in A. destruct A as (_ & PF & _).
    destruct r; try (unfold mapped in M; destruct (p_mapped c) as [[? ?] ?], (p_temporary c) as [[[[? ?] ?] ?] ?]; discriminate M).
    - apply (C ([Directory] ++ create c TagsImport ++ create c GraphImport ++ execute_import m c ++ clean m c ++ create c Tags ++ create c IndexBuild ++ create c Index)%list
        ([Run Compress] ++ close c GraphImport ++ close c TagsImport ++ [Run BuildIndices] ++ serialize c ++ export m ++ close c Index ++ close c IndexBuild)%list (close c Tags)).
      + unfold prepare_steps. rewrite <- !app_assoc. reflexivity.
      + unfold execute_import, import_osm, clean, simplify. repeat match goal with |- context [if ?b then _ else _] => destruct b end; free_tac.
      + free_tac.
    - apply (C ([Directory] ++ create c TagsImport ++ create c GraphImport ++ execute_import m c ++ clean m c)%list
        (create c IndexBuild ++ create c Index ++ create c Graph ++ [Run Compress] ++ close c GraphImport ++ close c TagsImport ++ [Run BuildIndices] ++ serialize c ++ export m ++ close c Index ++ close c IndexBuild ++ close c Graph)%list []).
      + unfold prepare_steps. rewrite <- !app_assoc, app_nil_r. reflexivity.
      + unfold execute_import, import_osm, clean, simplify. repeat match goal with |- context [if ?b then _ else _] => destruct b end; free_tac.
      + free_tac.
    - apply (C ([Directory] ++ create c TagsImport ++ create c GraphImport ++ execute_import m c ++ clean m c ++ create c Tags ++ create c IndexBuild)%list
        (create c Graph ++ [Run Compress] ++ close c GraphImport ++ close c TagsImport ++ [Run BuildIndices] ++ serialize c ++ export m)%list (close c IndexBuild ++ close c Graph ++ close c Tags)%list).
      + unfold prepare_steps. rewrite <- !app_assoc. reflexivity.
      + unfold execute_import, import_osm, clean, simplify. repeat match goal with |- context [if ?b then _ else _] => destruct b end; free_tac.
      + free_tac.
    - apply (C ([Directory] ++ create c TagsImport)%list
        (execute_import m c ++ clean m c ++ create c Tags ++ create c IndexBuild ++ create c Index ++ create c Graph ++ [Run Compress])%list
        (close c TagsImport ++ [Run BuildIndices] ++ serialize c ++ export m ++ close c Index ++ close c IndexBuild ++ close c Graph ++ close c Tags)%list).
      + unfold prepare_steps. rewrite <- !app_assoc. reflexivity.
      + free_tac.
      + unfold serialize, serialize_one, export, save. free_tac.
    - apply (C [Directory]
        (create c GraphImport ++ execute_import m c ++ clean m c ++ create c Tags ++ create c IndexBuild ++ create c Index ++ create c Graph ++ [Run Compress] ++ close c GraphImport)%list
        ([Run BuildIndices] ++ serialize c ++ export m ++ close c Index ++ close c IndexBuild ++ close c Graph ++ close c Tags)%list).
      + unfold prepare_steps. rewrite <- !app_assoc. reflexivity.
      + free_tac.
      + unfold serialize, serialize_one, export, save. free_tac.
    - apply (C ([Directory] ++ create c TagsImport ++ create c GraphImport ++ execute_import m c ++ clean m c ++ create c Tags)%list
        (create c Index ++ create c Graph ++ [Run Compress] ++ close c GraphImport ++ close c TagsImport ++ [Run BuildIndices] ++ serialize c ++ export m ++ close c Index)%list (close c Graph ++ close c Tags)%list).
      + unfold prepare_steps. rewrite <- !app_assoc. reflexivity.
      + unfold execute_import, import_osm, clean, simplify. repeat match goal with |- context [if ?b then _ else _] => destruct b end; free_tac.
      + free_tac.
    - cbn [used] in U. rewrite M in U. cbn [andb] in U. rewrite <- PF in U.
      apply (C ([Directory] ++ create c TagsImport ++ create c GraphImport ++ create c OsmTags)%list
        ((if String.eqb (str m "osm-profile") "car" then [Import OsmCar] else if String.eqb (str m "osm-profile") "manual" then [Import OsmManual] else []) ++ close c OsmTags)%list
        (clean m c ++ create c Tags ++ create c IndexBuild ++ create c Index ++ create c Graph
         ++ [Run Compress] ++ close c GraphImport ++ close c TagsImport ++ [Run BuildIndices] ++ serialize c ++ export m ++ close c Index ++ close c IndexBuild ++ close c Graph ++ close c Tags)%list).
      + unfold prepare_steps, execute_import. rewrite U. unfold import_osm. rewrite <- !app_assoc. reflexivity.
      + free_tac.
      + unfold clean, simplify, serialize, serialize_one, export, save. free_tac.
    - cbn [used] in U. rewrite M in U. cbn [andb] in U. rewrite <- PF in U.
      apply (C ([Directory] ++ create c TagsImport ++ create c GraphImport)%list
        (create c OsmVertices ++ (if String.eqb (str m "osm-profile") "car" then [Import OsmCar] else if String.eqb (str m "osm-profile") "manual" then [Import OsmManual] else []))%list
        (close c OsmVertices ++ clean m c ++ create c Tags ++ create c IndexBuild ++ create c Index ++ create c Graph
         ++ [Run Compress] ++ close c GraphImport ++ close c TagsImport ++ [Run BuildIndices] ++ serialize c ++ export m ++ close c Index ++ close c IndexBuild ++ close c Graph ++ close c Tags)%list).
      + unfold prepare_steps, execute_import. rewrite U. unfold import_osm. rewrite <- !app_assoc. reflexivity.
      + free_tac.
      + unfold clean, simplify, serialize, serialize_one, export, save. free_tac.
  Qed.
  (** nothing is created if a file is missing *)
  Theorem C89_missing : forall m c d f, In f (strs m "file") -> exists_file f = false -> prepare place fails torn exists_file m c d = None.
  Proof.
    intros m c d f I E. unfold prepare. destruct (forallb exists_file (strs m "file")) eqn:A; [| reflexivity].
    rewrite forallb_forall in A. rewrite (A f I) in E. discriminate E.
  Qed.
  (** what a preparation that threw has left: it was no destructor; the file that was being made is there in part or not at all, and says so; and a file
      of the network that is complete was so before, or the step that completes it was taken *)
  Theorem C89_broken : forall m c d R s, accepted m c ->
    (forall a b, used m c a = true -> used m c b = true -> place a = place b -> a = b) ->
    prepare place fails torn exists_file m c d = Some R -> r_failed R = Some s ->
    fails s = true /\ (forall r, s <> Destroy r /\ s <> Keep r)
    /\ (forall r, s = Create r -> r_disk R (place r) = if torn r then Some (Holds r Image false) else None)
    /\ (forall r, s = Serialize r -> r_disk R (place r) = Some (Holds r Archive false))
    /\ (forall r, s = Save r -> r_disk R (place r) = Some (Holds r Text false))
    /\ (forall r f, used m c r = true -> r_disk R (place r) = Some (Holds r f true) ->
          d (place r) = Some (Holds r f true) \/ In (match f with Image => Run (match r with Index => BuildIndices | _ => Compress end) | Archive => Serialize r | Text => Save r end) (r_steps R)).
  Proof.
    intros m c d R s A D H F. apply prepare_correct_inv in A. destruct A as (_ & PF & _).
    unfold prepare in H. destruct (forallb exists_file (strs m "file")); [| discriminate H].
    assert (HR : R = exec place fails torn (prepare_steps m c) d [] []) by congruence. clear H. subst R.
    destruct (exec_last place fails torn (prepare_steps m c) d [] [] s F) as (done & rest & E & ES & CF & FS & ED). cbn [app] in ES.
    assert (U : forall x r, In x (done ++ s :: rest)%list -> In r (roles x) -> used m c r = true) by (intros x r Hx Hr; rewrite <- E in Hx; exact (steps_used m c x r PF Hx Hr)).
    assert (O : forall x, In x (fold_left (fun o y => track y o) done []) -> In (Create x) done) by (intros x Hx; destruct (opened_created done [] x Hx) as [[]|K]; exact K).
    assert (S0 : In s (done ++ s :: rest)%list) by (apply in_or_app; right; left; reflexivity).
    assert (T : forall r, used m c r = true -> ~ In (Create r) done -> r_disk (exec place fails torn (prepare_steps m c) d [] []) (place r) = apply_failed place torn s (fold_left (fun d s => apply place s d) done d) (place r)).
    { intros r Ur N. rewrite ED. apply unwind_other. intros x Hx Ex. apply O in Hx. apply N. rewrite (D r x Ur); [exact Hx| |exact Ex]. apply (U (Create x) x); [apply in_or_app; left; exact Hx|left; reflexivity]. }
    split; [exact FS|]. split; [intros r; split; intros ->; discriminate CF|].
    split; [|split; [|split]].
    - intros r ->. rewrite T; [cbn [apply_failed]; apply put_same|apply (U (Create r)); [exact S0|left; reflexivity]|].
      intros I. apply (creates_once m c r done rest E I).
    - intros r ->. rewrite T; [cbn [apply_failed]; apply put_same|apply (U (Serialize r)); [exact S0|left; reflexivity]|].
      intros I. apply (written_closed m c r); rewrite E; [apply in_or_app; left; exact I|left; exact S0].
    - intros r ->. rewrite T; [cbn [apply_failed]; apply put_same|apply (U (Save r)); [exact S0|left; reflexivity]|].
      intros I. apply (written_closed m c r); rewrite E; [apply in_or_app; left; exact I|right; exact S0].
    - intros r f Ur Hr. rewrite ED in Hr. apply unwind_some in Hr. rewrite ES.
      assert (K : fold_left (fun d s => apply place s d) done d (place r) = Some (Holds r f true)).
      { destruct (in_dec role_dec r (roles s)) as [I|I]; [|rewrite apply_failed_other in Hr; [exact Hr|]].
        - destruct s as [|a|a|a|i|q|a|a]; cbn [apply_failed] in Hr; try exact Hr; cbn [roles] in I; destruct I as [->|[]]; rewrite put_same in Hr; try discriminate Hr. destruct (torn r); discriminate Hr.
        - intros a Ia Ea. apply I. rewrite (D r a Ur (U s a S0 Ia) Ea). exact Ia. }
      rewrite fold_eff in K by (intros x a Hx Ia Ea; apply (D a r); [apply (U x); [apply in_or_app; left; exact Hx|exact Ia]|exact Ur|exact Ea]).
      exact (eff_complete r f done _ K).
  Qed.
  (** whatever throws, no temporary file is left, but for one whose own creation failed half way *)
  Theorem C89_failure : forall m c d R s r, prepare place fails torn exists_file m c d = Some R -> r_failed R = Some s -> temporary r = true ->
    (forall f b, d (place r) <> Some (Holds r f b)) ->
    s <> Create r \/ torn r = false -> forall f b, r_disk R (place r) <> Some (Holds r f b).
  Proof.
    intros m c d R s r H F T O N f b E. unfold prepare in H. destruct (forallb exists_file (strs m "file")); [| discriminate H].
    assert (HR : R = exec place fails torn (prepare_steps m c) d [] []) by congruence. clear H. subst R.
    apply (exec_failed place fails torn (prepare_steps m c) d [] [] s r); auto.
    - intros x. apply steps_tidy.
    - intros (f' & b' & Ex). exfalso. apply (O f' b'); assumption.
    - exists f, b. exact E.
  Qed.

  (** *** match *)
  Lemma match_correct_inv : forall m c, match_correct is_directory latlong m = Some c ->
    tracks_correct m (strs m "tracks") (str m "tracks-file-type") = Ok (c_type c) /\ c_mapped c = memory_correct m.
  Proof.
    intros m c H. unfold match_correct in H.
    destruct (mode_correct m) as [[v md]| | |]; try discriminate H.
    destruct (is_directory (str m "input")); [| discriminate H].
    destruct (srs_correct latlong m "network-"); try discriminate H.
    destruct (files_correct m); [| discriminate H].
    destruct (tracks_correct m (strs m "tracks") (str m "tracks-file-type")) as [ty| | |] eqn:E; try discriminate H.
    destruct (srs_transform_correct latlong m "tracks-"); try discriminate H.
    destruct (mem (str m "candidate-search") searches && mem (str m "model") models && state_size_ok m); [| discriminate H].
    injection H as <-. split; [reflexivity | reflexivity].
  Qed.
  Definition is_read (s : mstep) : bool := match s with MRead _ _ => true | _ => false end.
  Definition reader_word (r : reader) : option string :=
    match r with ReadLine => None | ReadCsv => Some "csv" | ReadGpx => Some "gpx" | ReadEdgeList => Some "list" | ReadSeattle => Some "seattle" end.
  (** the option read-line is a switch, it always has a value: C78 *)
  Theorem C89_reader : forall m c, match_correct is_directory latlong m = Some c -> is_empty (m "read-line") = false ->
    exists r fs, filter is_read (match_steps m c) = [MRead r fs]
      /\ reader_word r = (if flag m "read-line" then None else Some (c_type c)).
  Proof.
    intros m c H E. apply match_correct_inv in H. destruct H as [H _].
    assert (X : filter is_read (match_steps m c) = filter is_read (read_tracks m c)).
    { unfold match_steps, open_one, load_one, when.
      destruct (flag m "console"), (m_mapped c Tags), (m_mapped c Index), (m_mapped c Graph); cbn [negb orb app filter is_read]; rewrite filter_app; cbn [filter is_read]; apply app_nil_r. }
    rewrite X. unfold read_tracks. destruct (flag m "read-line") eqn:RL; [exists ReadLine, []; split; reflexivity|].
    unfold tracks_correct in H. rewrite E, RL in H. cbn [negb andb] in H. destruct (strs m "tracks") as [|f fs]; [discriminate H|].
    match type of H with bindO ?x _ _ = _ => destruct x as [e| | |]; try discriminate H end. cbn [bindO] in H.
    destruct (mem (lower e) file_types) eqn:M; [| discriminate H]. injection H as <-. unfold file_types, mem in M.
    destruct (String.eqb (lower e) "csv") eqn:E1; [apply String.eqb_eq in E1; exists ReadCsv; eexists; split; [reflexivity | rewrite E1; reflexivity]|].
    destruct (String.eqb (lower e) "gpx") eqn:E2; [apply String.eqb_eq in E2; exists ReadGpx; eexists; split; [reflexivity | rewrite E2; reflexivity]|].
    destruct (String.eqb (lower e) "list") eqn:E3; [apply String.eqb_eq in E3; exists ReadEdgeList; eexists; split; [reflexivity | rewrite E3; reflexivity]|].
    destruct (String.eqb (lower e) "seattle") eqn:E4; [| discriminate M].
    apply String.eqb_eq in E4; exists ReadSeattle; eexists; split; [reflexivity | rewrite E4; reflexivity].
  Qed.
  Definition wants (s : mstep) : list (role * form) := match s with MOpen r => [(r, Image)] | MLoad r => [(r, Archive)] | _ => [] end.
  (** each of the three files is either mapped or loaded, once, before the matcher starts *)
  Theorem C89_opens_each : forall m c, exists before rest, match_steps m c = (before ++ MStart (output_file m :: candidates_file m) :: rest)%list
    /\ flat_map wants rest = [] /\ forall r, In r [Graph; Tags; Index] ->
       filter (fun x => role_eqb (fst x) r) (flat_map wants before) = [(r, if m_mapped c r then Image else Archive)].
  Proof.
    intros m c.
    exists (when (negb (flag m "console")) [MDirectory]
    ++ open_one c Tags ++ open_one c Index ++ open_one c Graph
    ++ when (negb (m_mapped c Tags) || negb (m_mapped c Index) || negb (m_mapped c Graph)) (load_one c Tags ++ load_one c Index ++ load_one c Graph))%list.
    exists (read_tracks m c ++ [MStop; MJoin])%list. split; [unfold match_steps; rewrite <- !app_assoc; reflexivity|]. split.
    - rewrite flat_map_app. unfold read_tracks. destruct (flag m "read-line"); [reflexivity|].
      destruct (String.eqb (c_type c) "csv"), (String.eqb (c_type c) "gpx"), (String.eqb (c_type c) "list"), (String.eqb (c_type c) "seattle"); reflexivity.
    - unfold open_one, load_one, when.
      intros r [<- | [<- | [<- | []]]]; destruct (flag m "console"), (m_mapped c Tags), (m_mapped c Index), (m_mapped c Graph); reflexivity.
  Qed.
  (** the files written: the matches, and the candidates when they are asked for, both below the output folder *)
  Theorem C89_writes : forall m conf a f l, str m "output" = String a f -> In (MStart l) (match_steps m conf) ->
    l = (String a f ++ "/" ++ str m "filename")%string ::
        match str m "candidates" with EmptyString => [] | k => [(String a f ++ "/" ++ k)%string] end.
  Proof.
    intros m conf a f l O I.
    assert (forall x, In x (match_steps m conf) -> match x with MStart y => y = output_file m :: candidates_file m | _ => True end) as A.
    { unfold match_steps, open_one, load_one, when, read_tracks. intros x Hx.
      repeat match type of Hx with context[if ?t then _ else _] => destruct t end; cbn in Hx;
        repeat match type of Hx with _ \/ _ => destruct Hx as [Hx|Hx] end; try contradiction; subst x; auto. }
    specialize (A _ I). cbn in A. subst l.
    unfold output_file, candidates_file, join_path. rewrite O. destruct (str m "candidates"); reflexivity.
  Qed.
  (** matching finds what a preparation with the same names and the same memory options wrote, complete and in the form it reads *)
  Theorem C89_finds : forall m c d R m' c', accepted m c ->
    (forall a b, used m c a = true -> used m c b = true -> place a = place b -> a = b) ->
    prepare place fails torn exists_file m c d = Some R -> r_failed R = None ->
    match_correct is_directory latlong m' = Some c' -> memory_correct m' = memory_correct m ->
    forall r f, In (r, f) (flat_map wants (match_steps m' c')) -> r_disk R (place r) = Some (Holds r f true).
  Proof.
    intros m c d R m' c' A D H F A' E r f I. pose proof A as A0. apply prepare_correct_inv in A0. destruct A0 as (_ & _ & _ & _ & _ & _ & _ & PM & _).
    apply match_correct_inv in A'. destruct A' as [_ CM].
    destruct (C89_files m c d R A D H F) as (W & _).
    assert (X : forall x, In x [Graph; Tags; Index] -> m_mapped c' x = mapped c x).
    { intros x Ix. unfold m_mapped, mapped. rewrite CM, E, <- PM. destruct (p_mapped c) as [[g i] t]. destruct (p_temporary c) as [[[[gi ti] ib] ov] ot].
      destruct Ix as [<- | [<- | [<- | []]]]; reflexivity. }
    destruct (C89_opens_each m' c') as (before & rest & S & Z & W').
    assert (Ir : In r [Graph; Tags; Index]).
    { clear -I. unfold match_steps, open_one, load_one, when, read_tracks in I.
      destruct (flag m' "console"), (m_mapped c' Tags), (m_mapped c' Index), (m_mapped c' Graph), (flag m' "read-line"),
        (String.eqb (c_type c') "csv"), (String.eqb (c_type c') "gpx"), (String.eqb (c_type c') "list"), (String.eqb (c_type c') "seattle");
        cbn in I; repeat (destruct I as [I | I]; [injection I as <- _; cbn; tauto|]); destruct I. }
    rewrite S, flat_map_app in I. cbn [flat_map wants app] in I. rewrite Z, app_nil_r in I.
    assert (Q : In (r, f) (filter (fun x => role_eqb (fst x) r) (flat_map wants before))) by (apply filter_In; split; [exact I | apply role_eqb_eq; reflexivity]).
    rewrite (W' r Ir) in Q. destruct Q as [Q | []]. injection Q as <-. rewrite (W r Ir), (X r Ir). reflexivity.
  Qed.

  (** *** compare *)
  Theorem C89_compare : forall m c, compare_correct latlong m = Some c -> compare_types_ok c = true ->
    exists a b, reader_word a = Some (k_compare_type c) /\ reader_word b = Some (k_match_type c)
      /\ compare_steps m c = (when (negb (flag m "console")) [CDirectory] ++ [CStart (join_path (str m "output") (str m "filename")); CTruth a; CMatches b; CFinish; CStop; CJoin])%list.
  Proof.
    intros m c _ H. unfold compare_types_ok in H. apply andb_prop in H. destruct H as [HM HC]. unfold compare_steps, c_reader.
    unfold mem in HM, HC.
    destruct (String.eqb (k_match_type c) "csv") eqn:M1; [| destruct (String.eqb (k_match_type c) "gpx") eqn:M2; [| discriminate HM]];
    (destruct (String.eqb (k_compare_type c) "csv") eqn:C1; [| destruct (String.eqb (k_compare_type c) "gpx") eqn:C2; [| discriminate HC]]);
    rewrite ?String.eqb_eq in *; cbn [negb andb map app];
    [exists ReadCsv, ReadCsv | exists ReadGpx, ReadCsv | exists ReadCsv, ReadGpx | exists ReadGpx, ReadGpx];
    cbn [reader_word]; repeat split; congruence.
  Qed.
End Main.

(** ** What the program does not do *)
Definition is_ready (p : processed) : bool := match p with Ready _ => true | _ => false end.
Definition ready_vm (p : processed) : vm := match p with Ready m => m | _ => fun _ => Options.Empty end.
Lemma ready_spec : forall p, is_ready p = true -> p = Ready (ready_vm p).
Proof. intros [m| | |] H; try discriminate H. reflexivity. Qed.
Definition get {A} (o : option A) (x : A) : A := match o with Some y => y | None => x end.
Definition is_some {A} (o : option A) : bool := match o with Some _ => true | None => false end.
Lemma get_spec : forall (A : Type) (o : option A) x, is_some o = true -> o = Some (get o x).
Proof. intros A [y|] x H; [reflexivity | discriminate H]. Qed.
Definition some_prepare : prepare_conf := mkPrepare false "" (mkTransform (mkSrs 0 Invalid 0) 0 Invalid 0 false) false "" (false, false, false) (false, false, false, false, false).
Definition some_match : match_conf :=
  mkMatch false (mkSrs 0 Invalid 0) (false, false, false) false "" (mkTransform (mkSrs 0 Invalid 0) 0 Invalid 0 false) false 0%Q 0%Q 0%Q 0%Z CIRCLE VITERBI.
Definition some_compare : compare_conf :=
  mkCompare false "" (mkTransform (mkSrs 0 Invalid 0) 0 Invalid 0 false) "" (mkTransform (mkSrs 0 Invalid 0) 0 Invalid 0 false).
Definition codes (z : Z) : option bool := if (z =? 4326)%Z then Some true else None.
Definition always (_ : string) : bool := true.
Definition no_config (_ : string) : option source := None.
Definition p_vm (cli : source) : vm := ready_vm (process options_prepare PREPARE cli no_config).
Definition p_conf (cli : source) : prepare_conf := get (prepare_correct always codes (p_vm cli)) some_prepare.

Definition some_report : report := mkReport [] None (fun _ => None).
Definition plain : source := [("prepare", VB true); ("file", VL ["town.osm"]); ("output", VS "net"); ("remove-duplicate-edges", VB true); ("memory-mapped-tags", VB false);
  ("export-nodes-csv-file", VS "nodes.csv")].
Definition in_net (m : vm) (r : role) : string := join_path "net" (name m r).
Example C89_files_example :
  let m := p_vm plain in let c := p_conf plain in
  process options_prepare PREPARE plain no_config = Ready m /\ prepare_correct always codes m = Some c
  /\ (forall a b, used m c a = true -> used m c b = true -> in_net m a = in_net m b -> a = b)
  /\ exists R, prepare (in_net m) (fun _ => false) (fun _ => false) always m c (fun _ => None) = Some R /\ r_failed R = None
      /\ map (r_disk R) ["net/graph.bin"; "net/tags.bin"; "net/index.bin"; "net/nodes.csv"; "net/tmp_graph.bin"; "net/tmp_osm_tags.bin"]
         = [Some (Holds Graph Image true); Some (Holds Tags Archive true); Some (Holds Index Image true); Some (Holds NodesFile Text true); None; None].
Proof.
  cbv zeta. split; [apply ready_spec; vm_compute; reflexivity|]. split; [apply get_spec; vm_compute; reflexivity|]. split.
  - intros a b Ua Ub E. destruct a, b; try reflexivity; vm_compute in E; try discriminate E; vm_compute in Ua, Ub; discriminate.
  - exists (get (prepare (in_net (p_vm plain)) (fun _ => false) (fun _ => false) always (p_vm plain) (p_conf plain) (fun _ => None)) some_report).
    split; [apply get_spec; vm_compute; reflexivity|]. split; vm_compute; reflexivity.
Qed.
(** the names of temporary files are not checked: here the graph of the import has the name of the graph, and the preparation ends without error
    and without a graph *)
Definition same_name : source := [("prepare", VB true); ("file", VL ["town.osm"]); ("output", VS "net"); ("graph-import-file", VS "graph.bin")].
Theorem C89_same_name_refuted : exists cli m c R,
  process options_prepare PREPARE cli no_config = Ready m /\ prepare_correct always codes m = Some c
  /\ prepare (in_net m) (fun _ => false) (fun _ => false) always m c (fun _ => None) = Some R /\ r_failed R = None
  /\ r_disk R (in_net m Graph) = None.
Proof.
  exists same_name, (p_vm same_name), (p_conf same_name),
    (get (prepare (in_net (p_vm same_name)) (fun _ => false) (fun _ => false) always (p_vm same_name) (p_conf same_name) (fun _ => None)) some_report).
  split; [apply ready_spec; vm_compute; reflexivity|]. split; [apply get_spec; vm_compute; reflexivity|]. split; [apply get_spec; vm_compute; reflexivity|]. split; vm_compute; reflexivity.
Qed.
(** the three names of the network are compared as texts: two of them may be the same file, and one of the two is lost *)
Definition dotted : source := [("prepare", VB true); ("file", VL ["town.osm"]); ("output", VS "net"); ("graph-file", VS "graph.bin"); ("index-file", VS "./graph.bin")].
Definition undot (s : string) : string := match s with String "."%char (String "/"%char r) => r | _ => s end.
Theorem C89_dot_refuted : exists cli m c R, let place r := join_path "net" (undot (name m r)) in
  process options_prepare PREPARE cli no_config = Ready m /\ prepare_correct always codes m = Some c
  /\ prepare place (fun _ => false) (fun _ => false) always m c (fun _ => None) = Some R /\ r_failed R = None
  /\ r_disk R (place Index) = Some (Holds Graph Image true).
Proof.
  exists dotted, (p_vm dotted), (p_conf dotted),
    (get (prepare (fun r => join_path "net" (undot (name (p_vm dotted) r))) (fun _ => false) (fun _ => false) always (p_vm dotted) (p_conf dotted) (fun _ => None)) some_report). cbv zeta.
  split; [apply ready_spec; vm_compute; reflexivity|]. split; [apply get_spec; vm_compute; reflexivity|]. split; [apply get_spec; vm_compute; reflexivity|]. split; vm_compute; reflexivity.
Qed.
(** a preparation that fails does not leave the network that was there: the files are there, in the form that matching opens, and not complete *)
Definition is_compress (s : step) : bool := match s with Run Compress => true | _ => false end.
Theorem C89_failure_refuted : exists cli m c d R,
  process options_prepare PREPARE cli no_config = Ready m /\ prepare_correct always codes m = Some c
  /\ (forall r, In r [Graph; Tags; Index] -> d (in_net m r) = Some (Holds r Image true))
  /\ prepare (in_net m) is_compress (fun _ => false) always m c d = Some R /\ r_failed R = Some (Run Compress)
  /\ (forall r, In r [Graph; Tags; Index] -> r_disk R (in_net m r) = Some (Holds r Image false)).
Proof.
  pose (cli := [("prepare", VB true); ("file", VL ["town.osm"]); ("output", VS "net")] : source).
  exists cli, (p_vm cli), (p_conf cli).
  pose (d := put (put (put (fun _ => None) "net/graph.bin" (Some (Holds Graph Image true))) "net/tags.bin" (Some (Holds Tags Image true)))
            "net/index.bin" (Some (Holds Index Image true))).
  exists d, (get (prepare (in_net (p_vm cli)) is_compress (fun _ => false) always (p_vm cli) (p_conf cli) d) some_report).
  split; [apply ready_spec; vm_compute; reflexivity|]. split; [apply get_spec; vm_compute; reflexivity|].
  split; [intros r [<- | [<- | [<- | []]]]; vm_compute; reflexivity|]. split; [apply get_spec; vm_compute; reflexivity|]. split; [vm_compute; reflexivity|].
  intros r [<- | [<- | [<- | []]]]; vm_compute; reflexivity.
Qed.
Example C89_failure_example : exists m c R,
  prepare (in_net m) is_compress (fun _ => false) always m c (fun _ => None) = Some R /\ r_failed R = Some (Run Compress)
  /\ temporary GraphImport = true /\ In (Create GraphImport) (r_steps R) /\ r_disk R (in_net m GraphImport) = None.
Proof.
  exists (p_vm plain), (p_conf plain),
    (get (prepare (in_net (p_vm plain)) is_compress (fun _ => false) always (p_vm plain) (p_conf plain) (fun _ => None)) some_report).
  split; [apply get_spec; vm_compute; reflexivity|]. split; [vm_compute; reflexivity|]. split; [reflexivity|]. split; [vm_compute; tauto | vm_compute; reflexivity].
Qed.
(** with the output on the console the output file is opened, and so emptied, all the same: without a folder it is the one in the current folder *)
Definition on_console : source := [("match", VB true); ("console", VB true); ("input", VS "net"); ("tracks", VL ["a.csv"])].
Definition m_vm (cli : source) : vm := ready_vm (process (options_match 4) MATCH cli no_config).
Definition m_conf (cli : source) : match_conf := get (match_correct always codes (m_vm cli)) some_match.
Theorem C89_console_refuted : exists cli m c,
  process (options_match 4) MATCH cli no_config = Ready m /\ match_correct always codes m = Some c /\ flag m "console" = true
  /\ In (MStart ["matches.csv"]) (match_steps m c).
Proof.
  exists on_console, (m_vm on_console), (m_conf on_console).
  split; [apply ready_spec; vm_compute; reflexivity|]. split; [apply get_spec; vm_compute; reflexivity|]. split; vm_compute; tauto.
Qed.
Definition with_candidates : source := [("match", VB true); ("input", VS "net"); ("tracks", VL ["a.csv"]); ("output", VS "out"); ("candidates", VS "c.csv")].
Example C89_writes_example : process (options_match 4) MATCH with_candidates no_config = Ready (m_vm with_candidates)
  /\ match_correct always codes (m_vm with_candidates) = Some (m_conf with_candidates)
  /\ str (m_vm with_candidates) "output" = "out" /\ In (MStart ["out/matches.csv"; "out/c.csv"]) (match_steps (m_vm with_candidates) (m_conf with_candidates)).
Proof.
  split; [apply ready_spec; vm_compute; reflexivity|]. split; [apply get_spec; vm_compute; reflexivity|]. split; vm_compute; tauto.
Qed.
Example C89_finds_example : let m := m_vm (on_console ++ [("memory-mapped-tags", VB false)])%list in let c := m_conf (on_console ++ [("memory-mapped-tags", VB false)])%list in
  match_correct always codes m = Some c /\ memory_correct m = memory_correct (p_vm plain) /\ is_empty (m "read-line") = false
  /\ flat_map wants (match_steps m c) = [(Index, Image); (Graph, Image); (Tags, Archive)] /\ filter is_read (match_steps m c) = [MRead ReadCsv []].
Proof.
  cbv zeta. split; [apply get_spec; vm_compute; reflexivity|]. split; [vm_compute; reflexivity|]. split; [vm_compute; reflexivity|]. split; vm_compute; reflexivity.
Qed.
(** files of two types are accepted for comparing that comparing refuses - after its threads have been started *)
Definition k_vm (cli : source) : vm := ready_vm (process (options_compare 4) COMPARE cli no_config).
Definition k_conf (cli : source) : compare_conf := get (compare_correct codes (k_vm cli)) some_compare.
Definition with_list : source := [("compare", VB true); ("output", VS "out"); ("match-tracks", VL ["a.csv"]); ("compare-tracks", VL ["b.list"])].
Theorem C89_compare_refuted : exists cli m c,
  process (options_compare 4) COMPARE cli no_config = Ready m /\ compare_correct codes m = Some c
  /\ compare_steps m c = [CDirectory; CStart "out/comparison.csv"; CThrow].
Proof.
  exists with_list, (k_vm with_list), (k_conf with_list).
  split; [apply ready_spec; vm_compute; reflexivity|]. split; [apply get_spec; vm_compute; reflexivity|]. vm_compute; reflexivity.
Qed.
Example C89_compare_example : let m := k_vm [("compare", VB true); ("console", VB true); ("match-tracks", VL ["a.csv"]); ("compare-tracks", VL ["b.gpx"])] in
  let c := get (compare_correct codes m) some_compare in
  compare_correct codes m = Some c /\ compare_types_ok c = true
  /\ compare_steps m c = [CStart "comparison.csv"; CTruth ReadGpx; CMatches ReadCsv; CFinish; CStop; CJoin].
Proof. cbv zeta. split; [apply get_spec; vm_compute; reflexivity|]. split; vm_compute; reflexivity. Qed.

Print Assumptions C89_passes.
Print Assumptions C89_files.
Print Assumptions C89_steps.
Print Assumptions C89_missing.
Print Assumptions C89_broken.
Print Assumptions C89_failure.
Print Assumptions C89_reader.
Print Assumptions C89_opens_each.
Print Assumptions C89_writes.
Print Assumptions C89_finds.
Print Assumptions C89_compare.
Print Assumptions C89_same_name_refuted.
Print Assumptions C89_dot_refuted.
Print Assumptions C89_failure_refuted.
Print Assumptions C89_console_refuted.
Print Assumptions C89_compare_refuted.
Print Assumptions C89_between.
