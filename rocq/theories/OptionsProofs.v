(** Proofs for Options.v *)
From Coq Require Import ZArith QArith Ascii String.
From Verif Require Import Base Srs Options.
Local Open Scope string_scope.
Local Open Scope list_scope.

Definition values (n : string) (src : source) : list value := map snd (filter (fun e => String.eqb (fst e) n) src).
(** several values of a list are one, in order *)
Definition join (a b : value) : value := match a, b with VL x, VL y => VL (x ++ y) | v, _ => v end.
Definition given (n : string) (src : source) : option value := match values n src with [] => None | v :: r => Some (fold_left join r v) end.

Lemma kind_eqb_eq a b : kind_eqb a b = true <-> a = b.
Proof. destruct a, b; cbn; split; congruence. Qed.
Lemma values_app n a b : values n (a ++ b) = values n a ++ values n b.
Proof. unfold values. rewrite filter_app, map_app. reflexivity. Qed.
Lemma values_one n e : values n [e] = if String.eqb (fst e) n then [snd e] else [].
Proof. unfold values. cbn. destruct (String.eqb (fst e) n); reflexivity. Qed.
Lemma foldO_app {A B} (f : A -> B -> outcome A) l l' a : foldO f (l ++ l') a = bindO (foldO f l a) (fun x => x) (fun x => foldO f l' x).
Proof. revert a. induction l as [|x r IH]; intros a; [reflexivity|]. cbn. destruct (f a x); cbn; [apply IH| | |]; reflexivity. Qed.

(** what one source must satisfy; [skip]: options that an earlier source has given *)
Definition source_ok (ds : list desc) (allow : bool) (skip : string -> bool) (src : source) : Prop :=
  forall n v, In (n, v) src ->
    match find_desc ds n with
    | None => allow = true
    | Some d => skip n = true \/ (kind_of v = d_kind d /\ (d_kind d = KL \/ values n src = [v]))
    end.
Definition expected (ds : list desc) (old : vm) (src : source) (n : string) : var :=
  match find_desc ds n with
  | None => old n
  | Some _ => if final (old n) then old n else match given n src with Some v => Given v | None => old n end
  end.
Lemma store_fold ds allow old src :
  match foldO (store_one ds allow old) src old with
  | Ok m => source_ok ds allow (fun n => final (old n)) src /\ forall n, m n = expected ds old src n
  | _ => ~ source_ok ds allow (fun n => final (old n)) src
  end.
Proof.
  induction src as [|e l IH] using rev_ind.
  - cbn. split; [intros n v []|]. intros n. unfold expected. cbn. destruct (find_desc ds n), (final (old n)); reflexivity.
  - assert (D : source_ok ds allow (fun n => final (old n)) (l ++ [e]) -> source_ok ds allow (fun n => final (old n)) l).
    { intros H n v I. specialize (H n v (in_or_app _ _ _ (or_introl I))). destruct (find_desc ds n); [|exact H]. destruct H as [H|[H1 [H2|H2]]]; auto.
      right. split; [exact H1|]. right. rewrite values_app in H2. destruct (values n l) as [|x r] eqn:V; [|cbn in H2; injection H2 as -> Hr; apply app_eq_nil in Hr; destruct Hr as [-> _]; reflexivity].
      exfalso. assert (In v (values n l)); [|rewrite V in *; contradiction]. unfold values. apply in_map_iff. exists (n, v). split; [reflexivity|].
      apply filter_In. cbn. rewrite String.eqb_refl. auto. }
    rewrite foldO_app. destruct (foldO (store_one ds allow old) l old) as [m| | |]; cbn [bindO foldO]; [|tauto|tauto|tauto].
    destruct IH as [O M]. destruct e as [k v]. unfold store_one. cbn [fst snd].
    destruct (find_desc ds k) as [d|] eqn:F.
    2:{ destruct allow; cbn [bindO].
        - split.
          + intros n w I. apply in_app_or in I. destruct I as [I|[[= <- <-]|[]]]; [|rewrite F; reflexivity].
            specialize (O n w I). destruct (find_desc ds n) eqn:F'; [|exact O]. destruct O as [O|[O1 [O2|O2]]]; auto. right. split; [exact O1|]. right.
            rewrite values_app, values_one, O2. cbn. destruct (String.eqb_spec k n) as [->|_]; [congruence|reflexivity].
          + intros n. rewrite M. unfold expected, given. rewrite values_app, values_one. cbn [fst]. destruct (String.eqb_spec k n) as [->|_]; [rewrite F; reflexivity|rewrite app_nil_r; reflexivity].
        - intros H. specialize (H k v (in_or_app l [(k, v)] (k, v) (or_intror (or_introl eq_refl)))). rewrite F in H. discriminate. }
    assert (Other : forall n, n <> k -> values n (l ++ [(k, v)]) = values n l).
    { intros n N. rewrite values_app, values_one. cbn [fst]. destruct (String.eqb_spec k n); [congruence|apply app_nil_r]. }
    assert (Same : values k (l ++ [(k, v)]) = values k l ++ [v]) by (rewrite values_app, values_one; cbn [fst snd]; rewrite String.eqb_refl; reflexivity).
    destruct (final (old k)) eqn:Fi.
    { cbn [bindO]. split.
      - intros n w I. apply in_app_or in I. destruct I as [I|[[= <- <-]|[]]]; [|rewrite F; left; exact Fi].
        specialize (O n w I). destruct (find_desc ds n) eqn:F'; [|exact O]. destruct O as [O|[O1 [O2|O2]]]; auto.
        destruct (string_dec n k) as [->|N]; [left; exact Fi|]. right. rewrite Other by exact N. auto.
      - intros n. rewrite M. unfold expected, given. destruct (string_dec n k) as [->|N]; [rewrite F, Fi; reflexivity|]. rewrite Other by exact N. reflexivity. }
    destruct (kind_eqb (d_kind d) (kind_of v)) eqn:K; cbn [negb].
    2:{ intros H. specialize (H k v (in_or_app l [(k, v)] (k, v) (or_intror (or_introl eq_refl)))). rewrite F in H. destruct H as [H|[H _]]; [congruence|].
        rewrite H in K. assert (kind_eqb (d_kind d) (d_kind d) = true) by (apply kind_eqb_eq; reflexivity). congruence. }
    apply kind_eqb_eq in K.
    assert (Mk : m k = match given k l with Some x => Given x | None => old k end) by (rewrite M; unfold expected; rewrite F, Fi; reflexivity).
    assert (New : forall x, (values k l = [] /\ x = v \/ (exists y, values k l <> [] /\ given k l = Some y /\ x = join y v)) -> forall n, set_var m k (Given x) n = expected ds old (l ++ [(k, v)]) n).
    { intros x Hx n. unfold set_var. destruct (String.eqb_spec n k) as [->|N].
      - unfold expected. rewrite F, Fi. unfold given in *. rewrite Same. destruct Hx as [[V ->]|(y & V & G & ->)].
        + rewrite V. reflexivity.
        + destruct (values k l) as [|a r]; [congruence|]. cbn [app]. injection G as <-. rewrite fold_left_app. reflexivity.
      - rewrite M. unfold expected, given. rewrite Other by exact N. reflexivity. }
    assert (Old : values k l = [] \/ exists y, values k l <> [] /\ given k l = Some y).
    { unfold given. destruct (values k l); [left; reflexivity|right; eexists; split; [discriminate|reflexivity]]. }
    destruct Old as [V|(y & V & G)].
    + assert (Mk' : m k = old k) by (rewrite Mk; unfold given; rewrite V; reflexivity). rewrite Mk'.
      assert (W : (match old k with Given (VL l0) => match v with VL l' => Ok (set_var m k (Given (VL (l0 ++ l')))) | _ => Throw m end
                   | Given _ => Throw m | _ => Ok (set_var m k (Given v)) end) = Ok (set_var m k (Given v))) by (destruct (old k); [reflexivity|reflexivity|discriminate Fi]).
      assert (W' : (match old k, v with Given (VL l0), VL l' => Ok (set_var m k (Given (VL (l0 ++ l')))) | Given _, _ => Throw m | _, w => Ok (set_var m k (Given w)) end) = Ok (set_var m k (Given v)))
        by (destruct (old k); [reflexivity|reflexivity|discriminate Fi]).
      rewrite W'. cbn [bindO]. split; [|apply New; auto].
      intros n w I. apply in_app_or in I. destruct I as [I|[[= <- <-]|[]]].
      * specialize (O n w I). destruct (string_dec n k) as [->|N].
        { exfalso. assert (In w (values k l)); [|rewrite V in *; contradiction]. unfold values. apply in_map_iff. exists (k, w). split; [reflexivity|].
          apply filter_In. cbn. rewrite String.eqb_refl. auto. }
        rewrite Other by exact N. exact O.
      * rewrite F. right. split; [congruence|]. right. rewrite Same, V. reflexivity.
    + rewrite Mk, G.
      assert (Bad : d_kind d <> KL -> ~ source_ok ds allow (fun n => final (old n)) (l ++ [(k, v)])).
      { intros N H. specialize (H k v (in_or_app l [(k, v)] (k, v) (or_intror (or_introl eq_refl)))). rewrite F in H. destruct H as [H|[_ [H|H]]]; [congruence|congruence|].
        rewrite Same in H. destruct (values k l) as [|a [|b r]]; cbn in H; congruence. }
      assert (Ky : kind_of y = d_kind d).
      { assert (A : forall a, In a (values k l) -> kind_of a = d_kind d).
        { intros a I. unfold values in I. apply in_map_iff in I. destruct I as ([k' a'] & <- & I). apply filter_In in I. destruct I as [I E]. cbn in E.
          apply String.eqb_eq in E. cbn in *. subst k'. specialize (O k a' I). rewrite F in O. destruct O as [O|[O _]]; [congruence|exact O]. }
        unfold given in G. destruct (values k l) as [|a r]; [congruence|]. injection G as <-. rewrite <- (A a (or_introl eq_refl)).
        clear. revert a. induction r as [|b r IH]; intros a; [reflexivity|]. cbn [fold_left]. rewrite IH. destruct a; try reflexivity. destruct b; reflexivity. }
      destruct (d_kind d) eqn:Kd.
      1,2,4,5: destruct y; try discriminate; cbn [bindO]; apply Bad; discriminate.
      destruct y as [| |ly| |]; try discriminate. destruct v as [| |lv| |]; try discriminate. cbn [bindO]. split.
      * intros n w I. apply in_app_or in I. destruct I as [I|[[= <- <-]|[]]].
        { specialize (O n w I). destruct (string_dec n k) as [->|N]; [|rewrite Other by exact N; exact O]. rewrite F in *. destruct O as [O|[O _]]; [left; exact O|].
          right. split; [exact O|]. left. exact Kd. }
        rewrite F. right. split; [cbn; congruence|]. left. exact Kd.
      * apply New. right. exists (VL ly). auto.
Qed.

Lemma fill_fold ds m n : NoDup (map d_name ds) ->
  fold_left fill_default ds m n = match find_desc ds n with
                                  | Some d => match m n with Empty => match d_default d with Some v => Defaulted v | None => Empty end | v => v end
                                  | None => m n
                                  end.
Proof.
  revert m. induction ds as [|d r IH]; intros m N; [reflexivity|]. apply NoDup_cons_iff in N. destruct N as [Nd Nr]. cbn [fold_left]. rewrite IH by exact Nr.
  unfold find_desc. cbn [find]. destruct (String.eqb_spec (d_name d) n) as [<-|Hn].
  - assert (find (fun d0 => String.eqb (d_name d0) (d_name d)) r = None) as ->.
    { destruct (find _ r) as [d'|] eqn:F; [|reflexivity]. apply find_some in F. destruct F as [I E]. apply String.eqb_eq in E. exfalso. apply Nd. rewrite <- E. apply in_map. exact I. }
    unfold fill_default. destruct (d_default d); [|destruct (m (d_name d)); reflexivity]. destruct (m (d_name d)) eqn:E; cbn [is_empty]; unfold set_var; try (rewrite E; reflexivity). rewrite String.eqb_refl. reflexivity.
  - assert (fill_default m d n = m n) as ->; [|reflexivity]. unfold fill_default. destruct (d_default d); [|reflexivity]. destruct (is_empty _); [|reflexivity].
    unfold set_var. destruct (String.eqb_spec n (d_name d)); [congruence|reflexivity].
Qed.
Definition with_default (ds : list desc) (n : string) (v : var) : var :=
  match find_desc ds n with Some d => match v with Empty => match d_default d with Some x => Defaulted x | None => Empty end | _ => v end | None => v end.
Lemma store_spec ds allow src old : NoDup (map d_name ds) ->
  match store ds allow src old with
  | Ok m => source_ok ds allow (fun n => final (old n)) src /\ forall n, m n = with_default ds n (expected ds old src n)
  | _ => ~ source_ok ds allow (fun n => final (old n)) src
  end.
Proof.
  intros N. unfold store. pose proof (store_fold ds allow old src) as H. destruct (foldO (store_one ds allow old) src old) as [m| | |]; cbn [bindO]; try exact H.
  destruct H as [H1 H2]. split; [exact H1|]. intros n. rewrite fill_fold by exact N. unfold with_default. rewrite H2. destruct (find_desc ds n); [destruct (expected ds old src n)|]; reflexivity.
Qed.
