(** C78: options, see Options.v. *)
From Coq Require Import ZArith QArith Ascii String Lia.
From Verif Require Import Base Srs SrsProps Options OptionsProofs.
Local Open Scope string_scope.
Local Open Scope list_scope.

(** the configuration file that is meant: a given one, else the default one if it exists *)
Definition config_name (cli : source) : string := match given "config" cli with Some (VS s) => s | _ => "options.conf" end.
Definition has_config (ds : list desc) : Prop := find_desc ds "config" = Some (text "config" "options.conf").

Lemma first_store ds allow cli m : NoDup (map d_name ds) -> store ds allow cli (fun _ => Empty) = Ok m ->
  source_ok ds allow (fun _ => false) cli /\
  forall n, m n = match find_desc ds n with
                  | None => Empty
                  | Some d => match given n cli with Some v => Given v | None => match d_default d with Some v => Defaulted v | None => Empty end end
                  end.
Proof.
  intros N E. pose proof (store_spec ds allow cli (fun _ => Empty) N) as H. rewrite E in H. cbn [final] in H. destruct H as [H1 H2]. split; [exact H1|].
  intros n. rewrite H2. unfold with_default, expected. cbn [final]. destruct (find_desc ds n); [|reflexivity]. destruct (given n cli); reflexivity.
Qed.
Lemma config_kind ds allow cli m : NoDup (map d_name ds) -> has_config ds -> store ds allow cli (fun _ => Empty) = Ok m ->
  str m "config" = config_name cli /\ defaulted (m "config") = match given "config" cli with Some _ => false | None => true end.
Proof.
  intros N C E. destruct (first_store _ _ _ _ N E) as [O M]. unfold str, config_name. rewrite M, C.
  destruct (given "config" cli) as [v|] eqn:G; [|split; reflexivity]. split; [|reflexivity].
  assert (A : forall v, In v (values "config" cli) -> kind_of v = KS).
  { intros w I. unfold values in I. apply in_map_iff in I. destruct I as ([k w'] & <- & I). apply filter_In in I. destruct I as [I Q]. cbn [fst] in Q.
    apply String.eqb_eq in Q. subst k. specialize (O "config" w' I). rewrite C in O. destruct O as [O|[O _]]; [discriminate|exact O]. }
  assert (K : kind_of v = KS).
  { unfold given in G. destruct (values "config" cli) as [|a r]; [discriminate|]. injection G as <-. rewrite <- (A a (or_introl eq_refl)). clear.
    revert a. induction r as [|b r IH]; intros a; [reflexivity|]. cbn [fold_left]. rewrite IH. destruct a; try reflexivity. destruct b; reflexivity. }
  destruct v; try discriminate. reflexivity.
Qed.

(** C78: the command line goes before the configuration file and this before the defaults; options that are not registered have no value. *)
Theorem C78_sources ds md cli config m : NoDup (map d_name ds) -> has_config ds -> parse ds md cli config = Ok m ->
  forall n, m n = match find_desc ds n with
                  | None => Empty
                  | Some d =>
                      match given n cli with
                      | Some v => Given v
                      | None =>
                          match given n (match config (config_name cli) with Some s => s | None => [] end) with
                          | Some v => Given v
                          | None => match d_default d with Some v => Defaulted v | None => Empty end
                          end
                      end
                  end.
Proof.
  intros N C E n. unfold parse in E. destruct (store ds (mode_eqb md NONE) cli (fun _ => Empty)) as [m1| | |] eqn:S1; try discriminate. cbn [bindO] in E.
  destruct (first_store _ _ _ _ N S1) as [_ M1]. destruct (config_kind _ _ _ _ N C S1) as [Cn Cd]. rewrite Cn in E.
  destruct (config (config_name cli)) as [cfg|].
  - pose proof (store_spec ds (mode_eqb md NONE) cfg m1 N) as H. rewrite E in H. destruct H as [_ H]. rewrite H. unfold with_default, expected. rewrite M1.
    destruct (find_desc ds n) as [d|]; [|reflexivity]. destruct (given n cli); [reflexivity|]. destruct (d_default d); cbn [final]; destruct (given n cfg); reflexivity.
  - destruct (defaulted (m1 "config")); [|discriminate]. injection E as <-. rewrite M1. destruct (find_desc ds n); [|reflexivity]. destruct (given n cli); reflexivity.
Qed.
(** C78: options are refused exactly if one is unknown (in the first pass unknown ones are left to the second), has a value of another kind or
    occurs twice in a source without being a list, or if the configuration file that is given does not exist.  What the configuration file
    says about options of the command line is not checked. *)
Theorem C78_refused ds md cli config : NoDup (map d_name ds) -> has_config ds ->
  ((exists m, parse ds md cli config = Ok m) <->
   source_ok ds (mode_eqb md NONE) (fun _ => false) cli
   /\ match config (config_name cli) with
      | Some cfg => source_ok ds (mode_eqb md NONE) (fun n => match find_desc ds n, given n cli with Some _, Some _ => true | _, _ => false end) cfg
      | None => given "config" cli = None
      end).
Proof.
  intros N C. unfold parse. pose proof (store_spec ds (mode_eqb md NONE) cli (fun _ => Empty) N) as H. cbn [final] in H.
  destruct (store ds (mode_eqb md NONE) cli (fun _ => Empty)) as [m1| | |] eqn:S1; cbn [bindO].
  2,3,4: split; [intros [m E]; discriminate|intros [A _]; contradiction].
  destruct (first_store _ _ _ _ N S1) as [O1 M1]. destruct (config_kind _ _ _ _ N C S1) as [Cn Cd]. rewrite Cn.
  assert (Ext : forall cfg f g, (forall n, f n = g n) -> source_ok ds (mode_eqb md NONE) f cfg -> source_ok ds (mode_eqb md NONE) g cfg).
  { intros cfg f g Q O n v I. specialize (O n v I). rewrite <- Q. exact O. }
  assert (F : forall n, final (m1 n) = match find_desc ds n, given n cli with Some _, Some _ => true | _, _ => false end).
  { intros n. rewrite M1. destruct (find_desc ds n) as [d|]; [|reflexivity]. destruct (given n cli); [reflexivity|]. destruct (d_default d); reflexivity. }
  destruct (config (config_name cli)) as [cfg|].
  - pose proof (store_spec ds (mode_eqb md NONE) cfg m1 N) as H2. destruct (store ds (mode_eqb md NONE) cfg m1) as [m| | |].
    + destruct H2 as [H2 _]. split; [intros _; split; [exact O1|eapply Ext; [exact F|exact H2]]|intros _; eauto].
    + split; [intros [m E]; discriminate|]. intros [_ A]. exfalso. apply H2. eapply Ext; [|exact A]. intros n. symmetry. apply F.
    + split; [intros [m E]; discriminate|]. intros [_ A]. exfalso. apply H2. eapply Ext; [|exact A]. intros n. symmetry. apply F.
    + split; [intros [m E]; discriminate|]. intros [_ A]. exfalso. apply H2. eapply Ext; [|exact A]. intros n. symmetry. apply F.
  - rewrite Cd. destruct (given "config" cli); split; [intros [m E]; discriminate|intros [_ A]; discriminate|auto|eauto].
Qed.
(** C78: values are of the kind of their option. *)
Theorem C78_kinds ds md cli config m n d : NoDup (map d_name ds) -> has_config ds -> parse ds md cli config = Ok m -> find_desc ds n = Some d ->
  match m n with Given v => kind_of v = d_kind d | Defaulted v => d_default d = Some v | Empty => d_default d = None end.
Proof.
  intros N C E F. rewrite (C78_sources _ _ _ _ _ N C E n), F.
  destruct (proj1 (C78_refused ds md cli config N C) (ex_intro _ m E)) as [O1 O2].
  assert (G : forall src skip v, source_ok ds (mode_eqb md NONE) skip src -> skip n = false -> given n src = Some v -> kind_of v = d_kind d).
  { intros src skip v O Sk G. assert (A : forall w, In w (values n src) -> kind_of w = d_kind d).
    { intros w I. unfold values in I. apply in_map_iff in I. destruct I as ([k w'] & <- & I). apply filter_In in I. destruct I as [I Q]. cbn [fst] in Q.
      apply String.eqb_eq in Q. subst k. specialize (O n w' I). rewrite F, Sk in O. destruct O as [O|[O _]]; [discriminate|exact O]. }
    unfold given in G. destruct (values n src) as [|a r]; [discriminate|]. injection G as <-. rewrite <- (A a (or_introl eq_refl)). clear.
    revert a. induction r as [|b r IH]; intros a; [reflexivity|]. cbn [fold_left]. rewrite IH. destruct a; try reflexivity. destruct b; reflexivity. }
  destruct (given n cli) as [v|] eqn:G1; [apply (G _ _ _ O1 eq_refl G1)|]. destruct (config (config_name cli)) as [cfg|].
  - destruct (given n cfg) as [v|] eqn:G2; [apply (G _ _ _ O2); [cbv beta; rewrite F, G1; reflexivity|exact G2]|]. destruct (d_default d); reflexivity.
  - cbn. destruct (d_default d); reflexivity.
Qed.
Fixpoint distinct (l : list string) : bool := match l with [] => true | x :: r => negb (mem x r) && distinct r end.
Lemma mem_In s l : mem s l = true <-> In s l.
Proof. induction l as [|x r IH]; cbn; [split; [discriminate|contradiction]|]. rewrite orb_true_iff, String.eqb_eq, IH. split; intros [H|H]; auto. Qed.
Lemma nodup_names l : distinct l = true -> NoDup l.
Proof.
  induction l as [|x r IH]; cbn; [constructor|]. rewrite andb_true_iff, negb_true_iff. intros [H1 H2]. constructor; [|auto].
  intros I. apply mem_In in I. congruence.
Qed.
(** C78: no mode has an option twice *)
Theorem C78_names cores ds : In ds [options_mode; options_prepare; options_match cores; options_compare cores] -> NoDup (map d_name ds) /\ has_config ds.
Proof.
  intros [<-|[<-|[<-|[<-|[]]]]]; (split; [apply nodup_names; vm_compute; reflexivity|reflexivity]).
Qed.

(** **** corrections *)
(** what the user has said about a switch *)
Definition ask (m : vm) (n : string) : option bool := match m n with Given (VB b) => Some b | _ => None end.
Fixpoint first_asked (l : list (option bool)) (d : bool) : bool := match l with [] => d | Some b :: _ => b | None :: r => first_asked r d end.
Lemma bool_option ds md cli config m n b : NoDup (map d_name ds) -> has_config ds -> parse ds md cli config = Ok m -> find_desc ds n = Some (onoff n b) ->
  flag m n = first_asked [ask m n] b /\ defaulted (m n) = match ask m n with Some _ => false | None => true end.
Proof.
  intros N C E F. pose proof (C78_kinds _ _ _ _ _ n _ N C E F) as K. unfold flag, ask. destruct (m n) as [|v|v]; [discriminate| |].
  - injection K as <-. split; reflexivity.
  - destruct v; try discriminate. split; reflexivity.
Qed.
Ltac bool_options H := repeat match goal with |- context [flag ?m ?n] => let E := fresh in pose proof (proj1 (H n _ eq_refl)) as E; rewrite !E; clear E
                                       | |- context [defaulted (?m ?n)] => let E := fresh in pose proof (proj2 (H n _ eq_refl)) as E; rewrite !E; clear E end.
(** C78: each part of a network is memory mapped as the option of this part says, else as memory-mapping says, else it is *)
Theorem C78_memory cores md cli config m : parse (options_match cores) md cli config = Ok m ->
  memory_correct m = (first_asked [ask m "memory-mapped-graph"; ask m "memory-mapping"] true, first_asked [ask m "memory-mapped-indices"; ask m "memory-mapping"] true,
                      first_asked [ask m "memory-mapped-tags"; ask m "memory-mapping"] true).
Proof.
  intros E. destruct (C78_names cores (options_match cores)) as [N C]; [cbn [In]; tauto|].
  assert (H : forall n b, find_desc (options_match cores) n = Some (onoff n b) -> flag m n = first_asked [ask m n] b /\ defaulted (m n) = match ask m n with Some _ => false | None => true end)
    by (intros n b F; apply (bool_option _ _ _ _ _ n b N C E F)).
  unfold memory_correct. bool_options H. destruct (ask m "memory-mapping"), (ask m "memory-mapped-graph"), (ask m "memory-mapped-indices"), (ask m "memory-mapped-tags"); reflexivity.
Qed.
(** C78: in preparation the same holds, and each temporary structure is memory mapped as its option says, else as memory-mapped-preparation, else as memory-mapping, else it is *)
Theorem C78_prepare_memory md cli config m : parse options_prepare md cli config = Ok m ->
  memory_correct m = (first_asked [ask m "memory-mapped-graph"; ask m "memory-mapping"] true, first_asked [ask m "memory-mapped-indices"; ask m "memory-mapping"] true,
                      first_asked [ask m "memory-mapped-tags"; ask m "memory-mapping"] true)
  /\ let temporary n := first_asked [ask m n; ask m "memory-mapped-preparation"; ask m "memory-mapping"] true in
     prepare_memory_correct m = (temporary "memory-mapped-graph-import", temporary "memory-mapped-tags-import", temporary "memory-mapped-index-build",
                                 temporary "memory-mapped-osm-vertices", temporary "memory-mapped-osm-tags").
Proof.
  intros E. destruct (C78_names 0 options_prepare) as [N C]; [cbn [In]; tauto|].
  assert (H : forall n b, find_desc options_prepare n = Some (onoff n b) -> flag m n = first_asked [ask m n] b /\ defaulted (m n) = match ask m n with Some _ => false | None => true end)
    by (intros n b F; apply (bool_option _ _ _ _ _ n b N C E F)).
  split.
  - unfold memory_correct. bool_options H. destruct (ask m "memory-mapping"), (ask m "memory-mapped-graph"), (ask m "memory-mapped-indices"), (ask m "memory-mapped-tags"); reflexivity.
  - cbv zeta. unfold prepare_memory_correct. bool_options H.
    destruct (ask m "memory-mapping"), (ask m "memory-mapped-preparation"), (ask m "memory-mapped-graph-import"), (ask m "memory-mapped-tags-import"),
      (ask m "memory-mapped-index-build"), (ask m "memory-mapped-osm-vertices"), (ask m "memory-mapped-osm-tags"); reflexivity.
Qed.

(** *** types of track files *)
Fixpoint has (c : ascii) (s : string) : Prop := match s with EmptyString => False | String a r => a = c \/ has c r end.
Lemma from_last_none c s acc : ~ has c s -> from_last c s acc = acc.
Proof. revert acc. induction s as [|a r IH]; intros acc H; [reflexivity|]. cbn in *. destruct (Ascii.eqb_spec a c); [tauto|]. apply IH. tauto. Qed.
Lemma from_last_app c s t acc : from_last c (s ++ String c t)%string acc = from_last c t (String c t).
Proof. revert acc. induction s as [|a r IH]; intros acc; cbn; [rewrite Ascii.eqb_refl; reflexivity|apply IH]. Qed.
Lemma after_last_none c s acc : ~ has c s -> after_last c s acc = acc.
Proof. revert acc. induction s as [|a r IH]; intros acc H; [reflexivity|]. cbn in *. destruct (Ascii.eqb_spec a c); [tauto|]. apply IH. tauto. Qed.
Lemma after_last_app c s t acc : ~ has c t -> after_last c (s ++ String c t)%string acc = t.
Proof. intros H. revert acc. induction s as [|a r IH]; intros acc; cbn; [rewrite Ascii.eqb_refl; apply after_last_none; exact H|apply IH]. Qed.
(** C78: the extension of a file is what follows the last dot of its name, with the dot, if the name does not begin with this dot; else it has none. *)
Theorem C78_extension dir name : ~ has "/" name -> (dir = "" \/ exists d, dir = (d ++ "/")%string) ->
  (forall stem e, name = (stem ++ String "." e)%string -> stem <> "" -> ~ has "." e -> name <> ".." -> extension (dir ++ name) = String "." e)
  /\ ((forall stem e, name = (stem ++ String "." e)%string -> stem = "") \/ name = ".." -> extension (dir ++ name) = "").
Proof.
  intros Hn Hd. assert (F : after_last "/" (dir ++ name)%string (dir ++ name)%string = name).
  { destruct Hd as [->|[d ->]]; [apply after_last_none; exact Hn|]. rewrite <- (after_last_app "/" d name ((d ++ "/") ++ name)%string Hn) at 3. f_equal.
    clear. induction d as [|a d IH]; cbn in *; [reflexivity|f_equal; exact IH]. }
  unfold extension. cbv zeta. rewrite F. split.
  - intros stem e -> St He Hd'. destruct (String.eqb_spec (stem ++ String "." e)%string ".."); [congruence|]. destruct stem as [|a r]; [congruence|].
    change ((String a r ++ String "." e)%string) with (String a (r ++ String "." e)%string). cbv iota beta. rewrite from_last_app. apply from_last_none. exact He.
  - intros [H|Hdd].
    + destruct (String.eqb_spec name ".."); [reflexivity|]. destruct name as [|a r]; [reflexivity|]. apply from_last_none. intros Hh.
      assert (S : exists x y, r = (x ++ String "." y)%string).
      { clear -Hh. induction r as [|b r IH]; [contradiction|]. cbn in Hh. destruct Hh as [->|Hh]; [exists "", r; reflexivity|]. destruct (IH Hh) as (x & y & ->). exists (String b x), y. reflexivity. }
      destruct S as (x & y & ->). specialize (H (String a x) y eq_refl). discriminate.
    + subst name. reflexivity.
Qed.

Definition detects (m : vm) : Prop := m "tracks-file-type" = Empty /\ m "match-file-type" = Empty /\ m "compare-file-type" = Empty.
Definition reads_files (m : vm) : Prop := m "read-line" <> Empty /\ flag m "read-line" = false.
Lemma detect_fixed r x e t : x <> "" -> (detect r x e = Ok t <-> Forall (fun f => extension f = x) r /\ t = match r with [] => e | _ => x end).
Proof.
  intros X. revert e. induction r as [|f r IH]; intros e; cbn [detect].
  - split; [intros [= ->]; split; [constructor|reflexivity]|intros [_ ->]; reflexivity].
  - destruct (String.eqb_spec x ""); [congruence|]. destruct (String.eqb_spec (extension f) x) as [Ef|Ef].
    + rewrite IH. split; [intros [A ->]; split; [constructor; assumption|destruct r; congruence]|].
      intros [A ->]. apply Forall_cons_iff in A. split; [tauto|destruct r; congruence].
    + split; [discriminate|]. intros [A _]. apply Forall_cons_iff in A. tauto.
Qed.
Lemma detect_spec files t e : t <> "" -> files <> [] -> (detect files "" e = Ok t <->
  exists pre post, files = pre ++ post /\ post <> [] /\ Forall (fun f => extension f = "") pre /\ Forall (fun f => extension f = t) post).
Proof.
  intros T. revert e. induction files as [|f r IH]; intros e NE; [congruence|]. cbn [detect]. rewrite String.eqb_refl.
  change (String.eqb "" "") with true. cbv iota. destruct (string_dec (extension f) "") as [Ef|Ef].
  - rewrite Ef. destruct r as [|f' r].
    + cbn [detect]. split; [congruence|]. intros (pre & post & E & P & A & B). destruct pre as [|p pre].
      * cbn in E. subst post. apply Forall_cons_iff in B. destruct B. congruence.
      * injection E as <- E. symmetry in E. apply app_eq_nil in E. tauto.
    + rewrite IH by discriminate. split.
      * intros (pre & post & E & P & A & B). exists (f :: pre), post. rewrite E. auto.
      * intros (pre & post & E & P & A & B). destruct pre as [|p pre].
        { cbn in E. subst post. apply Forall_cons_iff in B. destruct B. congruence. }
        injection E as <- E. apply Forall_cons_iff in A. exists pre, post. tauto.
  - rewrite detect_fixed by exact Ef. split.
    + intros [A ->]. exists [], (f :: r). split; [reflexivity|]. split; [discriminate|]. split; [constructor|]. destruct r; constructor; auto.
    + intros (pre & post & E & P & A & B). destruct pre as [|p pre].
      * cbn in E. subst post. apply Forall_cons_iff in B. destruct B as [B1 B2]. rewrite B1. split; [exact B2|]. destruct r; reflexivity.
      * injection E as <- E. apply Forall_cons_iff in A. tauto.
Qed.
Lemma lower_app a s : lower (String a s) = String (lower_char a) (lower s). Proof. reflexivity. Qed.
(** C78: lower case: the 26 letters of A to Z become those of a to z, nothing else changes. *)
Theorem C78_lower : (forall n a, String.get n "ABCDEFGHIJKLMNOPQRSTUVWXYZ" = Some a -> String.get n "abcdefghijklmnopqrstuvwxyz" = Some (lower_char a))
  /\ (forall a, (forall n, String.get n "ABCDEFGHIJKLMNOPQRSTUVWXYZ" <> Some a) -> lower_char a = a)
  /\ (forall n s, String.get n (lower s) = option_map lower_char (String.get n s)).
Proof.
  split; [|split].
  - intros n a H. do 26 (destruct n as [|n]; [injection H as <-; reflexivity|]). destruct n; discriminate H.
  - intros a H. unfold lower_char. destruct ((65 <=? nat_of_ascii a)%nat && (nat_of_ascii a <=? 90)%nat) eqn:E; [exfalso|reflexivity].
    apply (H (nat_of_ascii a - 65)%nat). destruct a as [[|] [|] [|] [|] [|] [|] [|] [|]]; try discriminate E; reflexivity.
  - intros n s. revert n. induction s as [|b s IH]; intros n; destruct n; try reflexivity. exact (IH n).
Qed.
Lemma extension_dot f : extension f = "" \/ exists e, extension f = String "." e.
Proof.
  unfold extension. cbv zeta. destruct (String.eqb _ ".."); [left; reflexivity|]. destruct (after_last "/" f f) as [|a r]; [left; reflexivity|].
  clear a. assert (G : forall acc, (acc = "" \/ exists e, acc = String "." e) -> from_last "." r acc = "" \/ exists e, from_last "." r acc = String "." e).
  { induction r as [|b r IH]; intros acc H; [exact H|]. cbn. apply IH. destruct (Ascii.eqb_spec b "."); [subst b; eauto|exact H]. }
  apply G. auto.
Qed.
(** C78: a given type of track files is taken in lower case, and refused if it is not one of the four. *)
Theorem C78_tracks_given m files s t : reads_files m -> m "tracks-file-type" <> Empty -> (tracks_correct m files s = Ok t <-> files <> [] /\ t = lower s /\ In t file_types).
Proof.
  intros [R1 R2] G. unfold tracks_correct. rewrite R2.
  assert (is_empty (m "read-line") = false) as -> by (destruct (m "read-line"); [congruence|reflexivity|reflexivity]).
  assert (is_empty (m "tracks-file-type") = false) as -> by (destruct (m "tracks-file-type"); [congruence|reflexivity|reflexivity]).
  cbn [negb andb]. destruct files as [|f r]; [split; [discriminate|intros [H _]; congruence]|]. cbn [bindO].
  destruct (mem (lower s) file_types) eqn:M.
  - split; [intros [= <-]; split; [discriminate|]; split; [reflexivity|]; apply mem_In; exact M|intros (_ & -> & _); reflexivity].
  - split; [discriminate|]. intros (_ & -> & I). apply mem_In in I. congruence.
Qed.
(** C78: without a given type, the files have to have the same extension, one of the four in upper or lower case; files without extension may precede them. *)
Theorem C78_tracks_detected m files s t : reads_files m -> detects m -> (tracks_correct m files s = Ok t <->
  In t file_types /\ exists pre post e, files = pre ++ post /\ post <> [] /\ Forall (fun f => extension f = "") pre /\ Forall (fun f => extension f = String "." e) post /\ lower e = t).
Proof.
  intros [R1 R2] (D1 & D2 & D3). unfold tracks_correct. rewrite R2, D1, D2, D3. cbn [is_empty andb].
  assert (negb (is_empty (m "read-line")) = true) as -> by (destruct (m "read-line"); [congruence|reflexivity|reflexivity]). cbn [negb andb].
  destruct files as [|f0 r0]; [split; [discriminate|intros (_ & pre & post & e & E & P & _); symmetry in E; apply app_eq_nil in E; tauto]|].
  assert (NE : f0 :: r0 <> []) by discriminate. revert NE. generalize (f0 :: r0) as files. clear f0 r0. intros files NE.
  split.
  - intros H. destruct (detect files "" s) as [d| | |] eqn:Dt; try discriminate. cbn [bindO] in H.
    destruct (mem (lower (strip_dot d)) file_types) eqn:M; [|discriminate]. injection H as <-. split; [apply mem_In; exact M|].
    assert (d <> "") by (intros ->; cbn in M; discriminate).
    apply (detect_spec files d s) in Dt; [|assumption|assumption]. destruct Dt as (pre & post & E & P & A & B).
    destruct post as [|p post]; [congruence|]. destruct (extension_dot p) as [X|[e X]]; [apply Forall_cons_iff in B; destruct B; congruence|].
    assert (d = String "." e) as -> by (apply Forall_cons_iff in B; destruct B; congruence). exists pre, (p :: post), e. repeat split; auto.
  - intros (I & pre & post & e & E & P & A & B & L).
    assert (Dt : detect files "" s = Ok (String "." e)) by (apply detect_spec; [discriminate|assumption|eauto 6]).
    rewrite Dt. cbn [bindO strip_dot]. rewrite L. rewrite (proj2 (mem_In t file_types) I). reflexivity.
Qed.
(** C78: with read-line, files and types of files do not matter. *)
Theorem C78_read_line m files s : flag m "read-line" = true -> tracks_correct m files s = Ok s.
Proof. intros R. unfold tracks_correct. rewrite R. rewrite andb_false_r. reflexivity. Qed.

(** *** columns *)
Lemma split_nonempty c s : split_on c s <> [].
Proof. induction s as [|a r IH]; cbn; [discriminate|]. destruct (Ascii.eqb a c); [discriminate|]. destruct (split_on c r); discriminate. Qed.
Lemma concat_cons c x l : l <> [] -> String.concat (String c "") (x :: l) = (x ++ String c (String.concat (String c "") l))%string.
Proof. destruct l; [congruence|reflexivity]. Qed.
Lemma concat_char c a x l : String.concat (String c "") (String a x :: l) = String a (String.concat (String c "") (x :: l)).
Proof. destruct l; reflexivity. Qed.
Lemma split_concat c s : String.concat (String c "") (split_on c s) = s /\ Forall (fun x => ~ has c x) (split_on c s).
Proof.
  induction s as [|a r [IH1 IH2]]; [split; [reflexivity|repeat constructor; intros []]|]. cbn [split_on]. destruct (Ascii.eqb_spec a c) as [->|N].
  - rewrite concat_cons by apply split_nonempty. rewrite IH1. split; [reflexivity|]. constructor; [intros []|exact IH2].
  - pose proof (split_nonempty c r) as NE. destruct (split_on c r) as [|x l]; [congruence|]. rewrite concat_char, IH1. split; [reflexivity|].
    apply Forall_cons_iff in IH2. destruct IH2. constructor; [|assumption]. cbn. intros [E|E]; [congruence|contradiction].
Qed.
Lemma split_unique c l : l <> [] -> Forall (fun x => ~ has c x) l -> split_on c (String.concat (String c "") l) = l.
Proof.
  induction l as [|x l IH]; intros NE A; [congruence|]. apply Forall_cons_iff in A. destruct A as [Ax Al]. destruct l as [|y l].
  - cbn [String.concat]. clear -Ax. induction x as [|a r IH]; [reflexivity|]. cbn in *. destruct (Ascii.eqb_spec a c); [tauto|]. rewrite IH by tauto. reflexivity.
  - rewrite concat_cons by discriminate. rewrite <- (IH ltac:(discriminate) Al) at 2. generalize (String.concat (String c "") (y :: l)) as s. intros s. clear -Ax.
    induction x as [|a r IH]; cbn in *; [rewrite Ascii.eqb_refl; reflexivity|]. destruct (Ascii.eqb_spec a c); [tauto|]. rewrite IH by tauto. reflexivity.
Qed.
(** C78: the ids of edges are collected exactly if edge_ids is among the columns, a list separated by commas. *)
Theorem C78_edge_ids columns : export_edge_ids columns = true <-> exists l, columns = String.concat "," l /\ Forall (fun x => ~ has "," x) l /\ In "edge_ids" l.
Proof.
  unfold export_edge_ids. rewrite mem_In. split.
  - intros I. exists (split_on "," columns). destruct (split_concat "," columns) as [E A]. auto.
  - intros (l & -> & A & I). rewrite split_unique; [exact I|destruct l; [contradiction|discriminate]|exact A].
Qed.

(** *** whole modes *)
  (** exactly one of the four modes *)
  Definition one_mode (m : vm) : Prop :=
    exists n, In n ["prepare"; "match"; "server"; "compare"] /\ flag m n = true /\ forall n', In n' ["prepare"; "match"; "server"; "compare"] -> flag m n' = true -> n' = n.
  Lemma one_mode_spec m : Nat.eqb (count m) 1 = true <-> one_mode m.
  Proof.
    unfold count, one_mode. cbn [In]. split.
    - intros H. destruct (flag m "prepare") eqn:A, (flag m "match") eqn:B, (flag m "server") eqn:C, (flag m "compare") eqn:D; try discriminate;
        [exists "prepare"|exists "match"|exists "server"|exists "compare"]; (split; [tauto|split; [assumption|]]); intros n' [<-|[<-|[<-|[<-|[]]]]] E; congruence.
    - intros (n & I & T & U). assert (V : forall k, (k = "prepare" \/ k = "match" \/ k = "server" \/ k = "compare") -> k <> n -> flag m k = false).
      { intros k Ik Nk. destruct (flag m k) eqn:E; [|reflexivity]. exfalso. apply Nk, U; [|exact E]. intuition. }
      destruct I as [<-|[<-|[<-|[<-|[]]]]]; rewrite T; rewrite !V by (tauto || discriminate); reflexivity.
  Qed.
  Definition files_ok (m : vm) : Prop :=
    str m "graph-file" <> "" /\ str m "index-file" <> "" /\ str m "tags-file" <> ""
    /\ str m "graph-file" <> str m "index-file" /\ str m "graph-file" <> str m "tags-file" /\ str m "index-file" <> str m "tags-file".
  Lemma files_ok_spec m : files_correct m = true <-> files_ok m.
  Proof.
    unfold files_correct, files_ok. rewrite !andb_true_iff, !negb_true_iff, !String.eqb_neq.
    set (g := str m "graph-file"). set (i := str m "index-file"). set (t := str m "tags-file").
    assert (L : Nat.eqb (length (nodup string_dec [g; i; t])) 3 = true <-> g <> i /\ g <> t /\ i <> t).
    { cbn [nodup]. destruct (in_dec string_dec g [i; t]) as [I|I], (in_dec string_dec i [t]) as [J|J], (in_dec string_dec t []) as [K|K]; try contradiction; cbn [length Nat.eqb];
        cbn [In] in *; (split; [intros; try discriminate; intuition congruence|intros; try reflexivity; exfalso; intuition congruence]). }
    tauto.
  Qed.

Section Modes.
  Variable is_directory : string -> bool.
  Variable filter_pattern : string -> bool.
  Variable latlong : Z -> option bool.
  Definition srs_ok (m : vm) (p : string) : Prop :=
    (0 <= int m (p ++ "srs") 0)%Z /\ (named_type (str m (p ++ "srs-type")) = Invalid -> latlong (int m (p ++ "srs") 0) <> None).
  Definition transform_ok (m : vm) (p : string) : Prop :=
    srs_ok m p /\ ((0 <= int m (p ++ "transform-srs") (-1))%Z -> named_type (str m (p ++ "transform-srs-type")) = Invalid -> latlong (int m (p ++ "transform-srs") (-1)) <> None).
  Lemma srs_ok_spec m p : srs_ok m p <-> exists s, srs_correct latlong m p = Ok s.
  Proof.
    unfold srs_ok, srs_correct, compute_srs, detected_type. destruct (Z.ltb_spec (int m (p ++ "srs") 0) 0).
    - split; [lia|intros [s [=]]].
    - destruct (named_type _); [destruct (latlong (int m (p ++ "srs") 0)) as [[]|]| | |]; cbn [bindO]; split; try (eexists; reflexivity); try (intros; split; congruence || lia);
        [intros [_ H']; exfalso; apply H'; reflexivity|intros [s [=]]].
  Qed.
  Lemma transform_ok_spec m p : transform_ok m p <-> exists s, srs_transform_correct latlong m p = Ok s.
  Proof. unfold transform_ok, srs_ok, srs_transform_correct. rewrite C77_refused. tauto. Qed.
  (** C78: matching begins exactly if there is one mode, the input is a directory, codes and types are right, the three files have three names,
      the track files are right and search, model and state size are known. *)
  Theorem C78_match_begins m : (exists c, match_correct is_directory latlong m = Some c) <->
    one_mode m /\ is_directory (str m "input") = true /\ srs_ok m "network-" /\ files_ok m
    /\ (exists t, tracks_correct m (strs m "tracks") (str m "tracks-file-type") = Ok t) /\ transform_ok m "tracks-"
    /\ In (str m "candidate-search") ["circle"; "nearest"; "combined"; "next"]
    /\ In (str m "model") ["policy-iteration"; "value-iteration"; "q-learning"; "viterbi"] /\ (int m "state-size" 0 = 2 \/ int m "state-size" 0 = 3)%Z.
  Proof.
    rewrite <- one_mode_spec, srs_ok_spec, <- files_ok_spec, transform_ok_spec. unfold match_correct, mode_correct.
    assert (Sz : state_size_ok m = true <-> (int m "state-size" 0 = 2 \/ int m "state-size" 0 = 3)%Z).
    { unfold state_size_ok. rewrite andb_true_iff, !Z.leb_le. lia. }
    rewrite <- Sz. change ["circle"; "nearest"; "combined"; "next"] with searches. change ["policy-iteration"; "value-iteration"; "q-learning"; "viterbi"] with models.
    rewrite <- !mem_In. split.
    - intros [c E]. destruct (Nat.eqb (count m) 1) eqn:H1; [|discriminate]. destruct (is_directory _) eqn:H2; [|discriminate].
      destruct (srs_correct _ _ _) as [n| | |] eqn:H3; try discriminate. destruct (files_correct m) eqn:H4; [|discriminate].
      destruct (tracks_correct _ _ _) as [t| | |] eqn:H5; try discriminate. destruct (srs_transform_correct _ _ _) as [s| | |] eqn:H6; try discriminate.
      destruct (mem _ searches) eqn:H7; [|discriminate]. destruct (mem _ models) eqn:H8; [|discriminate]. destruct (state_size_ok m) eqn:H9; [|discriminate].
      repeat split; eauto.
    - intros (H1 & H2 & [n H3] & H4 & [t H5] & [s H6] & H7 & H8 & H9). rewrite H1, H2, H3, H4, H5, H6, H7, H8, H9. eexists. reflexivity.
  Qed.
  Definition search_name (s : search) : string := match s with CIRCLE => "circle" | NEAREST => "nearest" | COMBINED => "combined" | NEXT => "next" end.
  Definition model_name (s : model) : string :=
    match s with POLICY_ITERATION => "policy-iteration" | VALUE_ITERATION => "value-iteration" | Q_LEARNING => "q-learning" | VITERBI => "viterbi" end.
  (** C78: then it works with what was asked for: quiet goes before verbose; the radius lies between its limits, which are the given ones if these permit it;
      one candidate is searched for with next; turns within edges are also allowed if nothing is adopted and they are not mentioned. *)
  Theorem C78_match m c : match_correct is_directory latlong m = Some c ->
    c_verbose c = flag m "verbose" && negb (flag m "quiet")
    /\ srs_correct latlong m "network-" = Ok (c_network c) /\ srs_transform_correct latlong m "tracks-" = Ok (c_tracks c)
    /\ tracks_correct m (strs m "tracks") (str m "tracks-file-type") = Ok (c_type c) /\ c_mapped c = memory_correct m /\ c_edge_ids c = export_edge_ids (str m "columns")
    /\ search_name (c_search c) = str m "candidate-search" /\ model_name (c_model c) = str m "model"
    /\ c_k c = (if string_dec (str m "candidate-search") "next" then 1 else int m "k-nearest" 0)%Z
    /\ c_radius c = num m "radius" /\ (c_lower c <= c_radius c <= c_upper c)%Q
    /\ (num m "radius-lower-limit" <= num m "radius" -> c_lower c = num m "radius-lower-limit")%Q /\ (num m "radius" <= num m "radius-upper-limit" -> c_upper c = num m "radius-upper-limit")%Q
    /\ (c_lower c <= num m "radius-lower-limit")%Q /\ (num m "radius-upper-limit" <= c_upper c)%Q
    /\ (c_within c = true <-> flag m "within-edge-turns" = true
         \/ (defaulted (m "within-edge-turns") = true /\ flag m "candidate-adoption-nearby" = false /\ flag m "candidate-adoption-siblings" = false /\ flag m "candidate-adoption-reverse" = false)).
  Proof.
    intros E. pose proof (proj1 (C78_match_begins m) (ex_intro _ c E)) as (_ & _ & _ & _ & _ & _ & Is & Im & _). revert E. unfold match_correct, mode_correct.
    destruct (Nat.eqb (count m) 1); [|discriminate]. destruct (is_directory _); [|discriminate].
    destruct (srs_correct _ _ _) as [n| | |]; try discriminate. destruct (files_correct m); [|discriminate].
    destruct (tracks_correct _ _ _) as [t| | |]; try discriminate. destruct (srs_transform_correct _ _ _) as [s| | |]; try discriminate.
    destruct (_ && _); [|discriminate]. intros [= <-].
    cbn [c_verbose c_network c_tracks c_type c_mapped c_edge_ids c_search c_model c_k c_radius c_lower c_upper c_within].
    do 6 (split; [reflexivity|]).
    split; [cbn [In] in Is; destruct Is as [<-|[<-|[<-|[<-|[]]]]]; reflexivity|].
    split; [cbn [In] in Im; destruct Im as [<-|[<-|[<-|[<-|[]]]]]; reflexivity|].
    split; [unfold k_correct; destruct (String.eqb_spec (str m "candidate-search") "next"), (string_dec (str m "candidate-search") "next"); congruence|].
    split; [reflexivity|]. unfold lower_correct, upper_correct, Qltb.
    destruct (Qle_bool (num m "radius-lower-limit") (num m "radius")) eqn:L1, (Qle_bool (num m "radius") (num m "radius-upper-limit")) eqn:L2; cbn [negb];
      try apply Qle_bool_iff in L1; try apply Qle_bool_iff in L2;
      try (assert (L1' : (num m "radius" < num m "radius-lower-limit")%Q) by (apply Qnot_le_lt; intros X; apply Qle_bool_iff in X; congruence));
      try (assert (L2' : (num m "radius-upper-limit" < num m "radius")%Q) by (apply Qnot_le_lt; intros X; apply Qle_bool_iff in X; congruence)).
    all: repeat match goal with |- _ /\ _ => split end; try assumption; try apply Qle_refl; try (apply Qlt_le_weak; assumption); try reflexivity;
      try (intros X; exfalso; match goal with A : (?x < ?y)%Q, B : (?y <= ?x)%Q |- _ => exact (Qlt_not_le _ _ A B) end).
    all: unfold within_correct; destruct (flag m "within-edge-turns"), (defaulted (m "within-edge-turns")), (flag m "candidate-adoption-nearby"), (flag m "candidate-adoption-siblings"), (flag m "candidate-adoption-reverse");
      cbn [andb negb]; intuition congruence.
  Qed.

  (** C78: preparation begins exactly if there is one mode, and format, profile, tag filters, codes and types, file names and simplification are right. *)
  Theorem C78_prepare_begins m : (exists c, prepare_correct filter_pattern latlong m = Some c) <->
    one_mode m /\ In (str m "format") ["osm"; "arc-node"; "seattle"; "melbourne"; "giscup"]
    /\ (str m "osm-profile" = "car" \/ (str m "osm-profile" = "manual" /\ forall n, In n ["osm-query"; "osm-filter"; "osm-oneway"; "osm-oneway-reverse"] -> filter_pattern (str m n) = true))
    /\ transform_ok m "" /\ files_ok m /\ In (str m "simplify") ["none"; "all"; "osm-aware"].
  Proof.
    rewrite <- one_mode_spec, transform_ok_spec, <- files_ok_spec. unfold prepare_correct, mode_correct.
    change ["osm"; "arc-node"; "seattle"; "melbourne"; "giscup"] with formats. change ["none"; "all"; "osm-aware"] with simplifications. rewrite <- !mem_In.
    assert (P : profile_correct filter_pattern m = true <-> (str m "osm-profile" = "car" \/ (str m "osm-profile" = "manual" /\ forall n, In n ["osm-query"; "osm-filter"; "osm-oneway"; "osm-oneway-reverse"] -> filter_pattern (str m n) = true))).
    { unfold profile_correct. rewrite andb_true_iff, mem_In. cbn [In]. destruct (String.eqb_spec (str m "osm-profile") "manual") as [Em|Em].
      - rewrite !andb_true_iff. split.
        + intros [_ [[[A B] C] D]]. right. split; [exact Em|]. intros n [<-|[<-|[<-|[<-|[]]]]]; assumption.
        + intros [H|[_ H]]; [congruence|]. split; [right; left; congruence|]. repeat split; apply H; tauto.
      - split; [intros [[H|[H|[]]] _]; [left; congruence|congruence]|]. intros [H|[H _]]; [split; [left; congruence|reflexivity]|congruence]. }
    rewrite <- P. split.
    - intros [c E]. destruct (Nat.eqb (count m) 1) eqn:H1; [|discriminate]. destruct (mem _ formats) eqn:H2; [|discriminate]. destruct (profile_correct _ m) eqn:H3; [|discriminate]. cbn [andb] in E.
      destruct (srs_transform_correct _ _ _) as [s| | |] eqn:H4; try discriminate. destruct (files_correct m) eqn:H5; [|discriminate]. destruct (mem _ simplifications) eqn:H6; [|discriminate].
      repeat split; eauto.
    - intros (H1 & H2 & H3 & [s H4] & H5 & H6). rewrite H1, H2, H3, H4, H5, H6. eexists. reflexivity.
  Qed.
  (** C78: duplicate nodes are removed as asked for, and else exactly for the Seattle format. *)
  Theorem C78_prepare md cli config m c : parse options_prepare md cli config = Ok m -> prepare_correct filter_pattern latlong m = Some c ->
    p_verbose c = flag m "verbose" && negb (flag m "quiet") /\ p_format c = str m "format" /\ p_simplify c = str m "simplify" /\ srs_transform_correct latlong m "" = Ok (p_srs c)
    /\ p_mapped c = memory_correct m /\ p_temporary c = prepare_memory_correct m
    /\ p_duplicate_nodes c = first_asked [ask m "remove-duplicate-nodes"] (if string_dec (str m "format") "seattle" then true else false).
  Proof.
    intros E. unfold prepare_correct, mode_correct. destruct (Nat.eqb (count m) 1); [|discriminate]. destruct (_ && _); [|discriminate].
    destruct (srs_transform_correct _ _ _) as [s| | |]; try discriminate. destruct (_ && _); [|discriminate]. intros [= <-].
    cbn [p_verbose p_format p_simplify p_srs p_mapped p_temporary p_duplicate_nodes]. do 6 (split; [reflexivity|]).
    destruct (C78_names 0 options_prepare) as [N C]; [cbn [In]; tauto|].
    destruct (bool_option _ _ _ _ _ "remove-duplicate-nodes" false N C E eq_refl) as [B1 B2]. unfold duplicate_nodes_correct. rewrite B1, B2.
    destruct (string_dec (str m "format") "seattle") as [->|Ns]; [rewrite String.eqb_refl|rewrite (proj2 (String.eqb_neq _ _) Ns)];
      destruct (ask m "remove-duplicate-nodes"); reflexivity.
  Qed.

  (** C78: comparison begins exactly if there is one mode, and files, codes and types of both sides are right. *)
  Theorem C78_compare_begins m : (exists c, compare_correct latlong m = Some c) <->
    one_mode m /\ (exists t, tracks_correct m (strs m "match-tracks") (str m "match-tracks-file-type") = Ok t) /\ transform_ok m "match-"
    /\ (exists t, tracks_correct m (strs m "compare-tracks") (str m "compare-tracks-file-type") = Ok t) /\ transform_ok m "compare-".
  Proof.
    rewrite <- one_mode_spec, !transform_ok_spec. unfold compare_correct, mode_correct. split.
    - intros [c E]. destruct (Nat.eqb (count m) 1) eqn:H1; [|discriminate].
      destruct (tracks_correct m (strs m "match-tracks") _) as [a| | |]; try discriminate. destruct (srs_transform_correct latlong m "match-") as [s| | |]; try discriminate.
      destruct (tracks_correct m (strs m "compare-tracks") _) as [b| | |]; try discriminate. destruct (srs_transform_correct latlong m "compare-") as [t| | |]; try discriminate.
      repeat split; eauto.
    - intros (H1 & [a H2] & [s H3] & [b H4] & [t H5]). rewrite H1, H2, H3, H4, H5. eexists. reflexivity.
  Qed.
  Theorem C78_compare m c : compare_correct latlong m = Some c ->
    k_verbose c = flag m "verbose" && negb (flag m "quiet")
    /\ tracks_correct m (strs m "match-tracks") (str m "match-tracks-file-type") = Ok (k_match_type c) /\ srs_transform_correct latlong m "match-" = Ok (k_match c)
    /\ tracks_correct m (strs m "compare-tracks") (str m "compare-tracks-file-type") = Ok (k_compare_type c) /\ srs_transform_correct latlong m "compare-" = Ok (k_compare c).
  Proof.
    unfold compare_correct, mode_correct. destruct (Nat.eqb (count m) 1) eqn:H1; [|discriminate].
    destruct (tracks_correct m (strs m "match-tracks") _) as [a| | |]; try discriminate. destruct (srs_transform_correct latlong m "match-") as [s| | |]; try discriminate.
    destruct (tracks_correct m (strs m "compare-tracks") _) as [b| | |]; try discriminate. destruct (srs_transform_correct latlong m "compare-") as [t| | |]; try discriminate.
    intros [= <-]. repeat split.
  Qed.
End Modes.

(** C78: in comparison the type is always found from the extensions, whatever type is given for either side. *)
Theorem C78_compare_type cores md cli config m files s s' : parse (options_compare cores) md cli config = Ok m -> flag m "read-line" = false ->
  files <> [] -> tracks_correct m files s = tracks_correct m files s'.
Proof.
  intros E R NE. destruct (C78_names cores (options_compare cores)) as [N C]; [cbn [In]; tauto|].
  pose proof (C78_sources _ _ _ _ _ N C E) as M. unfold tracks_correct. rewrite R, !(M "tracks-file-type"), !(M "match-file-type"), !(M "compare-file-type").
  change (find_desc (options_compare cores) "tracks-file-type") with (@None desc). change (find_desc (options_compare cores) "match-file-type") with (@None desc).
  change (find_desc (options_compare cores) "compare-file-type") with (@None desc). cbn [is_empty andb].
  destruct (is_empty (m "read-line")) eqn:RL.
  - pose proof (C78_kinds _ _ _ _ _ "read-line" _ N C E eq_refl) as K. destruct (m "read-line"); [discriminate K| |]; discriminate.
  - destruct files as [|f r]; [congruence|]. reflexivity.
Qed.

(** **** Examples *)
Lemma ex_conf {A} (r : outcome vm) (f : vm -> option A) (Q : vm -> A -> Prop) :
  (match r with Ok m => match f m with Some c => Q m c | None => False end | _ => False end) -> exists m c, r = Ok m /\ f m = Some c /\ Q m c.
Proof. destruct r as [m| | |]; try contradiction. destruct (f m) as [c|] eqn:E; [|contradiction]. intros H. exists m, c. auto. Qed.
Lemma ex_ok (r : outcome vm) (Q : vm -> Prop) : (match r with Ok m => Q m | _ => False end) -> exists m, r = Ok m /\ Q m.
Proof. destruct r as [m| | |]; try contradiction. eauto. Qed.
Lemma not_ok (r : outcome vm) : (match r with Ok _ => False | _ => True end) -> forall m, r <> Ok m.
Proof. destruct r; [contradiction|discriminate|discriminate|discriminate]. Qed.
Definition no_files (s : string) : option source := None.
Definition conf_file (s : string) : option source := if String.eqb s "options.conf" then Some [("radius", VQ 50); ("model", VS "viterbi"); ("memory-mapped-tags", VB true)] else None.
Definition cli_match : source :=
  [("match", VB true); ("input", VS "net"); ("tracks", VL ["a.csv"]); ("tracks", VL ["b.csv"]); ("radius", VQ 20000); ("memory-mapping", VB false); ("columns", VS "id,edge_ids"); ("quiet", VB true); ("verbose", VB true)].
Definition known (c : Z) : option bool := if (c =? 4326)%Z then Some true else None.
Example C78_match_ex : exists m c, parse (options_match 4) MATCH cli_match conf_file = Ok m /\ match_correct (fun d => String.eqb d "net") known m = Some c
  /\ c_verbose c = false /\ c_mapped c = (false, false, true) /\ c_type c = "csv" /\ c_edge_ids c = true /\ c_model c = VITERBI /\ c_search c = COMBINED
  /\ c_radius c = 20000%Q /\ c_upper c = 20000%Q /\ c_lower c = 200%Q /\ strs m "tracks" = ["a.csv"; "b.csv"].
Proof. apply (ex_conf (parse _ _ _ _)). vm_compute. repeat split; reflexivity. Qed.
Example C78_refused_ex : (forall m, parse (options_match 4) MATCH (("radios", VQ 5) :: cli_match) conf_file <> Ok m)
  /\ (forall m, parse (options_match 4) MATCH (("radius", VQ 5) :: cli_match) conf_file <> Ok m)
  /\ (forall m, parse (options_match 4) MATCH (("config", VS "my.conf") :: cli_match) conf_file <> Ok m)
  /\ exists m, parse options_mode NONE cli_match conf_file = Ok m.
Proof. split; [apply not_ok; vm_compute; exact I|]. split; [apply not_ok; vm_compute; exact I|]. split; [apply not_ok; vm_compute; exact I|].
  destruct (ex_ok (parse options_mode NONE cli_match conf_file) (fun _ => True)) as [m [E _]]; [vm_compute; exact I|eauto]. Qed.
Definition cli_prepare : source :=
  [("prepare", VB true); ("file", VL ["nodes.csv"]); ("output", VS "net"); ("format", VS "seattle"); ("memory-mapped-preparation", VB false); ("memory-mapped-osm-tags", VB true)].
Example C78_prepare_ex : exists m c, parse options_prepare PREPARE cli_prepare no_files = Ok m /\ prepare_correct (fun _ => false) known m = Some c
  /\ p_duplicate_nodes c = true /\ p_mapped c = (true, true, true) /\ p_temporary c = (false, false, false, false, true).
Proof. apply (ex_conf (parse _ _ _ _)). vm_compute. repeat split; reflexivity. Qed.
Definition cli_compare (types : source) : source := [("compare", VB true); ("match-tracks", VL ["out/matches.csv"]); ("compare-tracks", VL ["truth.CSV"])] ++ types.
Example C78_compare_ex : exists m c, parse (options_compare 4) COMPARE (cli_compare []) no_files = Ok m /\ compare_correct known m = Some c /\ k_match_type c = "csv" /\ compare_types_ok c = true.
Proof. apply (ex_conf (parse _ _ _ _)). vm_compute. repeat split; reflexivity. Qed.
Example C78_extension_ex : extension "data/v1.2/track.GPX" = ".GPX" /\ extension "data/v1.2/track" = "" /\ extension ".csv" = "" /\ extension "a.tar.gz" = ".gz".
Proof. repeat split. Qed.

(** C78: in comparison a given type is not used: tracks of another type are read as what their extension says, and files with other extensions are refused. *)
Theorem C78_compare_type_refuted :
  (exists m c, parse (options_compare 4) COMPARE (cli_compare [("match-tracks-file-type", VS "gpx")]) no_files = Ok m /\ compare_correct known m = Some c /\ k_match_type c = "csv")
  /\ exists m, parse (options_compare 4) COMPARE [("compare", VB true); ("match-tracks", VL ["matches.txt"]); ("match-tracks-file-type", VS "csv"); ("compare-tracks", VL ["truth.csv"])] no_files = Ok m
       /\ compare_correct known m = None.
Proof.
  split; [apply (ex_conf (parse _ _ _ _)); vm_compute; reflexivity|apply (ex_ok (parse _ _ _ _)); vm_compute; reflexivity].
Qed.
(** C78: comparison begins with files that it then cannot read. *)
Theorem C78_compare_list_refuted : exists m c, parse (options_compare 4) COMPARE [("compare", VB true); ("match-tracks", VL ["matches.list"]); ("compare-tracks", VL ["truth.csv"])] no_files = Ok m
  /\ compare_correct known m = Some c /\ compare_types_ok c = false.
Proof. apply (ex_conf (parse _ _ _ _)). vm_compute. reflexivity. Qed.
(** C78: that extensions differ depends on the order of the files. *)
Theorem C78_inconsistent_refuted : exists m, parse (options_match 4) MATCH cli_match no_files = Ok m
  /\ tracks_correct m ["ride"; "ride.csv"] "" = Ok "csv" /\ tracks_correct m ["ride.csv"; "ride"] "" = Throw "" /\ extension "ride" <> extension "ride.csv".
Proof. apply (ex_ok (parse _ _ _ _)). vm_compute. split; [reflexivity|]. split; [reflexivity|discriminate]. Qed.
(** C78: temporary files may have the names of the files of the network, and two names may mean the same file. *)
Theorem C78_files_refuted :
  (exists m c, parse options_prepare PREPARE (("index-build-file", VS "graph.bin") :: cli_prepare) no_files = Ok m /\ prepare_correct (fun _ => false) known m = Some c
     /\ str m "index-build-file" = str m "graph-file")
  /\ exists m c, parse options_prepare PREPARE (("tags-file", VS "./graph.bin") :: cli_prepare) no_files = Ok m /\ prepare_correct (fun _ => false) known m = Some c.
Proof.
  split; [apply (ex_conf (parse _ _ _ _)); vm_compute; reflexivity|].
  destruct (ex_conf (parse options_prepare PREPARE (("tags-file", VS "./graph.bin") :: cli_prepare) no_files) (prepare_correct (fun _ => false) known) (fun _ _ => True)) as (m & c & A & B & _);
    [vm_compute; exact I|eauto].
Qed.

Print Assumptions C78_sources.
Print Assumptions C78_refused.
Print Assumptions C78_tracks_detected.
Print Assumptions C78_extension.
Print Assumptions C78_edge_ids.
Print Assumptions C78_match.
Print Assumptions C78_prepare.
Print Assumptions C78_compare_type.
