(** Property C31: filter strings. *)
From Coq Require Import Ascii String.
From Verif Require Import Base ListAux OsmFilter.
Local Open Scope nat_scope.
Local Open Scope list_scope.

(** *** Specification vocabulary *)

(** cutting a string at every separator *)
Fixpoint split (c : ascii) (s : str) : list str :=
  match s with
  | [] => [[]]
  | a :: r => if Ascii.eqb a c then [] :: split c r
              else match split c r with [] => [[a]] | t :: ts => (a :: t) :: ts end
  end.
(** a trailing separator does not start another token *)
Fixpoint drop_last_empty (ts : list str) : list str :=
  match ts with
  | [] => []
  | [t] => match t with [] => [] | _ => [t] end
  | t :: r => t :: drop_last_empty r
  end.
(** text before and after the first separator *)
Fixpoint cut (c : ascii) (s : str) : option (str * str) :=
  match s with
  | [] => None
  | a :: r => if Ascii.eqb a c then Some ([], r)
              else match cut c r with None => None | Some (x, y) => Some (a :: x, y) end
  end.

(** a token as documented: result, key or result, key = value; a token without comma is a result only (its
    text also serves as key) *)
Definition rule_of (t : str) : rule :=
  match cut "," t with
  | None => mkRule (str_eqb t true_str) false t []
  | Some (b, r) =>
    match cut "=" r with
    | None => mkRule (str_eqb b true_str) false r []
    | Some (k, v) => mkRule (str_eqb b true_str) true k v
    end
  end.

(** printing *)
Definition print_bool (b : bool) : str := if b then of_string "true" else of_string "false".
Definition print_rule (r : rule) : str :=
  print_bool (r_result r) ++ ["," % char] ++ r_key r ++ (if r_has_value r then "=" % char :: r_value r else []).
Definition print (d : bool) (rs : list rule) : str :=
  print_bool d ++ flat_map (fun r => "|" % char :: print_rule r) rs.

(** rules that can be written down: the key avoids '|' and '=', the value avoids '|' *)
Definition printable (r : rule) : Prop :=
  ~ In "|" % char (r_key r) /\ ~ In "=" % char (r_key r) /\ ~ In "|" % char (r_value r) /\
  (r_has_value r = false -> r_value r = []).

(** *** Proofs *)
Lemma find_from_shift c s : forall here pos, pos <= here ->
  find_from c s here pos = match cut c s with None => None | Some (x, _) => Some (here + length x) end.
Proof.
  induction s as [|a r IH]; intros here pos H; cbn; [reflexivity|].
  destruct (Nat.leb_spec pos here); [|lia]. cbn [andb]. destruct (Ascii.eqb a c); [f_equal; cbn; lia|].
  rewrite IH by lia. destruct (cut c r) as [[x y]|]; [f_equal; cbn; lia|reflexivity].
Qed.

Lemma find_from_skip c p : forall s here pos, pos = here + length p ->
  find_from c (p ++ s) here pos = find_from c s pos pos.
Proof.
  induction p as [|a p IH]; intros s here pos E; cbn [app length] in *.
  - rewrite Nat.add_0_r in E; subst; reflexivity.
  - cbn [find_from]. destruct (Nat.leb_spec pos here); [lia|]. cbn [andb]. apply IH. lia.
Qed.

Lemma find_char_prefix c p s :
  find_char c (p ++ s) (length p) = match cut c s with None => None | Some (x, _) => Some (length p + length x) end.
Proof. unfold find_char. rewrite (find_from_skip c p s 0 (length p)) by reflexivity. apply find_from_shift. lia. Qed.

Lemma cut_spec c s x y : cut c s = Some (x, y) -> s = x ++ c :: y /\ ~ In c x.
Proof.
  revert x y. induction s as [|a r IH]; intros x y E; cbn in E; [discriminate|].
  destruct (Ascii.eqb_spec a c) as [->|Ne].
  - injection E as <- <-. split; [reflexivity|]. intros [].
  - destruct (cut c r) as [[x' y']|]; [|discriminate]. injection E as <- <-.
    destruct (IH x' y' eq_refl) as [-> N]. split; [reflexivity|]. intros [?|?]; auto.
Qed.
Lemma cut_none c s : cut c s = None -> ~ In c s.
Proof.
  induction s as [|a r IH]; cbn; intros E; [tauto|]. destruct (Ascii.eqb_spec a c) as [->|Ne]; [discriminate|].
  destruct (cut c r) as [[x' y']|]; [discriminate|]. intros [?|?]; [auto|]. apply IH; auto.
Qed.
Lemma cut_app c x y : ~ In c x -> cut c (x ++ c :: y) = Some (x, y).
Proof.
  induction x as [|a x IH]; cbn; intros N.
  - rewrite Ascii.eqb_refl. reflexivity.
  - destruct (Ascii.eqb_spec a c) as [->|Ne]; [exfalso; auto|]. rewrite IH by auto. reflexivity.
Qed.
Lemma cut_notin c x : ~ In c x -> cut c x = None.
Proof.
  induction x as [|a x IH]; cbn; intros N; [reflexivity|].
  destruct (Ascii.eqb_spec a c) as [->|Ne]; [exfalso; auto|]. rewrite IH by auto. reflexivity.
Qed.

Lemma substr_ok s pos n : pos <= length s ->
  substr s pos n = Some (match n with None => skipn pos s | Some k => firstn k (skipn pos s) end).
Proof. intros H. unfold substr. destruct (Nat.ltb_spec (length s) pos); [lia|reflexivity]. Qed.

Lemma skipn_prefix {A} (p s : list A) : skipn (length p) (p ++ s) = s.
Proof. rewrite skipn_app, skipn_all, Nat.sub_diag. reflexivity. Qed.
Lemma firstn_prefix {A} (p s : list A) : firstn (length p) (p ++ s) = p.
Proof. rewrite firstn_app, firstn_all, Nat.sub_diag. cbn. apply app_nil_r. Qed.

Lemma parse_token_ok t : parse_token t = Ok (rule_of t).
Proof.
  unfold parse_token, rule_of. rewrite (find_char_prefix "," [] t : find_char "," t 0 = _). cbn [length Nat.add].
  destruct (cut "," t) as [[b r]|] eqn:C.
  - apply cut_spec in C as [-> Nb]. rewrite substr_ok by lia. cbn [skipn]. rewrite firstn_prefix.
    assert (F : find_char "=" (b ++ ","%char :: r) (length b) =
                match cut "=" r with None => None | Some (x, _) => Some (length b + S (length x)) end).
    { rewrite find_char_prefix. cbn [cut]. destruct (Ascii.eqb_spec "," "="); [discriminate|].
      destruct (cut "=" r) as [[x y]|]; reflexivity. }
    rewrite F. assert (Lb : length b + 1 <= length (b ++ ","%char :: r)) by (rewrite app_length; cbn; lia).
    assert (Sk : skipn (length b + 1) (b ++ ","%char :: r) = r).
    { replace (b ++ ","%char :: r) with ((b ++ [","%char]) ++ r) by (rewrite <- app_assoc; reflexivity).
      replace (length b + 1) with (length (b ++ [","%char])) by (rewrite app_length; reflexivity). apply skipn_prefix. }
    destruct (cut "=" r) as [[k v]|] eqn:C2.
    + apply cut_spec in C2 as [-> Nk].
      rewrite substr_ok by exact Lb. rewrite Sk. rewrite substr_ok by (rewrite !app_length; cbn; rewrite app_length; cbn; lia).
      replace (length b + S (length k) - (length b + 1)) with (length k) by lia. rewrite firstn_prefix.
      replace (skipn (length b + S (length k) + 1) (b ++ ","%char :: k ++ "="%char :: v)) with v; [reflexivity|].
      replace (b ++ ","%char :: k ++ "="%char :: v) with ((b ++ ","%char :: k ++ ["="%char]) ++ v)
        by (rewrite <- app_assoc; cbn; rewrite <- app_assoc; reflexivity).
      replace (length b + S (length k) + 1) with (length (b ++ ","%char :: k ++ ["="%char]))
        by (rewrite app_length; cbn; rewrite app_length; cbn; lia).
      symmetry; apply skipn_prefix.
    + rewrite substr_ok by exact Lb. rewrite Sk. reflexivity.
  - rewrite !substr_ok by lia. reflexivity.
Qed.

Lemma split_nonempty c s : split c s <> [].
Proof. destruct s as [|a r]; cbn; [discriminate|]. destruct (Ascii.eqb a c); [discriminate|]. destruct (split c r); discriminate. Qed.

Lemma split_cut c s : split c s = match cut c s with None => [s] | Some (x, y) => x :: split c y end.
Proof.
  induction s as [|a r IH]; cbn; [reflexivity|]. destruct (Ascii.eqb a c); [reflexivity|]. rewrite IH.
  destruct (cut c r) as [[x y]|]; reflexivity.
Qed.

Lemma drop_cons t ts : ts <> [] -> drop_last_empty (t :: ts) = t :: drop_last_empty ts.
Proof. destruct ts; [congruence|reflexivity]. Qed.

Lemma parse_loop_ok p s : forall fuel, length s <= fuel ->
  parse_loop fuel (p ++ s) (length p) = Ok (map rule_of (drop_last_empty (split "|" s))).
Proof.
  remember (length s) as n eqn:En. revert p s En.
  induction n as [n IH] using (well_founded_induction lt_wf). intros p s En fuel Hf.
  destruct fuel as [|fuel]; cbn [parse_loop].
  - assert (s = []) by (destruct s; [reflexivity|cbn in *; lia]). subst s. rewrite app_nil_r, Nat.ltb_irrefl. reflexivity.
  - destruct (Nat.ltb_spec (length p) (length (p ++ s))) as [L|L].
    2: { rewrite app_length in L. assert (s = []) by (destruct s; [reflexivity|cbn in *; lia]). subst s. reflexivity. }
    rewrite find_char_prefix. rewrite substr_ok by lia. rewrite skipn_prefix. rewrite split_cut.
    destruct (cut "|" s) as [[x y]|] eqn:C.
    + apply cut_spec in C as [-> Nx]. replace (length p + length x - length p) with (length x) by lia.
      rewrite firstn_prefix, parse_token_ok. cbn [bindO].
      replace (p ++ x ++ "|"%char :: y) with ((p ++ x ++ ["|"%char]) ++ y) by (rewrite <- !app_assoc; reflexivity).
      replace (length p + length x + 1) with (length (p ++ x ++ ["|"%char])) by (rewrite !app_length; cbn; lia).
      rewrite app_length in En; cbn in En.
      rewrite (IH (length y)) by (try reflexivity; lia). cbn [bindO].
      rewrite drop_cons by apply split_nonempty. reflexivity.
    + replace (length (p ++ s) - length p) with (length s) by (rewrite app_length; lia).
      rewrite firstn_all, parse_token_ok. cbn [bindO].
      replace (parse_loop fuel (p ++ s) (length (p ++ s) + 1)) with (@Ok (list rule) []).
      2: { destruct fuel; cbn [parse_loop]; (destruct (Nat.ltb_spec (length (p ++ s) + 1) (length (p ++ s))); [lia|reflexivity]). }
      cbn [bindO drop_last_empty]. destruct s; [rewrite app_nil_r in L; lia|reflexivity].
Qed.

Lemma str_eqb_spec a b : str_eqb a b = true <-> a = b.
Proof.
  revert b. induction a as [|x a IH]; intros [|y b]; cbn; try (split; congruence).
  rewrite andb_true_iff, IH, Ascii.eqb_eq. split; [intros [-> ->]; reflexivity|intros [= -> ->]; auto].
Qed.

Lemma add_rules_tail rs : forall i f, 0 < i -> (forall r, In r rs -> r_has_value r = false -> r_value r = []) ->
  add_rules i rs f = mkFilter (f_default f) (f_rules f ++ rs).
Proof.
  induction rs as [|r rs IH]; intros i f Hi Hv; cbn [add_rules]; [rewrite app_nil_r; destruct f; reflexivity|].
  destruct (Nat.eqb_spec i 0); [lia|]. rewrite IH; [|lia|intros; apply Hv; auto; right; auto]. cbn. f_equal.
  rewrite <- app_assoc. f_equal. cbn. f_equal. specialize (Hv r (or_introl eq_refl)).
  destruct r as [b hv k v]; cbn in *. destruct hv; [reflexivity|]. rewrite Hv; reflexivity.
Qed.

Lemma print_bool_sep b c : In c (print_bool b) -> c <> "|"%char /\ c <> ","%char.
Proof. destruct b; cbn; intros H; repeat (destruct H as [<-|H]; [split; discriminate|]); destruct H. Qed.

Lemma rule_of_print r : printable r -> rule_of (print_rule r) = r.
Proof.
  intros (K1 & K2 & V1 & V2). destruct r as [b hv k v]; cbn in *. unfold rule_of, print_rule; cbn [r_result r_key r_value r_has_value].
  rewrite <- app_comm_cons. cbn [app]. rewrite cut_app by (intros H; apply print_bool_sep in H as [_ H]; congruence).
  assert (B : str_eqb (print_bool b) true_str = b) by (destruct b; vm_compute; reflexivity).
  destruct hv.
  - rewrite cut_app by exact K2. rewrite B. reflexivity.
  - rewrite app_nil_r, cut_notin by exact K2. rewrite B, (V2 eq_refl). reflexivity.
Qed.

Lemma print_rule_sep r : printable r -> ~ In "|"%char (print_rule r).
Proof.
  intros (K1 & K2 & V1 & V2) H. unfold print_rule in H. rewrite !in_app_iff in H.
  destruct H as [H|[[H|[]]|[H|H]]]; [apply print_bool_sep in H as [H _]; congruence|discriminate|contradiction|].
  destruct (r_has_value r); [|destruct H]. destruct H as [H|H]; [discriminate|contradiction].
Qed.

Lemma split_print rs : forall p, ~ In "|"%char p -> Forall printable rs ->
  split "|" (p ++ flat_map (fun r => "|"%char :: print_rule r) rs) = p :: map print_rule rs.
Proof.
  induction rs as [|r rs IH]; intros p Np F; cbn [flat_map map].
  - rewrite app_nil_r, split_cut, cut_notin by exact Np. reflexivity.
  - inversion F as [|? ? Pr Frs]; subst. rewrite <- app_comm_cons, split_cut, cut_app by exact Np.
    f_equal. apply IH; [apply print_rule_sep; exact Pr|exact Frs].
Qed.

Lemma drop_last_print p rs : p <> [] -> drop_last_empty (p :: map print_rule rs) = p :: map print_rule rs.
Proof.
  revert p. induction rs as [|r rs IH]; intros p Hp; cbn [map].
  - destruct p; [congruence|reflexivity].
  - rewrite drop_cons by discriminate. f_equal. apply IH. unfold print_rule. destruct (r_result r); discriminate.
Qed.

(** *** C31 *)

(** every string is parsed, without exception, token by token: cut at '|' (a trailing '|' starts no further
    token), each token read as documented *)
Theorem C31_parse (s : str) : parse_rules s = Ok (map rule_of (drop_last_empty (split "|" s))).
Proof. exact (parse_loop_ok [] s (length s) (le_n _)). Qed.

(** printing and parsing gives the rules back, in order *)
Theorem C31_round_trip (d : bool) (rs : list rule) :
  Forall printable rs ->
  parse_rules (print d rs) = Ok (mkRule d false (print_bool d) [] :: rs) /\
  create_tags_filter (print d rs) = Ok (mkFilter d rs).
Proof.
  intros F.
  assert (E : parse_rules (print d rs) = Ok (mkRule d false (print_bool d) [] :: rs)).
  { rewrite C31_parse. unfold print. rewrite split_print; [|intros H; apply print_bool_sep in H as [H _]; congruence|exact F].
    rewrite drop_last_print by (destruct d; discriminate). cbn [map]. f_equal. f_equal.
    - unfold rule_of. rewrite cut_notin by (intros H; apply print_bool_sep in H as [_ H]; congruence).
      destruct d; reflexivity.
    - rewrite map_map. rewrite <- (map_id rs) at 2. apply map_ext_in. intros r Hr. apply rule_of_print.
      rewrite Forall_forall in F. apply F; exact Hr. }
  split; [exact E|]. unfold create_tags_filter. rewrite E. f_equal. cbn [add_rules Nat.eqb].
  rewrite add_rules_tail; [reflexivity|lia|]. intros r Hr Hh. rewrite Forall_forall in F. apply (F r Hr); exact Hh.
Qed.

(** the created filter answers for every tag with the first rule that names it, otherwise with the default *)
Theorem C31_first_rule_decides (d : bool) (rs : list rule) (k v : str) :
  Forall printable rs ->
  exists f, create_tags_filter (print d rs) = Ok f /\
    let hits r := r_key r = k /\ (r_has_value r = true -> r_value r = v) in
    ((exists rs1 r rs2, rs = rs1 ++ r :: rs2 /\ hits r /\ (forall q, In q rs1 -> ~ hits q) /\ apply_filter f (k, v) = r_result r) \/
     ((forall q, In q rs -> ~ hits q) /\ apply_filter f (k, v) = d)).
Proof.
  intros F. exists (mkFilter d rs). split; [apply C31_round_trip; exact F|]. intros hits.
  unfold apply_filter; cbn [f_rules f_default fst snd].
  assert (M : forall r, matches r k v = true <-> hits r).
  { intros r. unfold matches, hits. rewrite andb_true_iff, str_eqb_spec, orb_true_iff, negb_true_iff, str_eqb_spec.
    destruct (r_has_value r); split; intros [A B]; split; auto; intros; [destruct B as [B|B]; [discriminate|auto]|discriminate]. }
  clear F. induction rs as [|r rs IH]; cbn [first_match]; [right; split; [intros q []|reflexivity]|].
  destruct (matches r k v) eqn:E.
  - left. exists [], r, rs. split; [reflexivity|]. split; [apply M; exact E|]. split; [intros q []|reflexivity].
  - assert (N : ~ hits r) by (intros H; apply M in H; congruence).
    destruct IH as [(rs1 & q & rs2 & -> & H1 & H2 & H3)|[H1 H2]].
    + left. exists (r :: rs1), q, rs2. split; [reflexivity|]. split; [exact H1|]. split; [|exact H3].
      intros q' [<-|Hq]; auto.
    + right. split; [|exact H2]. intros q [<-|Hq]; auto.
Qed.

(** every string gives a filter, whatever its tokens: the first token only supplies the default (false if there is no
    token at all), the later ones are the rules, in order *)
Theorem C31_any_string (s : str) :
  create_tags_filter s =
    Ok (match drop_last_empty (split "|" s) with
        | [] => mkFilter false []
        | t :: ts => mkFilter (r_result (rule_of t)) (map rule_of ts)
        end).
Proof.
  unfold create_tags_filter. rewrite C31_parse. f_equal.
  destruct (drop_last_empty (split "|" s)) as [|t ts]; [reflexivity|]. cbn [map add_rules Nat.eqb].
  rewrite add_rules_tail; [reflexivity|lia|]. intros r Hr Hv. apply in_map_iff in Hr as (u & <- & _).
  unfold rule_of in *. destruct (cut "," u) as [[b q]|]; [|reflexivity].
  destruct (cut "=" q) as [[k v]|]; cbn in *; [discriminate|reflexivity].
Qed.

Lemma first_match_rules rs k v : (forall r, In r rs -> r_result r = true) ->
  (first_match rs false k v = true <-> exists r, In r rs /\ matches r k v = true).
Proof.
  induction rs as [|r rs IH]; cbn [first_match]; intros R.
  - split; [discriminate|intros (r & [] & _)].
  - destruct (matches r k v) eqn:M.
    + split; [|intros _; apply R; left; reflexivity]. intros _. exists r. split; [left; reflexivity|exact M].
    + rewrite IH by (intros; apply R; right; assumption). split.
      * intros (q & Hq & Mq). exists q. split; [right; exact Hq|exact Mq].
      * intros (q & [<-|Hq] & Mq); [congruence|]. exists q. split; assumption.
Qed.

Lemma matches_key b k0 k v : matches (has_key b k0) k v = true <-> k = of_string k0.
Proof.
  unfold matches, has_key. cbn [r_key r_has_value r_value negb orb]. rewrite andb_true_r, str_eqb_spec.
  split; congruence.
Qed.
Lemma matches_tag b k0 v0 k v : matches (has_tag b k0 v0) k v = true <-> k = of_string k0 /\ v = of_string v0.
Proof.
  unfold matches, has_tag. cbn [r_key r_has_value r_value negb orb]. rewrite andb_true_iff, !str_eqb_spec.
  split; intros [A B]; split; congruence.
Qed.

(** what the built-in filters of the importer accept: roads are the ways with a highway tag, all of them are kept; a road
    is one-way forwards for oneway = yes, true or 1, roundabouts and motorways, and backwards for oneway = -1 or reverse *)
Theorem C31_default_filters (k v : str) :
  (apply_filter default_query (k, v) = true <-> k = of_string "highway") /\
  apply_filter default_filter (k, v) = true /\
  (apply_filter default_oneway (k, v) = true <->
     (k = of_string "oneway" /\ (v = of_string "yes" \/ v = of_string "true" \/ v = of_string "1")) \/
     (k = of_string "junction" /\ v = of_string "roundabout") \/
     (k = of_string "highway" /\ v = of_string "motorway")) /\
  (apply_filter default_oneway_reverse (k, v) = true <->
     k = of_string "oneway" /\ (v = of_string "-1" \/ v = of_string "reverse")).
Proof.
  unfold apply_filter. cbn [fst snd].
  change (f_default default_query) with false. change (f_default default_oneway) with false.
  change (f_default default_oneway_reverse) with false.
  rewrite !first_match_rules by (unfold default_query, default_oneway, default_oneway_reverse; cbn [f_rules In];
    intros r Hr; repeat (destruct Hr as [<-|Hr]; [reflexivity|]); destruct Hr).
  unfold default_query, default_oneway, default_oneway_reverse. cbn [f_rules].
  split; [|split; [reflexivity|split]].
  - split.
    + intros (r & [<-|[]] & M). apply matches_key in M. exact M.
    + intros ->. eexists. split; [left; reflexivity|]. apply matches_key. reflexivity.
  - split.
    + intros (r & Hr & M). cbn [In] in Hr.
      destruct Hr as [<-|[<-|[<-|[<-|[<-|[]]]]]]; apply matches_tag in M; tauto.
    + intros [[-> [->|[->| ->]]]|[[-> ->]|[-> ->]]]; eexists;
        (split; [|apply matches_tag; split; reflexivity]); cbn [In]; tauto.
  - split.
    + intros (r & Hr & M). cbn [In] in Hr. destruct Hr as [<-|[<-|[]]]; apply matches_tag in M; tauto.
    + intros [-> [->| ->]]; eexists; (split; [|apply matches_tag; split; reflexivity]); cbn [In]; tauto.
Qed.

Definition demo_rules : list rule :=
  [mkRule true true (of_string "highway") (of_string "a,b=c"); mkRule false false (of_string "area") []].
Example C31_demo : Forall printable demo_rules /\
  print false demo_rules = of_string "false|true,highway=a,b=c|false,area" /\
  create_tags_filter (of_string "false|true,highway=a,b=c|false,area") = Ok (mkFilter false demo_rules).
Proof.
  split; [|split; vm_compute; reflexivity].
  repeat constructor; cbn; intuition (try discriminate).
Qed.
(** an empty string gives a filter that rejects everything; a missing default is taken from the first rule *)
Example C31_demo_degenerate :
  create_tags_filter [] = Ok (mkFilter false []) /\
  create_tags_filter (of_string "true,highway") = Ok (mkFilter true []).
Proof. vm_compute. auto. Qed.

(** Separators cannot be escaped: a key containing '=' is not read back. *)
Theorem C31_key_with_equals_refuted :
  exists d rs, (forall r, In r rs -> ~ In "|"%char (r_key r) /\ ~ In "|"%char (r_value r)) /\
    create_tags_filter (print d rs) <> Ok (mkFilter d rs).
Proof.
  exists true, [mkRule true false (of_string "a=b") []]. split.
  - intros r [<-|[]]; cbn; intuition (try discriminate).
  - vm_compute. discriminate.
Qed.

Print Assumptions C31_parse.
Print Assumptions C31_round_trip.
Print Assumptions C31_first_rule_decides.
Print Assumptions C31_key_with_equals_refuted.
Print Assumptions C31_any_string.
Print Assumptions C31_default_filters.
