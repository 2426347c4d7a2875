(** C100, continued: what the importer makes of any text, also of those that the program has not written. *)
From Coq Require Import ZArith QArith Qround Qabs Qpower Ascii String Lqa Lia.
From Verif Require Import Base ListAux Wkt WktProofs.
Local Open Scope string_scope.
Local Open Scope nat_scope.

(** C100: a number in the middle between two numbers of twelve digits is written as the one with an even last digit. *)
Theorem C100_ties (x : Q) (n k : Z) : (10 ^ 11 <= n < 10 ^ 12)%Z -> (Qabs x == (inject_Z n + (1 # 2)) * Qpower (10 # 1) k)%Q ->
  exists m : Z, (m = n \/ m = n + 1)%Z /\ Z.Even m /\ (Qabs (r12 x) == inject_Z m * Qpower (10 # 1) k)%Q.
Proof.
  intros Hn Hx. change (Qpower (10 # 1) k) with (ten k) in *. pose proof (ten_pos k) as Tk.
  assert (N1 : (inject_Z (10 ^ 11) <= inject_Z n)%Q) by (rewrite <- Zle_Qle; lia).
  assert (N2 : (inject_Z n + 1 <= inject_Z (10 ^ 12))%Q) by (change 1%Q with (inject_Z 1); rewrite <- inject_Z_plus, <- Zle_Qle; lia).
  assert (Z11 : (0 < inject_Z (10 ^ 11))%Q) by (change 0%Q with (inject_Z 0); rewrite <- Zlt_Qlt; reflexivity).
  assert (P : (0 < Qabs x)%Q) by (rewrite Hx; apply Qmult_lt_0_compat; [lra|exact Tk]).
  assert (E : expo (Qabs x) = (k + 11)%Z).
  { destruct (expo_ok _ P) as [A B].
    assert (C : (ten (k + 11) <= Qabs x)%Q) by (rewrite Hx, ten_plus, (ten_Z 11), Qmult_comm by lia; apply Qmult_le_compat_r; lra).
    assert (D : (Qabs x < ten (k + 12))%Q) by (rewrite Hx, ten_plus, (ten_Z 12), (Qmult_comm (ten k)) by lia; apply Qmult_lt_compat_r; lra).
    destruct (Z_lt_le_dec (expo (Qabs x)) (k + 11)) as [L|L].
    - pose proof (ten_le (expo (Qabs x) + 1) (k + 11) ltac:(lia)). lra.
    - destruct (Z_lt_le_dec (k + 11) (expo (Qabs x))) as [G|G]; [|lia]. pose proof (ten_le (k + 12) (expo (Qabs x)) ltac:(lia)). lra. }
  assert (Q2 : (Qabs x * ten (11 - expo (Qabs x)) == inject_Z n + (1 # 2))%Q).
  { rewrite E. replace (11 - (k + 11))%Z with (- k)%Z by lia. rewrite Hx, <- Qmult_assoc, ten_inv. ring. }
  assert (F : Qfloor (inject_Z n + (1 # 2))%Q = n).
  { pose proof (Qfloor_le (inject_Z n + (1 # 2))) as A. pose proof (Qlt_floor (inject_Z n + (1 # 2))) as B.
    set (f := Qfloor (inject_Z n + (1 # 2))) in *. destruct (Z_lt_le_dec f n) as [L|L].
    - assert (inject_Z (f + 1) <= inject_Z n)%Q by (rewrite <- Zle_Qle; lia). lra.
    - destruct (Z_lt_le_dec n f) as [G|G]; [|lia]. assert (inject_Z (n + 1) <= inject_Z f)%Q by (rewrite <- Zle_Qle; lia).
      rewrite inject_Z_plus in H. change (inject_Z 1) with 1%Q in H. lra. }
  assert (R : exists m : Z, (m = n \/ m = n + 1)%Z /\ Z.Even m /\ (value (digits_pos (Qabs x)) == inject_Z m * ten k)%Q).
  { exists (rhe (inject_Z n + (1 # 2))). split; [|split].
    - unfold rhe. rewrite F. destruct (_ ?= _)%Q; auto. destruct (Z.even n); auto.
    - unfold rhe. rewrite F. destruct (Qcompare_spec (inject_Z n + (1 # 2) - inject_Z n) (1 # 2)) as [Eq|Lt|Gt]; [|exfalso; lra|exfalso; lra].
      destruct (Z.even n) eqn:Ev; [apply Z.even_spec; exact Ev|]. apply Z.even_spec. rewrite Z.even_add, Ev. reflexivity.
    - rewrite (digits_pos_value _ P), (rhe_comp _ _ Q2), E. replace (k + 11 - 11)%Z with k by lia. reflexivity. }
  destruct R as (m & M1 & M2 & M3). exists m. split; [exact M1|]. split; [exact M2|].
  assert (M0 : (0 <= inject_Z m * ten k)%Q) by (apply Qmult_le_0_compat; [change 0%Q with (inject_Z 0); rewrite <- Zle_Qle; lia|lra]).
  unfold r12. destruct (r12_cases x) as [(A & _)|[(A & ->)|(A & ->)]].
  - exfalso. rewrite A in P. cbn in P. lra.
  - rewrite M3. apply Qabs_pos. exact M0.
  - rewrite value_opp, Qabs_opp. destruct (digits_pos (Qabs x)) as [a b]. cbn [fst snd]. rewrite M3. apply Qabs_pos. exact M0.
Qed.
(** both directions *)
Example C100_case_ties :
  (r12 (1000000000005 # 10) == 100000000000 # 1)%Q /\ (r12 (- (1000000000015 # 10)) == - (100000000002 # 1))%Q.
Proof. split; vm_compute; reflexivity. Qed.


Definition small_letters : list ascii := list_ascii_of_string "abcdefghijklmnopqrstuvwxyz".
Definition capital_letters : list ascii := list_ascii_of_string "ABCDEFGHIJKLMNOPQRSTUVWXYZ".

(** C100: the text is changed to capitals letter by letter: the small letters become the capital letter at the same place of the alphabet,
    everything else stays. *)
Theorem C100_upper (s : string) :
  String.length (upper s) = String.length s /\
  (forall i c, String.get i s = Some c ->
     (forall k, nth_error small_letters k = Some c -> exists d, nth_error capital_letters k = Some d /\ String.get i (upper s) = Some d) /\
     (~ In c small_letters -> String.get i (upper s) = Some c)).
Proof.
  assert (U : forall c, (forall k, nth_error small_letters k = Some c -> nth_error capital_letters k = Some (up c)) /\ (~ In c small_letters -> up c = c)).
  { intro c. split.
    - intros k H. do 26 (destruct k as [|k]; [vm_compute in H; injection H as <-; vm_compute; reflexivity|]). destruct k; discriminate.
    - intro H. destruct c as [[] [] [] [] [] [] [] []]; first [reflexivity|exfalso; apply H; cbn; tauto]. }
  induction s as [|x s [IL IH]]; [split; [reflexivity|intros i c H; destruct i; discriminate]|]. split; [cbn; rewrite IL; reflexivity|].
  intros [|i] c H; cbn in H.
  - injection H as ->. destruct (U c) as [U1 U2]. split; [intros k Hk; exists (up c); split; [apply U1; exact Hk|reflexivity]|].
    intro K. cbn. rewrite (U2 K). reflexivity.
  - exact (IH i c H).
Qed.

Lemma prefix_app : forall w s, prefix w s = true <-> exists r, s = w ++ r.
Proof.
  induction w as [|a w IH]; intro s; [split; [intros _; exists s; reflexivity|intros _; destruct s; reflexivity]|].
  destruct s as [|b s]; [split; [discriminate|intros (r & H); discriminate]|].
  change (String.prefix (String a w) (String b s)) with (if ascii_dec a b then String.prefix w s else false). destruct (ascii_dec a b) as [->|Nab].
  - rewrite IH. split; intros (r & H); exists r; [rewrite H; reflexivity|injection H; auto].
  - split; [discriminate|]. intros (r & H). injection H. intros _ E. exfalso. apply Nab. symmetry. exact E.
Qed.

Section Any.
  Context {N : Type}.
  Variable num : string -> option N.
  Variable zero : N.
  Local Notation rest := (list token).

  Lemma coordinate_le ts x r : coordinate num zero ts = Got (x, r) -> List.length r <= List.length ts.
  Proof.
    destruct ts as [|[s| | |] ts]; cbn; intro H; try discriminate; try (injection H as _ <-; cbn; lia).
    destruct (num s); [injection H as _ <-; lia|discriminate].
  Qed.
  Lemma one_point_le ts p r : one_point num zero ts = Got (p, r) ->
    List.length r <= List.length ts /\ match ts with Word _ :: _ => List.length r < List.length ts | Comma :: _ => r = ts | _ => True end.
  Proof.
    unfold one_point. destruct (coordinate num zero ts) as [[x r1]| |] eqn:E1; try discriminate.
    destruct (coordinate num zero r1) as [[y r2]| |] eqn:E2; try discriminate. intro H. injection H as _ <-.
    pose proof (coordinate_le _ _ _ E1). pose proof (coordinate_le _ _ _ E2). split; [lia|].
    destruct ts as [|[s| | |] ts]; auto; cbn in E1.
    - destruct (num s); [injection E1 as _ <-; cbn; lia|discriminate].
    - injection E1 as _ <-. cbn in E2. injection E2 as _ <-. reflexivity.
  Qed.
  Lemma skip_le ts : List.length (skip_comma ts) <= List.length ts.
  Proof. destruct ts as [|[s| | |] ts]; cbn; lia. Qed.
  (** a point takes at least one token with the comma *)
  Lemma round_lt ts p r : ts <> [] -> (forall t, ts <> Close :: t) -> one_point num zero ts = Got (p, r) -> List.length (skip_comma r) < List.length ts.
  Proof.
    intros H0 HC E. destruct (one_point_le _ _ _ E) as [L K]. pose proof (skip_le r). destruct ts as [|[s| | |] ts]; try congruence.
    - lia.
    - cbn in E. discriminate.
    - subst r. cbn. lia.
  Qed.
  Lemma points_loop_total : forall fuel (ts : rest) acc, List.length ts <= fuel -> points_loop num zero fuel ts acc <> NoFuel /\
    forall l r, points_loop num zero fuel ts acc = Got (l, r) -> List.length r < List.length ts.
  Proof.
    induction fuel as [|fuel IH]; intros ts acc H.
    - destruct ts; [split; discriminate|cbn in H; lia].
    - assert (G : forall t, ts <> [] -> ts = t -> (forall u, t <> Close :: u) ->
        match one_point num zero t with Got (p, r) => points_loop num zero fuel (skip_comma r) (acc ++ [p])%list | _ => Failed end <> NoFuel /\
        forall l r, match one_point num zero t with Got (p, r) => points_loop num zero fuel (skip_comma r) (acc ++ [p])%list | _ => Failed end = Got (l, r) ->
        List.length r < List.length t).
      { intros t H0 -> HC. destruct (one_point num zero t) as [[p r]| |] eqn:E; [|split; discriminate..].
        pose proof (round_lt _ _ _ H0 HC E) as L. destruct (IH (skip_comma r) (acc ++ [p])%list ltac:(lia)) as [I1 I2]. split; [exact I1|].
        intros l r' El. specialize (I2 l r' El). lia. }
      destruct ts as [|[s| | |] ts].
      + split; discriminate.
      + apply (G (Word s :: ts)); [discriminate|reflexivity|discriminate].
      + apply (G (Open :: ts)); [discriminate|reflexivity|discriminate].
      + split; [discriminate|]. cbn. intros l r E. injection E as _ <-. lia.
      + apply (G (Comma :: ts)); [discriminate|reflexivity|discriminate].
  Qed.
  Lemma points_of_total (ts : rest) : points_of num zero ts <> NoFuel /\
    forall l r, points_of num zero ts = Got (l, r) -> List.length r < List.length ts.
  Proof.
    destruct ts as [|[s| | |] ts]; try (split; discriminate). unfold points_of.
    destruct (points_loop_total (List.length ts) ts [] (le_n _)) as [I1 I2]. split; [exact I1|]. intros l r E. specialize (I2 l r E). cbn. lia.
  Qed.
  Lemma lines_loop_total : forall fuel (ts : rest) acc, List.length ts <= fuel -> lines_loop num zero fuel ts acc <> NoFuel.
  Proof.
    induction fuel as [|fuel IH]; intros ts acc H.
    - destruct ts; [discriminate|cbn in H; lia].
    - assert (G : forall t, ts = t ->
        match points_of num zero t with Got (l, r) => lines_loop num zero fuel (skip_comma r) (acc ++ [l])%list | NoFuel => NoFuel | _ => Failed end <> NoFuel).
      { intros t ->. destruct (points_of_total t) as [I1 I2]. destruct (points_of num zero t) as [[l r]| |]; [|discriminate|congruence].
        specialize (I2 l r eq_refl). pose proof (skip_le r). apply IH. lia. }
      destruct ts as [|[s| | |] ts]; [discriminate|apply (G (Word s :: ts) eq_refl)|apply (G (Open :: ts) eq_refl)|discriminate|apply (G (Comma :: ts) eq_refl)].
  Qed.

  Lemma ended_total {A} (x : result (A * rest)) : x <> NoFuel -> ended x <> NoFuel.
  Proof. destruct x as [[a [|t r]]| |]; cbn; congruence. Qed.
  Lemma read_point_total s : read_point num zero s <> NoFuel.
  Proof.
    unfold read_point. assert (G : forall r, ended (match one_point num zero r with Got (p, Close :: r') => Got (p, r') | _ => Failed end) <> NoFuel).
    { intro r. apply ended_total. destruct (one_point num zero r) as [[p [|[w| | |] r']]| |]; discriminate. }
    generalize (tokens s ""). intro ts. repeat first [discriminate|apply G|match goal with |- context [match ?x with _ => _ end] => is_var x; destruct x end].
  Qed.
  Lemma read_line_total s : read_line num zero s <> NoFuel.
  Proof.
    unfold read_line. assert (G : forall r, ended (points_of num zero r) <> NoFuel) by (intro r; apply ended_total, points_of_total).
    generalize (tokens s ""). intro ts. repeat first [discriminate|apply G|match goal with |- context [match ?x with _ => _ end] => is_var x; destruct x end].
  Qed.
  Lemma read_multi_total s : read_multi num zero s <> NoFuel.
  Proof.
    unfold read_multi. assert (G : forall r, ended (lines_loop num zero (List.length r) r []) <> NoFuel)
      by (intro r; apply ended_total, lines_loop_total; lia).
    generalize (tokens s ""). intro ts. repeat first [discriminate|apply G|match goal with |- context [match ?x with _ => _ end] => is_var x; destruct x end].
  Qed.

  (** C100: reading comes to an end for every text: it is read, skipped or answered with an exception. *)
  Theorem C100_total (text : string) : read_text num zero text <> NoFuel.
  Proof.
    unfold read_text. pose proof (read_point_total (upper text)) as P. pose proof (read_line_total (upper text)) as L. pose proof (read_multi_total (upper text)) as M.
    destruct (prefix "POINT" _); [destruct (read_point num zero _); congruence|].
    destruct (prefix "LINESTRING" _); [destruct (read_line num zero _); congruence|].
    destruct (prefix "MULTILINESTRING" _); [destruct (read_multi num zero _); congruence|].
    destruct (prefix "GEOMETRYCOLLECTION EMPTY" _); discriminate.
  Qed.

  (** C100: in capitals, a text is skipped exactly if it begins with none of the four words; an exception needs one of the first three; a point
      comes from a text that begins with POINT, a line with LINESTRING, and anything that begins with the empty collection is one empty line. *)
  Theorem C100_kinds (text : string) :
    (read_text num zero text = Got Skipped <->
     forall w r, In w ["POINT"; "LINESTRING"; "MULTILINESTRING"; "GEOMETRYCOLLECTION EMPTY"] -> upper text <> w ++ r) /\
    (read_text num zero text = Failed -> exists w r, In w ["POINT"; "LINESTRING"; "MULTILINESTRING"] /\ upper text = w ++ r) /\
    (forall p, read_text num zero text = Got (APoint p) -> exists r, upper text = "POINT" ++ r) /\
    (forall ls, read_text num zero text = Got (Parts ls) ->
       (exists r l, upper text = "LINESTRING" ++ r /\ ls = [l]) \/ (exists r, upper text = "MULTILINESTRING" ++ r) \/
       (exists r, upper text = "GEOMETRYCOLLECTION EMPTY" ++ r /\ ls = [[]])) /\
    (forall r, upper text = "GEOMETRYCOLLECTION EMPTY" ++ r -> read_text num zero text = Got (Parts [[]])).
  Proof.
    pose proof (prefix_app "POINT" (upper text)) as B1. pose proof (prefix_app "LINESTRING" (upper text)) as B2.
    pose proof (prefix_app "MULTILINESTRING" (upper text)) as B3. pose proof (prefix_app "GEOMETRYCOLLECTION EMPTY" (upper text)) as B4.
    unfold read_text. destruct (prefix "POINT" (upper text)) eqn:E1.
    { destruct (proj1 B1 eq_refl) as (r1 & X). destruct (read_point num zero (upper text)); repeat split; try discriminate;
        try (intros; exists r1; exact X); try (intros; exists "POINT", r1; split; [cbn; tauto|exact X]);
        try (intro F; exfalso; apply (F "POINT" r1); [cbn; tauto|exact X]); intros r Y; rewrite X in Y; discriminate. }
    destruct (prefix "LINESTRING" (upper text)) eqn:E2.
    { destruct (proj1 B2 eq_refl) as (r1 & X). destruct (read_line num zero (upper text)); repeat split; try discriminate;
        try (intros ls H; injection H as <-; left; exists r1, a; split; [exact X|reflexivity]);
        try (intros; exists "LINESTRING", r1; split; [cbn; tauto|exact X]);
        try (intro F; exfalso; apply (F "LINESTRING" r1); [cbn; tauto|exact X]); intros r Y; rewrite X in Y; discriminate. }
    destruct (prefix "MULTILINESTRING" (upper text)) eqn:E3.
    { destruct (proj1 B3 eq_refl) as (r1 & X). destruct (read_multi num zero (upper text)); repeat split; try discriminate;
        try (intros ls H; right; left; exists r1; exact X);
        try (intros; exists "MULTILINESTRING", r1; split; [cbn; tauto|exact X]);
        try (intro F; exfalso; apply (F "MULTILINESTRING" r1); [cbn; tauto|exact X]); intros r Y; rewrite X in Y; discriminate. }
    destruct (prefix "GEOMETRYCOLLECTION EMPTY" (upper text)) eqn:E4.
    { destruct (proj1 B4 eq_refl) as (r1 & X). repeat split; try discriminate;
        try (intros ls H; injection H as <-; right; right; exists r1; split; [exact X|reflexivity]);
        try (intro F; exfalso; apply (F "GEOMETRYCOLLECTION EMPTY" r1); [cbn; tauto|exact X]). }
    repeat split; try discriminate.
    - intros _ w r Hw Y. cbn in Hw.
      destruct Hw as [<-|[<-|[<-|[<-|[]]]]];
        [enough (false = true) by discriminate; apply B1|enough (false = true) by discriminate; apply B2|
         enough (false = true) by discriminate; apply B3|enough (false = true) by discriminate; apply B4]; exists r; exact Y.
    - intros r Y. enough (false = true) by discriminate. apply B4. exists r. exact Y.
  Qed.
End Any.

(** small letters are read like capitals, and a collection that is not empty is skipped *)
Example C100_case_kinds :
  let rd := read_text (fun _ => Some 7) 0 in
  upper "zA-a{`m" = "ZA-A{`M" /\ rd "linestring empty" = Got (Parts [[]]) /\ rd "GeometryCollection(point(1 2))" = Got Skipped /\
  rd "LineStrings(1 2)" = Failed /\ rd "point(,)" = Failed /\ rd "linestring(1 2,,3 4)" = Got (Parts [[(7, 7); (0, 0); (7, 7)]]).
Proof. vm_compute. repeat split. Qed.

Print Assumptions C100_ties.
Print Assumptions C100_upper.
Print Assumptions C100_total.
Print Assumptions C100_kinds.
