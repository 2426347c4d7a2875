(** Proofs about the text of lines: what is written is read again. *)
From Coq Require Import Ascii String Lia.
From Verif Require Import Base ListAux Wkt.
Local Open Scope string_scope.

Definition special (c : ascii) : bool := Ascii.eqb c " " || Ascii.eqb c "(" || Ascii.eqb c ")" || Ascii.eqb c ",".
Fixpoint clean (s : string) : bool :=
  match s with
  | EmptyString => true
  | String c r => negb (special c) && clean r
  end.

Lemma app_nil s : s ++ "" = s.
Proof. induction s; cbn; congruence. Qed.
Lemma app_assoc_s a b c : (a ++ b) ++ c = a ++ (b ++ c).
Proof. induction a; cbn; congruence. Qed.
Lemma upper_app a b : upper (a ++ b) = upper a ++ upper b.
Proof. induction a; cbn; congruence. Qed.

Lemma special_up c : special (up c) = special c.
Proof. destruct c as [[] [] [] [] [] [] [] []]; reflexivity. Qed.
Lemma clean_upper s : clean (upper s) = clean s.
Proof. induction s; cbn; [reflexivity|]. rewrite special_up, IHs. reflexivity. Qed.

Lemma tokens_word a s w : clean a = true -> tokens (a ++ s) w = tokens s (w ++ a).
Proof.
  revert w; induction a as [|c a IH]; intros w H; cbn.
  - rewrite app_nil. reflexivity.
  - cbn in H. apply andb_prop in H as [A B]. unfold special in A.
    destruct (Ascii.eqb c " "); [discriminate|]. destruct (Ascii.eqb c "("); [discriminate|].
    destruct (Ascii.eqb c ")"); [discriminate|]. destruct (Ascii.eqb c ","); [discriminate|].
    rewrite IH by exact B. rewrite app_assoc_s. reflexivity.
Qed.
Lemma tokens_flush c s w : special c = true -> tokens (String c s) w = flush w (tokens (String c s) "").
Proof.
  intro H. cbn [tokens]. unfold special in H.
  destruct (Ascii.eqb c " "); [reflexivity|]. destruct (Ascii.eqb c "("); [reflexivity|].
  destruct (Ascii.eqb c ")"); [reflexivity|]. destruct (Ascii.eqb c ","); [reflexivity|discriminate].
Qed.
Lemma tokens_full a c s : clean a = true -> a <> "" -> special c = true ->
  tokens (a ++ String c s) "" = Word a :: tokens (String c s) "".
Proof.
  intros A B C. rewrite tokens_word by exact A. rewrite tokens_flush by exact C. destruct a; [contradiction|reflexivity].
Qed.

Section Text.
  Context {N : Type}.
  Variable show : N -> string.
  Variable num : string -> option N.
  Variable zero : N.
  Variable r : N -> N.
  Hypothesis plain : forall x, clean (show x) = true /\ show x <> "".
  Hypothesis reads : forall x, num (upper (show x)) = Some (r x).

  Definition rp (p : N * N) : N * N := (r (fst p), r (snd p)).
  Definition ws (x : N) : token := Word (upper (show x)).
  Fixpoint ptoks (l : list (N * N)) : list token :=
    match l with
    | [] => []
    | [p] => [ws (fst p); ws (snd p)]
    | p :: q => ws (fst p) :: ws (snd p) :: Comma :: ptoks q
    end.

  Lemma tok_show x c s : special c = true -> tokens (upper (show x) ++ String c s) "" = ws x :: tokens (String c s) "".
  Proof.
    intro H. destruct (plain x) as (A & B). apply tokens_full; [rewrite clean_upper; exact A| |exact H].
    destruct (show x); [contradiction|discriminate].
  Qed.
  Lemma tok_point p c s : special c = true ->
    tokens (upper (point_text show p) ++ String c s) "" = ws (fst p) :: ws (snd p) :: tokens (String c s) "".
  Proof.
    intro H. unfold point_text. rewrite !upper_app. change (upper " ") with (String " " "").
    rewrite !app_assoc_s. cbn [append]. rewrite tok_show by reflexivity.
    f_equal. cbn [tokens]. change (Ascii.eqb " " " ") with true. cbn [flush]. apply tok_show. exact H.
  Qed.

  Lemma tok_points l s : tokens (upper (commas (map (point_text show) l)) ++ String ")" s) "" =
    (ptoks l ++ Close :: tokens s "")%list.
  Proof.
    induction l as [|p q IH]; [reflexivity|]. destruct q as [|p' q].
    - cbn [map commas ptoks]. rewrite tok_point by reflexivity. reflexivity.
    - change (commas (map (point_text show) (p :: p' :: q))) with
        (point_text show p ++ "," ++ commas (map (point_text show) (p' :: q))).
      rewrite !upper_app. change (upper ",") with (String "," ""). rewrite !app_assoc_s. cbn [append].
      rewrite tok_point by reflexivity.
      change (ptoks (p :: p' :: q)) with (ws (fst p) :: ws (snd p) :: Comma :: ptoks (p' :: q)). cbn [app].
      do 2 f_equal. cbn [tokens].
      change (Ascii.eqb "," " ") with false. change (Ascii.eqb "," "(") with false.
      change (Ascii.eqb "," ")") with false. change (Ascii.eqb "," ",") with true. cbn [flush].
      f_equal. exact IH.
  Qed.
  Lemma tok_body l s : tokens (upper (line_body show l) ++ s) "" = (Open :: ptoks l ++ Close :: tokens s "")%list.
  Proof.
    unfold line_body. rewrite !upper_app. change (upper "(") with "(". change (upper ")") with ")".
    rewrite !app_assoc_s. cbn [append tokens].
    change (Ascii.eqb "(" " ") with false. change (Ascii.eqb "(" "(") with true. cbn [flush].
    f_equal. apply tok_points.
  Qed.

  Lemma points_loop_ok l fuel rest acc : (List.length l <= fuel)%nat ->
    points_loop num zero fuel (ptoks l ++ Close :: rest)%list acc = Got ((acc ++ map rp l)%list, rest).
  Proof.
    revert fuel acc; induction l as [|p q IH]; intros fuel acc H.
    - destruct fuel; cbn; rewrite app_nil_r; reflexivity.
    - destruct fuel as [|f]; [cbn in H; lia|]. cbn [List.length] in H.
      assert (E : forall k, one_point num zero (ws (fst p) :: ws (snd p) :: k) = Got (rp p, k)).
      { intro k. unfold one_point, coordinate, ws. rewrite !reads. reflexivity. }
      destruct q as [|p' q].
      + cbn [ptoks app]. cbn [points_loop ws]. fold (ws (fst p)). fold (ws (snd p)). rewrite E. cbn [skip_comma].
        destruct f; reflexivity.
      + change (ptoks (p :: p' :: q)) with (ws (fst p) :: ws (snd p) :: Comma :: ptoks (p' :: q)).
        cbn [app]. cbn [points_loop ws]. fold (ws (fst p)). fold (ws (snd p)). rewrite E. cbn [skip_comma].
        rewrite IH by lia. rewrite <- List.app_assoc. reflexivity.
  Qed.
  Lemma ptoks_length l : (List.length l <= List.length (ptoks l))%nat.
  Proof. induction l as [|p [|p' q] IH]; [cbn; lia|cbn; lia|]. cbn [ptoks List.length] in *. lia. Qed.
  Lemma points_of_ok l rest : points_of num zero (Open :: ptoks l ++ Close :: rest)%list = Got (map rp l, rest).
  Proof.
    unfold points_of. rewrite points_loop_ok; [reflexivity|].
    rewrite app_length. pose proof (ptoks_length l). lia.
  Qed.

  Lemma tokens_tag a s : clean a = true -> a <> "" -> tokens (a ++ String "(" s) "" = Word a :: Open :: tokens s "".
  Proof. intros A B. rewrite tokens_full by (assumption || reflexivity). reflexivity. Qed.

  Lemma tag_body a l : clean a = true -> a <> "" ->
    tokens (a ++ upper (line_body show l)) "" = Word a :: tokens (upper (line_body show l)) "".
  Proof.
    intros A B. unfold line_body. rewrite upper_app. change (upper "(") with (String "(" ""). cbn [append].
    apply tokens_full; [exact A|exact B|reflexivity].
  Qed.

  Lemma read_line_ok l : read_text num zero (line_wkt show l) = Got (Parts [map rp l]).
  Proof.
    unfold read_text, line_wkt. rewrite upper_app. change (upper "LINESTRING") with "LINESTRING".
    change (prefix "POINT" ("LINESTRING" ++ upper (line_body show l))) with false.
    assert (P : prefix "LINESTRING" ("LINESTRING" ++ upper (line_body show l)) = true) by (cbn; destruct (upper (line_body show l)); reflexivity).
    rewrite P. cbv iota. unfold read_line.
    assert (T : tokens ("LINESTRING" ++ upper (line_body show l)) "" = (Word "LINESTRING" :: Open :: ptoks l ++ [Close])%list).
    { rewrite tag_body by (reflexivity || discriminate). rewrite <- (app_nil (upper (line_body show l))), tok_body. reflexivity. }
    rewrite T. cbv beta iota. rewrite points_of_ok. reflexivity.
  Qed.

  Fixpoint ltoks (ls : list (list (N * N))) : list token :=
    match ls with
    | [] => []
    | [l] => Open :: ptoks l ++ [Close]
    | l :: q => Open :: ptoks l ++ Close :: Comma :: ltoks q
    end%list.
  Lemma tok_lines ls s : tokens (upper (commas (map (line_body show) ls)) ++ String ")" s) "" =
    (ltoks ls ++ Close :: tokens s "")%list.
  Proof.
    induction ls as [|l q IH]; [reflexivity|]. destruct q as [|l' q].
    - cbn [map commas ltoks]. rewrite tok_body. cbn [app]. rewrite <- List.app_assoc. reflexivity.
    - change (commas (map (line_body show) (l :: l' :: q))) with
        (line_body show l ++ "," ++ commas (map (line_body show) (l' :: q))).
      rewrite !upper_app. change (upper ",") with (String "," ""). rewrite !app_assoc_s. rewrite tok_body.
      change (ltoks (l :: l' :: q)) with (Open :: ptoks l ++ Close :: Comma :: ltoks (l' :: q))%list.
      cbn [app]. rewrite <- List.app_assoc. cbn [app]. f_equal. f_equal. f_equal.
      cbn [append tokens].
      change (Ascii.eqb "," " ") with false. change (Ascii.eqb "," "(") with false.
      change (Ascii.eqb "," ")") with false. change (Ascii.eqb "," ",") with true. cbn [flush].
      f_equal. exact IH.
  Qed.
  Lemma lines_loop_ok ls fuel rest acc : (List.length ls <= fuel)%nat ->
    lines_loop num zero fuel (ltoks ls ++ Close :: rest)%list acc = Got ((acc ++ map (map rp) ls)%list, rest).
  Proof.
    revert fuel acc; induction ls as [|l q IH]; intros fuel acc H.
    - destruct fuel; cbn; rewrite app_nil_r; reflexivity.
    - destruct fuel as [|f]; [cbn in H; lia|]. cbn [List.length] in H. destruct q as [|l' q].
      + cbn [ltoks app]. rewrite <- List.app_assoc. cbn [app lines_loop]. rewrite points_of_ok. cbn [skip_comma].
        destruct f; reflexivity.
      + change (ltoks (l :: l' :: q)) with (Open :: ptoks l ++ Close :: Comma :: ltoks (l' :: q))%list.
        cbn [app]. rewrite <- List.app_assoc. cbn [app lines_loop]. rewrite points_of_ok. cbn [skip_comma].
        rewrite IH by lia. rewrite <- List.app_assoc. reflexivity.
  Qed.
  Lemma ltoks_length ls : (List.length ls <= List.length (ltoks ls))%nat.
  Proof. induction ls as [|p [|p' q] IH]; [cbn; lia|cbn; lia|]. cbn [ltoks List.length] in *. rewrite app_length. cbn [List.length]. lia. Qed.

  Lemma read_multi_ok ls : read_text num zero (multi_line_wkt show ls) = Got (Parts (map (map rp) ls)).
  Proof.
    unfold read_text, multi_line_wkt. rewrite !upper_app. change (upper "MULTILINESTRING(") with "MULTILINESTRING(".
    change (upper ")") with ")". set (b := upper (commas (map (line_body show) ls))).
    change (prefix "POINT" ("MULTILINESTRING(" ++ b ++ ")")) with false.
    change (prefix "LINESTRING" ("MULTILINESTRING(" ++ b ++ ")")) with false.
    assert (P : prefix "MULTILINESTRING" ("MULTILINESTRING(" ++ b ++ ")") = true) by reflexivity.
    rewrite P. cbv iota. unfold read_multi.
    assert (T : tokens ("MULTILINESTRING(" ++ b ++ ")") "" = (Word "MULTILINESTRING" :: Open :: ltoks ls ++ [Close])%list).
    { change ("MULTILINESTRING(" ++ b ++ ")") with ("MULTILINESTRING" ++ String "(" (b ++ ")")).
      rewrite tokens_tag by (reflexivity || discriminate). unfold b. rewrite tok_lines. reflexivity. }
    rewrite T. cbv beta iota. rewrite lines_loop_ok; [reflexivity|]. rewrite app_length. pose proof (ltoks_length ls). lia.
  Qed.

  Lemma read_point_ok p : read_text num zero (point_wkt show p) = Got (APoint (rp p)).
  Proof.
    unfold read_text, point_wkt. rewrite !upper_app. change (upper "POINT(") with "POINT(". change (upper ")") with ")".
    set (b := upper (point_text show p)).
    assert (P : prefix "POINT" ("POINT(" ++ b ++ ")") = true) by reflexivity. rewrite P. cbv iota. unfold read_point.
    assert (T : tokens ("POINT(" ++ b ++ ")") "" = Word "POINT" :: Open :: ws (fst p) :: ws (snd p) :: [Close]).
    { change ("POINT(" ++ b ++ ")") with ("POINT" ++ String "(" (b ++ ")")).
      rewrite tokens_tag by (reflexivity || discriminate). unfold b. rewrite tok_point by reflexivity. reflexivity. }
    rewrite T. cbv beta iota. unfold one_point, coordinate, ws. rewrite !reads. reflexivity.
  Qed.
End Text.
