(** C100: a result written as text is read again as the same lines, with coordinates of twelve digits. *)
From Coq Require Import ZArith QArith Qround Qabs Qpower Ascii String Lqa Lia.
From Coq Require Import DecimalString DecimalZ.
From Verif Require Import Base ListAux Wkt WktProofs WktTextProofs.
Local Open Scope string_scope.

(** what [to_wkt] and [lexical_cast] have to do with one number: the text is a word, and the word in capitals is read as
    the nearest number of the machine to what was written *)
Definition spells (text : Z * Z -> string) (num : string -> option Q) (rnd : Q -> Q) : Prop :=
  forall m k, (m = 0 /\ k = 0 \/ 10 ^ 11 <= Z.abs m < 10 ^ 12)%Z ->
    text (m, k) <> "" /\ (forall a c b, text (m, k) = a ++ String c b -> ~ In c [" "; "("; ")"; ","]%char) /\
    num (upper (text (m, k))) = Some (rnd (inject_Z m * Qpower (10 # 1) k)%Q).
(** the numbers of the machine are close to what they stand for; 2^-53 for numbers of 64 bits *)
Definition machine (rnd : Q -> Q) : Prop := forall x, (Qabs (rnd x - x) <= (1 # 10000000000000) * Qabs x)%Q.

Lemma clean_spec s : (forall a c b, s = a ++ String c b -> ~ In c [" "; "("; ")"; ","]%char) -> clean s = true.
Proof.
  induction s as [|c s IH]; intro H; [reflexivity|]. cbn. rewrite IH.
  - rewrite andb_true_r. specialize (H "" c s eq_refl). unfold special.
    destruct (Ascii.eqb_spec c " "); [subst; exfalso; apply H; cbn; auto|].
    destruct (Ascii.eqb_spec c "("); [subst; exfalso; apply H; cbn; auto|].
    destruct (Ascii.eqb_spec c ")"); [subst; exfalso; apply H; cbn; auto|].
    destruct (Ascii.eqb_spec c ","); [subst; exfalso; apply H; cbn; auto|]. reflexivity.
  - intros a c' b E. apply (H (String c a) c' b). rewrite E. reflexivity.
Qed.

(** *** Twelve digits *)

(** What is written for a number is the nearest number of twelve digits, the order of numbers is kept, the error is at
    most half a unit of the twelfth digit, and a number read back from the text is written with the same digits. *)
Theorem C100_digits (x : Q) :
  (exists m k, (m = 0 /\ k = 0 \/ 10 ^ 11 <= Z.abs m < 10 ^ 12)%Z /\ digits x = (m, k) /\
    (forall m' k', (Z.abs m' < 10 ^ 12)%Z ->
      Qabs (inject_Z m * Qpower (10 # 1) k - x) <= Qabs (inject_Z m' * Qpower (10 # 1) k' - x))%Q) /\
  (Qabs (r12 x - x) <= (5 # 1000000000000) * Qabs x)%Q /\
  (forall y, (x <= y)%Q -> (r12 x <= r12 y)%Q) /\
  (forall rnd, machine rnd -> digits (rnd (r12 x)) = digits x).
Proof.
  split; [|split; [apply r12_error|split; [intros y; apply r12_mono|]]].
  - destruct (digits x) as [m k] eqn:E. exists m, k. split; [|split; [reflexivity|]].
    + destruct (digits_normal x) as [N|N]; rewrite E in N; [left; injection N as -> ->; split; reflexivity|right; exact N].
    + intros m' k' H. pose proof (r12_near x (inject_Z m' * ten k')%Q ltac:(exists m', k'; split; [exact H|reflexivity])) as L.
      unfold r12 in L. rewrite E in L. exact L.
  - intros rnd M. apply digits_stable. apply M.
Qed.

(** Different numbers may be written alike: a line of two points that are less than a micrometre apart becomes a line without length. *)
Theorem C100_distinct_refuted : exists x y, ~ (x == y)%Q /\ digits x = digits y.
Proof. exists (5500000000001 # 1000000), (55000000000012 # 10000000). split; [discriminate|vm_compute; reflexivity]. Qed.

(** *** Texts *)
Section Texts.
  Context {N : Type}.
  Variable show : N -> string.
  Variable num : string -> option N.
  Variable zero : N.
  Variable r : N -> N.
  Hypothesis plain : forall x, show x <> "" /\ (forall a c b, show x = a ++ String c b -> ~ In c [" "; "("; ")"; ","]%char).
  Hypothesis reads : forall x, num (upper (show x)) = Some (r x).

  Lemma plain' : forall x, clean (show x) = true /\ show x <> "".
  Proof. intro x. destruct (plain x) as (A & B). split; [apply clean_spec; exact B|exact A]. Qed.

  (** the points of a part as they are read *)
  Definition as_read (l : list (N * N)) : list (N * N) := map (fun p => (r (fst p), r (snd p))) l.
  Definition nonempty (l : list (N * N)) : bool := negb (Nat.eqb (List.length l) 0).

  Lemma line_empty_eq l : negb (line_empty l) = nonempty l.
  Proof. destruct l; reflexivity. Qed.
  Lemma kept_eq ls : kept ls = filter nonempty ls.
  Proof. unfold kept. induction ls as [|l q IH]; cbn; [reflexivity|]. rewrite line_empty_eq, IH. reflexivity. Qed.
  Lemma parts_empty_eq ls : parts_empty ls = true <-> filter nonempty ls = [].
  Proof.
    induction ls as [|l q IH]; cbn; [split; reflexivity|]. destruct l; cbn; [exact IH|]. split; discriminate.
  Qed.

  (** Whatever its parts are, the text of a line is read without an exception as a line, never as a point and never
      skipped: the parts with points come back in their order with the same points in their order, and parts without
      points are lost; if there is no point at all, one empty part is read. *)
  Theorem C100_read_back (ls : list (list (N * N))) :
    read_text num zero (parts_wkt show ls) =
    Got (Parts (match filter nonempty ls with [] => [[]] | k => map as_read k end)).
  Proof.
    unfold parts_wkt. destruct (parts_empty ls) eqn:E.
    - apply parts_empty_eq in E. rewrite E. rewrite (read_line_ok show num zero r plain' reads). reflexivity.
    - assert (K : filter nonempty ls <> []) by (intro C; apply parts_empty_eq in C; congruence).
      destruct ls as [|l [|l' q]]; [contradiction K; reflexivity| |].
      + change (read_text num zero (line_wkt show l) = Got (Parts (match filter nonempty [l] with [] => [[]] | k => map as_read k end))).
        rewrite (read_line_ok show num zero r plain' reads).
        destruct l as [|p l]; [contradiction K; reflexivity|reflexivity].
      + change (read_text num zero (multi_line_wkt show (kept (l :: l' :: q))) =
                Got (Parts (match filter nonempty (l :: l' :: q) with [] => [[]] | k => map as_read k end))).
        rewrite (read_multi_ok show num zero r plain' reads), kept_eq.
        destruct (filter nonempty (l :: l' :: q)); [contradiction K; reflexivity|reflexivity].
  Qed.
  Theorem C100_point (p : N * N) : read_text num zero (point_wkt show p) = Got (APoint (r (fst p), r (snd p))).
  Proof. apply (read_point_ok show num zero r plain' reads). Qed.

  (** Writing what was read gives the same text if no part is empty and there are parts, and reading that gives the same
      lines again in any case. *)
  Theorem C100_again (same : forall x, show (r x) = show x) (ls ls' : list (list (N * N)))
    (H : read_text num zero (parts_wkt show ls) = Got (Parts ls')) :
    (Forall (fun l => l <> []) ls -> parts_wkt show ls' = parts_wkt show ls) /\
    read_text num zero (parts_wkt show ls') = Got (Parts ls').
  Proof.
    rewrite C100_read_back in H. injection H as <-.
    assert (PT : forall l, map (point_text show) (as_read l) = map (point_text show) l).
    { intro l. unfold as_read. rewrite map_map. apply map_ext. intros [x y]. unfold point_text. cbn. rewrite !same. reflexivity. }
    assert (BT : forall l, line_body show (as_read l) = line_body show l) by (intro l; unfold line_body; rewrite PT; reflexivity).
    assert (R : forall x, r (r x) = r x).
    { intro x. pose proof (reads (r x)) as A. rewrite same, reads in A. congruence. }
    assert (RR : forall l, as_read (as_read l) = as_read l).
    { intro l. unfold as_read. rewrite map_map. apply map_ext. intros [x y]. cbn. rewrite !R. reflexivity. }
    assert (NE : forall l, nonempty (as_read l) = nonempty l) by (intros [|? ?]; reflexivity).
    split.
    - intro F. assert (E : filter nonempty ls = ls).
      { clear - F. induction F as [|l q Hl Hq IH]; [reflexivity|]. cbn. rewrite IH. destruct l; [contradiction|reflexivity]. }
      rewrite E. destruct ls as [|l q]; [reflexivity|].
      assert (PE : forall ks, parts_empty (map as_read ks) = parts_empty ks).
      { intro ks. unfold parts_empty. induction ks as [|k ks IH]; [reflexivity|]. cbn. rewrite IH. destruct k; reflexivity. }
      change (parts_wkt show (map as_read (l :: q)) = parts_wkt show (l :: q)). unfold parts_wkt. rewrite PE. destruct (parts_empty (l :: q)); [reflexivity|].
      rewrite map_length. destruct (List.length (l :: q) <=? 1)%nat.
      + cbn [map hd]. unfold line_wkt. rewrite BT. reflexivity.
      + unfold multi_line_wkt. rewrite !kept_eq.
        assert (KK : forall ks, map (line_body show) (filter nonempty (map as_read ks)) = map (line_body show) (filter nonempty ks)).
        { induction ks as [|k ks IH]; [reflexivity|]. cbn [map filter]. rewrite NE. destruct (nonempty k); [cbn [map]; rewrite BT, IH; reflexivity|exact IH]. }
        rewrite KK. reflexivity.
    - rewrite C100_read_back.
      assert (FK : forall ks, filter nonempty (map as_read (filter nonempty ks)) = map as_read (filter nonempty ks)).
      { induction ks as [|k ks IH]; [reflexivity|]. cbn [filter]. destruct (nonempty k) eqn:Ek; [|exact IH].
        cbn [map filter]. rewrite NE, Ek, IH. reflexivity. }
      specialize (FK ls). destruct (filter nonempty ls) as [|k ks]; [reflexivity|].
      cbn [map] in *. rewrite FK. cbn [map]. rewrite RR, map_map. do 3 f_equal. apply map_ext. exact RR.
  Qed.
End Texts.

(** The layout used in the examples: the twelve digits, the letter e and the exponent. *)
Definition int_text (z : Z) : string := NilZero.string_of_int (Z.to_int z).
Definition text_e (d : Z * Z) : string := int_text (fst d) ++ "e" ++ int_text (snd d).
Fixpoint cut (s : string) : string * string :=
  match s with
  | EmptyString => ("", "")
  | String c q => if Ascii.eqb c "E" then ("", q) else let '(a, b) := cut q in (String c a, b)
  end.
Definition num_e (rnd : Q -> Q) (s : string) : option Q :=
  let '(a, b) := cut s in
  match NilZero.int_of_string a, NilZero.int_of_string b with
  | Some m, Some k => Some (rnd (inject_Z (Z.of_int m) * Qpower (10 # 1) (Z.of_int k))%Q)
  | _, _ => None
  end.

(** digits and the sign *)
Definition dig (c : ascii) : bool := let n := nat_of_ascii c in ((48 <=? n) && (n <=? 57) || (n =? 45))%nat.
Fixpoint all_dig (s : string) : bool := match s with EmptyString => true | String c q => dig c && all_dig q end.
Lemma all_dig_uint u : all_dig (NilEmpty.string_of_uint u) = true.
Proof. induction u; cbn [NilEmpty.string_of_uint all_dig]; rewrite ?IHu; reflexivity. Qed.
Lemma all_dig_int z : all_dig (int_text z) = true.
Proof.
  unfold int_text, NilZero.string_of_int. destruct (Z.to_int z) as [u|u]; destruct u; try reflexivity;
    cbn [NilZero.string_of_uint all_dig]; (apply all_dig_uint || (cbn; apply all_dig_uint)).
Qed.
Lemma dig_up c : dig c = true -> up c = c /\ special c = false /\ Ascii.eqb c "E" = false.
Proof. destruct c as [[] [] [] [] [] [] [] []]; intro H; try discriminate H; repeat split; reflexivity. Qed.
Lemma all_dig_facts s : all_dig s = true -> upper s = s /\ clean s = true /\ forall t, cut (s ++ String "E" t) = (s, t).
Proof.
  induction s as [|c s IH]; intro H; [repeat split; reflexivity|]. cbn in H. apply andb_prop in H as [A B].
  destruct (IH B) as (P & Q0 & R). destruct (dig_up c A) as (U & S & E). cbn. rewrite U, P, S, Q0, E.
  repeat split. intro t. rewrite R. reflexivity.
Qed.
Lemma int_text_back z : NilZero.int_of_string (int_text z) = Some (Z.to_int z).
Proof.
  unfold int_text. apply NilZero.isi.
  - intro C. destruct z as [|p|p]; [discriminate C| |discriminate C]. cbn in C. injection C as C.
    pose proof (DecimalPos.Unsigned.of_to p) as K. rewrite C in K. discriminate K.
  - intro C. destruct z as [|p|p]; [discriminate C|discriminate C|]. cbn in C. injection C as C.
    pose proof (DecimalPos.Unsigned.of_to p) as K. rewrite C in K. discriminate K.
Qed.
Lemma clean_app a b : clean (a ++ b) = clean a && clean b.
Proof. induction a as [|c a IH]; cbn; [reflexivity|]. rewrite IH, andb_assoc. reflexivity. Qed.
Lemma clean_in s : clean s = true -> forall a c b, s = a ++ String c b -> ~ In c [" "; "("; ")"; ","]%char.
Proof.
  intros H a c b E I. rewrite E, clean_app in H. apply andb_prop in H as [_ H]. cbn in H. apply andb_prop in H as [H _].
  cbn in I. destruct I as [<-|[<-|[<-|[<-|[]]]]]; discriminate H.
Qed.
Example C100_spells rnd : spells text_e (num_e rnd) rnd.
Proof.
  intros m k _. unfold text_e. cbn [fst snd].
  destruct (all_dig_facts _ (all_dig_int m)) as (U1 & C1 & K1). destruct (all_dig_facts _ (all_dig_int k)) as (U2 & C2 & _).
  split; [destruct (int_text m); discriminate|]. split.
  - apply clean_in. rewrite !clean_app, C1, C2. reflexivity.
  - rewrite !upper_app, U1, U2. unfold num_e. change (upper "e" ++ int_text k) with (String "E" (int_text k)).
    rewrite K1, !int_text_back, !DecimalZ.of_to. reflexivity.
Qed.
Example C100_machine : machine (fun x => x).
Proof. intro x. setoid_replace (x - x)%Q with 0%Q by ring. pose proof (Qabs_nonneg x). change (Qabs 0)%Q with 0%Q. lra. Qed.

(** *** Both together *)
(** A line of any parts written with twelve digits is read as its parts with points, in order; the relative error
    of every coordinate is at most 6e-12; and unless there were empty parts the text is the same when it is written again. *)
Theorem C100_file (text : Z * Z -> string) (num : string -> option Q) (rnd : Q -> Q)
  (H : spells text num rnd) (M : machine rnd) (ls : list (list (Q * Q))) :
  let show x := text (digits x) in
  let near (a b : Q) := (Qabs (b - a) <= (6 # 1000000000000) * Qabs a)%Q in
  exists ls', read_text num 0%Q (parts_wkt show ls) = Got (Parts ls') /\
    Forall2 (Forall2 (fun p q => near (fst p) (fst q) /\ near (snd p) (snd q)))
      (filter nonempty ls) (filter nonempty ls') /\
    ((exists l, In l ls /\ l <> []) -> Forall (fun l => l <> []) ls') /\
    (Forall (fun l => l <> []) ls -> parts_wkt show ls' = parts_wkt show ls).
Proof.
  intros show near.
  set (r := fun x => rnd (r12 x)).
  assert (plain : forall x, show x <> "" /\ (forall a c b, show x = a ++ String c b -> ~ In c [" "; "("; ")"; ","]%char)).
  { intro x. unfold show. destruct (digits x) as [m k] eqn:E. destruct (H m k) as (A & B & _); [|split; assumption].
    destruct (digits_normal x) as [D|D]; rewrite E in D; [left; injection D as -> ->; split; reflexivity|right; exact D]. }
  assert (reads : forall x, num (upper (show x)) = Some (r x)).
  { intro x. unfold show, r, r12. destruct (digits x) as [m k] eqn:E. destruct (H m k) as (_ & _ & C); [|exact C].
    destruct (digits_normal x) as [D|D]; rewrite E in D; [left; injection D as -> ->; split; reflexivity|right; exact D]. }
  assert (same : forall x, show (r x) = show x).
  { intro x. unfold show, r. f_equal. apply digits_stable. apply M. }
  assert (nr : forall x, near x (r x)).
  { intro x. unfold near, r. pose proof (M (r12 x)) as A. pose proof (r12_error x) as B.
    pose proof (tri (rnd (r12 x)) (r12 x) x) as T.
    assert (C : (Qabs (r12 x) <= Qabs x + Qabs (r12 x - x))%Q).
    { setoid_replace (r12 x) with (x + (r12 x - x))%Q at 1 by ring. apply Qabs_triangle. }
    pose proof (Qabs_nonneg x). lra. }
  exists (match filter nonempty ls with [] => [[]] | k => map (as_read r) k end).
  pose proof (C100_read_back show num 0%Q r plain reads ls) as RB.
  split; [exact RB|]. split; [|split].
  - assert (FK : forall ks, Forall2 (Forall2 (fun p q => near (fst p) (fst q) /\ near (snd p) (snd q)))
              (filter nonempty ks) (filter nonempty (map (as_read r) (filter nonempty ks)))).
    { induction ks as [|k ks IH]; [constructor|]. cbn [filter]. destruct (nonempty k) eqn:Ek; [|exact IH].
      cbn [map filter]. assert (Ek' : nonempty (as_read r k) = true) by (destruct k; [discriminate|reflexivity]).
      rewrite Ek'. constructor; [|exact IH]. unfold as_read. clear - nr. induction k as [|p k IHk]; constructor; [|exact IHk].
      split; apply nr. }
    specialize (FK ls). destruct (filter nonempty ls) as [|k ks] eqn:Ef; [constructor|exact FK].
  - intros (l & I & Hl). assert (I' : In l (filter nonempty ls)) by (apply filter_In; split; [exact I|destruct l; [contradiction|reflexivity]]).
    destruct (filter nonempty ls) as [|k ks] eqn:Ef; [destruct I'|]. rewrite <- Ef.
    apply Forall_forall. intros q Hq. apply in_map_iff in Hq as (q' & <- & Hq'). apply filter_In in Hq' as [_ Hn].
    destruct q'; discriminate.
  - exact (proj1 (C100_again show num 0%Q r plain reads same ls _ RB)).
Qed.

(** The number of parts is not kept, and a line with an empty part is written differently after it was read. *)
Theorem C100_parts_refuted : exists (ls ls' : list (list (Q * Q))),
  let show x := text_e (digits x) in
  read_text (num_e (fun x => x)) 0%Q (parts_wkt show ls) = Got (Parts ls') /\
  List.length ls' <> List.length ls /\ parts_wkt show ls' <> parts_wkt show ls.
Proof.
  exists [[]; [(0, 0); (0, 0)]]%Q, [[(0, 0); (0, 0)]]%Q. split; [vm_compute; reflexivity|].
  split; [cbn; lia|vm_compute; discriminate].
Qed.

(** three parts, one without points, with coordinates of sixteen digits, one of which is rounded up to a power of ten *)
Example C100_case :
  let show x := text_e (digits x) in
  let ls := [[(13454321234567891 # 1000000000000000, -99999999999999 # 1000); (1 # 3, 0)]; []; [(2 # 1, 5 # 10000000)]]%Q in
  parts_wkt show ls =
    "MULTILINESTRING((134543212346e-10 -100000000000e0,333333333333e-12 0e0),(200000000000e-11 500000000000e-18))" /\
  exists ls', read_text (num_e (fun x => x)) 0%Q (parts_wkt show ls) = Got (Parts ls') /\ List.length ls' = 2%nat.
Proof. split; [vm_compute; reflexivity|]. eexists. split; [vm_compute; reflexivity|reflexivity]. Qed.
(** texts that the importer was not given by the program: a missing coordinate is zero, blanks do not matter, text after
    the end or a missing parenthesis is an exception, other geometries are skipped *)
Example C100_case_texts :
  let rd := read_text (num_e (fun x => x)) 0%Q in
  (exists p, rd "Point ( 5e0 )" = Got (APoint (p, 0%Q))) /\ rd "linestring(1e0 2e0" = Failed /\
  rd "LINESTRING(1e0 2e0) 3e0" = Failed /\ rd "POLYGON((0e0 0e0))" = Got Skipped /\
  rd "MULTILINESTRING EMPTY" = Got (Parts []) /\ rd "geometrycollection empty" = Got (Parts [[]]).
Proof. split; [eexists; vm_compute; reflexivity|]. repeat split; vm_compute; reflexivity. Qed.

Print Assumptions C100_digits.
Print Assumptions C100_distinct_refuted.
Print Assumptions C100_read_back.
Print Assumptions C100_point.
Print Assumptions C100_again.
Print Assumptions C100_file.
Print Assumptions C100_parts_refuted.
