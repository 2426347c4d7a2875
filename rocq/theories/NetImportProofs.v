(** Proofs about merging roads (network_import.hpp). *)
From Coq Require Import String.
From Verif Require Import Base ListAux AdjList AdjListSpec AdjListProofs AdjListProofs2 AdjListProofs3 Tags TagsProps RichLine NetImport NetImportSpec.

Section Join.
  Context {P : Type}.
  Notation edge := (@edge (road P)).

  Lemma join_app (a b : list (list P)) : a <> [] -> b <> [] -> (forall l, In l b -> l <> []) ->
    join (a ++ b) = join a ++ tl (join b).
  Proof.
    intros Na Nb H. destruct a as [|x a]; [contradiction|]. destruct b as [|y b]; [contradiction|].
    cbn [app join]. rewrite flat_map_app. cbn [flat_map]. rewrite app_assoc. f_equal.
    destruct y as [|p y]; [exfalso; apply (H []); [left; reflexivity|reflexivity]|]. reflexivity.
  Qed.

  Lemma last_map_default {A} (l : list A) a b : l <> [] -> last l a = last l b.
  Proof. induction l as [|x [|y r] IH]; intros N; [contradiction|reflexivity|]. cbn in *. apply IH. discriminate. Qed.
  Lemma last_app_ne {A} (l m : list A) d : m <> [] -> last (l ++ m) d = last m d.
  Proof.
    intros N. induction l as [|x l IH]; [reflexivity|]. cbn [app].
    destruct (l ++ m) as [|y r] eqn:E; [destruct l; [cbn in E; subst; contradiction|discriminate]|]. cbn [last]. exact IH.
  Qed.
  Lemma last_in {A} (l : list A) d : l <> [] -> In (last l d) l.
  Proof. induction l as [|x [|y r] IH]; intros N; [contradiction|left; reflexivity|]. right. apply IH. discriminate. Qed.

  Lemma hd_rev_last {A} (l : list A) d : l <> [] -> hd_error (rev l) = Some (last l d).
  Proof.
    intros N. rewrite (app_removelast_last d N) at 1. rewrite rev_app_distr. reflexivity.
  Qed.

  Lemma linked_app J (a b : list edge) f h : linked J a -> linked J b -> a <> [] ->
    b = h :: tl b -> e_tgt (last a f) = e_src h -> In (e_src h) J -> linked J (a ++ b).
  Proof.
    intros La Lb Na Eb Et Hj. revert La Na Et. induction a as [|x a IH]; intros La Na Et; [contradiction|].
    destruct a as [|y a].
    - cbn [app]. rewrite Eb in *. cbn [last] in Et. cbn [linked]. split; [|exact Lb]. split; [exact Et|]. rewrite Et. exact Hj.
    - cbn [app]. cbn [linked] in La. destruct La as [A B]. change ((y :: a) ++ b) with (y :: a ++ b) in *.
      cbn [linked]. split; [exact A|]. apply IH; [exact B|discriminate|]. exact Et.
  Qed.

  Lemma linked_mono J J' (c : list edge) : incl J J' -> linked J c -> linked J' c.
  Proof.
    intros H. induction c as [|e c IH]; [auto|]. cbn [linked]. intros [A B]. split; [|apply IH; exact B].
    destruct c; [exact I|]. destruct A; split; auto.
  Qed.
  Lemma course_mono J J' (c : list edge) e : incl J J' -> course J c e -> course J' c e.
  Proof. intros H (f & r & E & L & R). exists f, r. split; [exact E|]. split; [eapply linked_mono; eauto|exact R]. Qed.

  Lemma course_ne J (c : list edge) e : course J c e -> c <> [].
  Proof. intros (f & r & -> & _). discriminate. Qed.

  (** joining two courses *)
  Lemma course_app J (a b : list edge) x y n k new :
    course J a x -> course J b y -> (forall f, In f b -> line_of f <> []) -> In (e_src y) J -> e_tgt x = e_src y ->
    new = mkRoad (id_of x) (line_of x ++ tl (line_of y)) ->
    course J (a ++ b) (mkE n k (e_src x) (e_tgt y) new).
  Proof.
    intros (f & r & -> & La & Sa & Ta & Ia & Ea) (h & q & -> & Lb & Sb & Tb & Ib & Eb) Hl Hj Et ->.
    exists f, (r ++ h :: q). split; [reflexivity|]. split.
    - apply (linked_app J (f :: r) (h :: q) f h La Lb); [discriminate|reflexivity|rewrite <- Ta, Et; exact Sb|rewrite <- Sb; exact Hj].
    - cbn [e_src e_tgt]. split; [exact Sa|]. split.
      + rewrite Tb. change (f :: r ++ h :: q) with ((f :: r) ++ h :: q). rewrite last_app_ne by discriminate.
        f_equal. apply last_map_default. discriminate.
      + split; [unfold id_of in *; cbn; exact Ia|]. unfold line_of at 1. cbn [e_data r_line].
        change (f :: r ++ h :: q) with ((f :: r) ++ h :: q). rewrite map_app, join_app; [|discriminate|discriminate|].
        * rewrite Ea, Eb. reflexivity.
        * intros l H. apply in_map_iff in H as (z & <- & Hz). auto.
  Qed.
End Join.

Section Reversed.
  Context {P : Type}.
  Variable eqp : P -> P -> bool.

  Lemma nth_error_last {A} (l : list A) d : l <> [] -> nth_error l (length l - 1) = Some (last l d).
  Proof.
    induction l as [|x [|y r] IH]; intros N; [contradiction|reflexivity|].
    replace (length (x :: y :: r) - 1) with (S (length (y :: r) - 1)) by (cbn; lia).
    cbn [nth_error]. rewrite IH by discriminate. reflexivity.
  Qed.

  Lemma reversed_loop_ok (a b : list P) k : forall i, i + k = length a -> length a = length b -> 1 <= i ->
    exists r, reversed_loop eqp a b k i (length b - 1 - i) = Ok r /\
      (r = true <-> forall m p q, i <= m < length a -> nth_error a m = Some p -> nth_error b (length b - 1 - m) = Some q -> eqp p q = true).
  Proof.
    induction k as [|k IH]; intros i Hk Hl Hi.
    - exists true. split; [reflexivity|]. split; [|reflexivity]. intros _ m p q Hm. lia.
    - cbn [reversed_loop].
      destruct (nth_error a i) as [p|] eqn:Ep; [|apply nth_error_None in Ep; lia]. cbn [derefO].
      destruct (nth_error b (length b - 1 - i)) as [q|] eqn:Eq; [|apply nth_error_None in Eq; lia]. cbn [derefO].
      destruct (eqp p q) eqn:E.
      + destruct (IH (S i)) as (r & R & S'); [lia|exact Hl|lia|].
        replace (length b - 1 - i - 1) with (length b - 1 - S i) by lia. rewrite R. exists r. split; [reflexivity|].
        rewrite S'. split; intros H m p' q' Hm Em En.
        * destruct (Nat.eq_dec m i) as [->|N]; [congruence|]. apply (H m); auto. lia.
        * apply (H m); auto. lia.
      + exists false. split; [reflexivity|]. split; [discriminate|]. intros H. rewrite (H i p q) in E; auto. lia.
  Qed.

  (** [lines_are_reversed] decides whether one line is the other read backwards *)
  Lemma lines_are_reversed_ok (a b : list P) : exists r, lines_are_reversed eqp a b = Ok r /\
    (r = true <-> a <> [] /\ length a = length b /\
       forall m p q, m < length a -> nth_error a m = Some p -> nth_error b (length b - 1 - m) = Some q -> eqp p q = true).
  Proof.
    unfold lines_are_reversed. destruct a as [|pa a']; [exists false; split; [reflexivity|]; split; [discriminate|intros [H _]; contradiction]|].
    destruct b as [|pb b']; [exists false; split; [reflexivity|]; split; [discriminate|intros (_ & H & _); discriminate]|].
    set (a := pa :: a') in *. set (b := pb :: b') in *.
    destruct (length a =? length b) eqn:El; cbn [negb].
    2:{ apply Nat.eqb_neq in El. exists false; split; [reflexivity|]; split; [discriminate|tauto]. }
    apply Nat.eqb_eq in El.
    assert (Fb : nth_error b (length b - 1 - 0) = Some (last b pb)) by (rewrite Nat.sub_0_r; apply nth_error_last; discriminate).
    assert (Fa : nth_error a (length a - 1) = Some (last a pa)) by (apply nth_error_last; discriminate).
    destruct (eqp pa (last b pb) && eqp (last a pa) pb) eqn:E; cbn [negb].
    - apply andb_true_iff in E as [E1 E2].
      destruct (reversed_loop_ok a b (length a - 1) 1) as (r & R & S'); [cbn; lia|exact El|lia|].
      replace (length b - 1 - 1) with (length b - 2) in R by lia. exists r. split; [exact R|]. rewrite S'. split.
      + intros H. split; [discriminate|]. split; [exact El|]. intros m p q Hm Em En.
        destruct (Nat.eq_dec m 0) as [->|N].
        * rewrite Fb in En. injection En as <-. cbn in Em. injection Em as <-. exact E1.
        * apply (H m); auto. lia.
      + intros (_ & _ & H) m p q Hm Em En. apply (H m); auto. lia.
    - exists false. split; [reflexivity|]. split; [discriminate|]. intros (_ & _ & H). exfalso.
      apply andb_false_iff in E as [E|E].
      + rewrite (H 0 pa (last b pb)) in E; auto; [discriminate|cbn; lia].
      + rewrite (H (length a - 1) (last a pa) pb) in E; auto; [discriminate|cbn; lia|].
        replace (length b - 1 - (length a - 1)) with 0 by lia. reflexivity.
  Qed.
End Reversed.
