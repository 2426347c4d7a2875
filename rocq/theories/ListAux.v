(** General list lemmas used by several proofs (no model content). *)
From Verif Require Import Base.

Lemma removelast_firstn_S {A} (l : list A) : removelast l = firstn (length l - 1) l.
Proof.
  induction l as [|x l IH]; [reflexivity|].
  destruct l as [|y r]; [reflexivity|].
  change (removelast (x :: y :: r)) with (x :: removelast (y :: r)).
  rewrite IH. replace (length (x :: y :: r) - 1) with (S (length (y :: r) - 1)) by (cbn [length]; lia).
  reflexivity.
Qed.

Lemma pop_back_until_firstn {A} fuel n (l : list A) :
  length l <= fuel -> pop_back_until fuel n l = firstn n l.
Proof.
  revert l; induction fuel as [|f IH]; intros l Hl; cbn [pop_back_until].
  - destruct l; [now rewrite firstn_nil|cbn in Hl; lia].
  - destruct (Nat.ltb_spec n (length l)) as [Hlt|Hge].
    + rewrite IH by (rewrite removelast_firstn_S, firstn_length; lia).
      rewrite removelast_firstn_S, firstn_firstn. f_equal; lia.
    + symmetry; apply firstn_all2; lia.
Qed.

Lemma filter_ext_in' {A} (f g : A -> bool) l :
  (forall x, In x l -> f x = g x) -> filter f l = filter g l.
Proof.
  induction l as [|x l IH]; intros H; [reflexivity|]. cbn.
  rewrite (H x) by (left; reflexivity). rewrite IH by (intros y Hy; apply H; right; exact Hy). reflexivity.
Qed.

Lemma filter_filter {A} (f g : A -> bool) l : filter f (filter g l) = filter (fun x => g x && f x) l.
Proof.
  induction l as [|x l IH]; [reflexivity|]. cbn. destruct (g x); cbn; rewrite IH; [destruct (f x)|]; reflexivity.
Qed.

Lemma filter_true {A} (f : A -> bool) l : (forall x, In x l -> f x = true) -> filter f l = l.
Proof.
  induction l as [|x l IH]; intros H; [reflexivity|]. cbn. rewrite (H x) by (left; reflexivity).
  rewrite IH by (intros y Hy; apply H; right; exact Hy). reflexivity.
Qed.

Lemma filter_false {A} (f : A -> bool) l : (forall x, In x l -> f x = false) -> filter f l = [].
Proof.
  induction l as [|x l IH]; intros H; [reflexivity|]. cbn. rewrite (H x) by (left; reflexivity).
  apply IH; intros y Hy; apply H; right; exact Hy.
Qed.

Lemma filter_map_comm {A B} (f : A -> B) (p : B -> bool) l :
  filter p (map f l) = map f (filter (fun x => p (f x)) l).
Proof.
  induction l as [|x l IH]; [reflexivity|]. cbn. destruct (p (f x)); cbn; rewrite IH; reflexivity.
Qed.

Lemma NoDup_map_filter {A B} (f : A -> B) (p : A -> bool) l : NoDup (map f l) -> NoDup (map f (filter p l)).
Proof.
  induction l as [|x l IH]; cbn; intros H; [constructor|].
  inversion H as [|? ? H1 H2]; subst. destruct (p x); cbn; [constructor|]; auto.
  intro Hin; apply H1. apply in_map_iff in Hin as (y & Hy & Hin). apply filter_In in Hin as [Hin _].
  rewrite <- Hy; apply in_map; exact Hin.
Qed.

Lemma NoDup_map_inj {A B} (f : A -> B) l x y : NoDup (map f l) -> In x l -> In y l -> f x = f y -> x = y.
Proof.
  induction l as [|z l IH]; cbn; intros H Hx Hy E; [contradiction|].
  inversion H as [|? ? H1 H2]; subst.
  destruct Hx as [->|Hx], Hy as [->|Hy]; auto.
  - exfalso; apply H1; rewrite E; apply in_map; exact Hy.
  - exfalso; apply H1; rewrite <- E; apply in_map; exact Hx.
Qed.

Lemma find_unique {A} (f : A -> nat) l x :
  NoDup (map f l) -> In x l -> find (fun y => f y =? f x) l = Some x.
Proof.
  induction l as [|z l IH]; cbn; intros H Hin; [contradiction|].
  inversion H as [|? ? H1 H2]; subst.
  destruct (Nat.eqb_spec (f z) (f x)) as [E|NE].
  - destruct Hin as [->|Hin]; [reflexivity|]. exfalso; apply H1; rewrite E; apply in_map; exact Hin.
  - destruct Hin as [->|Hin]; [congruence|]. apply IH; assumption.
Qed.

Lemma existsb_eqb_In x l : existsb (Nat.eqb x) l = true <-> In x l.
Proof.
  rewrite existsb_exists. split.
  - intros (y & Hy & E). apply Nat.eqb_eq in E; subst; exact Hy.
  - intros H; exists x; split; [exact H|apply Nat.eqb_refl].
Qed.

Lemma nth_error_firstn_lt {A} (l : list A) n i : i < n -> nth_error (firstn n l) i = nth_error l i.
Proof.
  revert n i; induction l as [|x l IH]; intros [|n] [|i] H; cbn; try reflexivity; try lia.
  apply IH; lia.
Qed.

Lemma nth_error_skipn {A} (l : list A) n i : nth_error (skipn n l) i = nth_error l (n + i).
Proof.
  revert l; induction n as [|n IH]; intros l; [reflexivity|]. destruct l as [|x l]; cbn.
  - destruct i; reflexivity.
  - apply IH.
Qed.

Lemma NoDup_app' {A} (l1 l2 : list A) :
  NoDup l1 -> NoDup l2 -> (forall x, In x l1 -> ~ In x l2) -> NoDup (l1 ++ l2).
Proof.
  induction l1 as [|a l1 IH]; intros H1 H2 H; [exact H2|]. inversion H1; subst. cbn. constructor.
  - rewrite in_app_iff. intros [K|K]; [contradiction|]. apply (H a); [left; reflexivity|exact K].
  - apply IH; auto. intros x Hx. apply H. right; exact Hx.
Qed.

Lemma NoDup_flat_map {A B} (f : A -> list B) (l : list A) :
  NoDup l -> (forall a, In a l -> NoDup (f a)) ->
  (forall a b x, In a l -> In b l -> In x (f a) -> In x (f b) -> a = b) -> NoDup (flat_map f l).
Proof.
  induction l as [|a l IH]; intros Hl Hf Hd; [constructor|]. inversion Hl; subst. cbn.
  apply NoDup_app'.
  - apply Hf; left; reflexivity.
  - apply IH; auto.
    + intros b Hb. apply Hf; right; exact Hb.
    + intros b c x Hb Hc. apply Hd; right; assumption.
  - intros x Hx Hin. apply in_flat_map in Hin as (b & Hb & Hxb).
    assert (a = b) by (apply (Hd a b x); auto; [left; reflexivity|right; exact Hb]). subst; contradiction.
Qed.

Lemma flat_map_ext_in' {A B} (f h : A -> list B) (l : list A) :
  (forall a, In a l -> f a = h a) -> flat_map f l = flat_map h l.
Proof.
  induction l as [|a l IH]; intros H; [reflexivity|]. cbn.
  rewrite (H a) by (left; reflexivity). rewrite IH; [reflexivity|]. intros b Hb; apply H; right; exact Hb.
Qed.

Lemma filter_length_le {A} (f : A -> bool) l : length (filter f l) <= length l.
Proof. induction l as [|x l IH]; cbn; [lia|]. destruct (f x); cbn; lia. Qed.

(** Pure loops. *)
Lemma foldO_ok {A B} (f : A -> B -> outcome A) (g : A -> B -> A) (l : list B) : forall a,
  (forall a x, In x l -> f a x = Ok (g a x)) -> foldO f l a = Ok (fold_left g l a).
Proof.
  induction l as [|x r IH]; intros a H; [reflexivity|].
  cbn [foldO fold_left]. rewrite (H a x (or_introl eq_refl)). cbn [bindO].
  apply IH. intros a' y Hy. apply H. right; exact Hy.
Qed.

Lemma mapO_ok {B C} (f : B -> outcome C) (g : B -> C) (l : list B) :
  (forall x, In x l -> f x = Ok (g x)) -> mapO f l = Ok (map g l).
Proof.
  induction l as [|x r IH]; intros H; [reflexivity|].
  cbn [mapO map]. rewrite (H x (or_introl eq_refl)). cbn [bindO].
  rewrite IH; [reflexivity|]. intros y Hy. apply H. right; exact Hy.
Qed.

Lemma Forall2_impl' {A B : Type} (P Q : A -> B -> Prop) (l : list A) (m : list B) :
  (forall a b, P a b -> Q a b) -> Forall2 P l m -> Forall2 Q l m.
Proof. intros H F. induction F; constructor; auto. Qed.
Lemma Forall2_len {A B : Type} (P : A -> B -> Prop) (l : list A) (m : list B) : Forall2 P l m -> length l = length m.
Proof. intros F. induction F; cbn; congruence. Qed.
