(** C98: the vectors the spatial indices are built from are reserved exactly as they are filled. *)
From Coq Require Import ZArith.
From Verif Require Import Base ListAux AdjList Csr SpatialIndex SpatialIndexProps IndexBuild.
Local Open Scope nat_scope.

Section C98.
  Context {P : Type}.
  Local Notation csr := (@csr (nat * P) (nat * list P)).
  Local Notation pvalue := (P * nat)%type.
  Local Notation svalue := ((P * P) * (nat * nat))%type.
  Local Notation build := (@build P).
  Variable wp ws : nat.
  Variable place : nat -> nat -> nat -> bool.
  Variable bigger : nat -> nat.

  Local Notation add_point := (@IndexBuild.add_point P wp ws place bigger).
  Local Notation add_segment := (@IndexBuild.add_segment P wp ws place bigger).
  Local Notation add_points := (@IndexBuild.add_points P wp ws place bigger).
  Local Notation add_line := (@IndexBuild.add_line P wp ws place bigger).
  Local Notation add_lines := (@IndexBuild.add_lines P wp ws place bigger).
  Local Notation build_vectors := (@IndexBuild.build_vectors P wp ws place bigger).
  Local Notation bytes := (@IndexBuild.bytes P wp ws).
  Local Notation vec_reserve_p := (@IndexBuild.vec_reserve_p P wp ws place).
  Local Notation vec_reserve_s := (@IndexBuild.vec_reserve_s P wp ws place).

  (** the values in the order they are added in *)
  Fixpoint pvals (k : nat) (points : list P) : list pvalue := match points with [] => [] | p :: r => (p, k) :: pvals (S k) r end.
  Definition lvals (k j : nat) (line : list P) : list svalue := map (fun x => (snd x, (k, fst x))) (segments_from j line).
  Fixpoint svals (k : nat) (lines : list (list P)) : list svalue := match lines with [] => [] | l :: r => lvals k 0 l ++ svals (S k) r end.

  Lemma pvals_length k points : length (pvals k points) = length points.
  Proof. revert k. induction points; intros; cbn; auto. Qed.
  Lemma pvals_of (l : list (nat * (nat * P))) : forall k,
    pvals k (map (fun v => snd (snd v)) l) = map (fun v => (snd (snd (snd v)), fst v)) (numbered_from k l).
  Proof. induction l as [|v l IH]; intros k; cbn; [reflexivity|]. f_equal. apply IH. Qed.
  Lemma svals_of (l : list (nat * nat * (nat * list P))) : forall k,
    svals k (map (fun e => snd (snd e)) l) = flat_map (fun e => map (fun x => (snd x, (fst e, fst x))) (segments_from 0 (snd (snd (snd e))))) (numbered_from k l).
  Proof. induction l as [|v l IH]; intros k; cbn; [reflexivity|]. f_equal. apply IH. Qed.
  Lemma segments_from_length (l : list P) : forall k, length (segments_from k l) = length l - 1.
  Proof.
    induction l as [|a l IH]; intros k; [reflexivity|]. destruct l as [|b l]; [reflexivity|].
    change (segments_from k (a :: b :: l)) with ((k, (a, b)) :: segments_from (S k) (b :: l)). cbn [length]. rewrite IH. cbn. lia.
  Qed.

  (** the number of segments *)
  Lemma count_ok (lines : list (list P)) : count_segments lines = Ok (length (svals 0 lines)).
  Proof.
    unfold count_segments. enough (G : forall k n, foldO (fun k line => if 1 <=? length line then derefO (less_one (length line)) (fun m => Ok (k + m)) else Ok k) lines n
      = Ok (n + length (svals k lines))) by apply (G 0 0).
    induction lines as [|l lines IH]; intros k n; cbn [foldO svals]; [cbn; now rewrite Nat.add_0_r|].
    unfold lvals. rewrite app_length, map_length, segments_from_length. destruct l as [|a l]; cbn [length Nat.leb less_one derefO bindO].
    - rewrite (IH (S k)). f_equal.
    - rewrite (IH (S k)). f_equal. lia.
  Qed.

  Definition with_p (s : build) (l : list pvalue) : build := mkBuild (b_file s) (mkVec l (cap (b_p s))) (b_s s) (asked s).
  Definition with_s (s : build) (l : list svalue) : build := mkBuild (b_file s) (b_p s) (mkVec l (cap (b_s s))) (asked s).

  Lemma add_point_fits mmap s x : length (items (b_p s)) < cap (b_p s) -> add_point mmap s x = Ok (with_p s (items (b_p s) ++ [x])).
  Proof.
    intros L. unfold IndexBuild.add_point, at_once. cbn [retry]. unfold vec_add_p. destruct (Nat.ltb_spec (length (items (b_p s))) (cap (b_p s))); [|lia].
    destruct mmap; reflexivity.
  Qed.
  Lemma add_segment_fits mmap s x : length (items (b_s s)) < cap (b_s s) -> add_segment mmap s x = Ok (with_s s (items (b_s s) ++ [x])).
  Proof.
    intros L. unfold IndexBuild.add_segment, at_once. cbn [retry]. unfold vec_add_s. destruct (Nat.ltb_spec (length (items (b_s s))) (cap (b_s s))); [|lia].
    destruct mmap; reflexivity.
  Qed.
  Lemma add_points_fit mmap points : forall k s, length (items (b_p s)) + length points <= cap (b_p s) ->
    add_points mmap k points s = Ok (with_p s (items (b_p s) ++ pvals k points)).
  Proof.
    induction points as [|p r IH]; intros k s L; cbn [IndexBuild.add_points pvals].
    - rewrite app_nil_r. destruct s as [? [? ?] ? ?]. reflexivity.
    - cbn [length] in L. rewrite add_point_fits by lia. cbn [bindO]. rewrite IH; cbn [with_p b_p items cap]; [|rewrite app_length; cbn; lia].
      unfold with_p. cbn. now rewrite <- app_assoc.
  Qed.
  Lemma line_fits mmap k line : forall m j rest s, skipn j line = rest -> length rest = S m -> length (items (b_s s)) + m <= cap (b_s s) ->
    foldO (fun s i => match segment line i with Some x => add_segment mmap s (x, (k, i)) | None => Throw s end) (seq j m) s
    = Ok (with_s s (items (b_s s) ++ lvals k j rest)).
  Proof.
    induction m as [|m IH]; intros j rest s E L C; cbn [seq foldO].
    - destruct rest as [|a [|b r]]; cbn in L; try lia. unfold lvals. cbn. rewrite app_nil_r. destruct s as [? ? [? ?] ?]. reflexivity.
    - destruct rest as [|a [|b r]]; cbn [length] in L; try lia.
      assert (N1 : nth_error line j = Some a). { rewrite <- (Nat.add_0_r j), <- nth_error_skipn, E. reflexivity. }
      assert (N2 : nth_error line (j + 1) = Some b). { rewrite <- nth_error_skipn, E. reflexivity. }
      unfold segment at 1. rewrite N1, N2. rewrite add_segment_fits by lia. cbn [bindO].
      rewrite (IH (S j) (b :: r)); cbn [with_s b_s items cap length].
      + unfold with_s. cbn [b_file b_p b_s cap items asked]. rewrite <- app_assoc. reflexivity.
      + clear -E. revert j E. induction line as [|x line IH]; intros [|j] E; try discriminate; cbn in *; [now injection E as -> ->|]. rewrite <- (IH j E). destruct line; reflexivity.
      + cbn in L. lia.
      + rewrite app_length. cbn. lia.
  Qed.
  Lemma add_lines_fit mmap lines : forall k s, length (items (b_s s)) + length (svals k lines) <= cap (b_s s) ->
    add_lines mmap k lines s = Ok (with_s s (items (b_s s) ++ svals k lines)).
  Proof.
    induction lines as [|l r IH]; intros k s L; cbn [IndexBuild.add_lines svals].
    - rewrite app_nil_r. destruct s as [? ? [? ?] ?]. reflexivity.
    - cbn [svals] in L. rewrite app_length in L. unfold lvals in L at 1. rewrite map_length, segments_from_length in L.
      assert (E : add_line mmap k l s = Ok (with_s s (items (b_s s) ++ lvals k 0 l))).
      { unfold IndexBuild.add_line. destruct l as [|a l]; cbn [length Nat.leb less_one derefO].
        - cbn. rewrite app_nil_r. destruct s as [? ? [? ?] ?]. reflexivity.
        - apply (line_fits mmap k (a :: l) (length l) 0 (a :: l)); [reflexivity|reflexivity|cbn in L; lia]. }
      rewrite E. cbn [bindO]. rewrite IH; cbn [with_s b_s items cap].
      + unfold with_s. cbn. now rewrite <- app_assoc.
      + rewrite app_length. unfold lvals. rewrite map_length, segments_from_length. lia.
  Qed.

  (** a reservation: it works, or throws; what is asked for and what the file becomes *)
  Definition grown (s : build) (f : nat) (l : list nat) : build := mkBuild f (b_p s) (b_s s) (l ++ asked s).
  Lemma retry_any (once : build -> build * bool) w r s0 (p' : vec pvalue) (s' : vec svalue) :
    (forall f l, once (grown s0 f l) = if place f (bytes s0) w then (mkBuild f p' s' (w :: l ++ asked s0), true) else (grown s0 f (w :: l), false)) ->
    forall f l, exists j, retry once r (grown s0 f l) =
        (if j <=? r then Ok (mkBuild (f * 2 ^ j) p' s' (repeat w (S j) ++ l ++ asked s0)) else Throw (grown s0 (f * 2 ^ j) (repeat w j ++ l)))
      /\ (j <= r -> place (f * 2 ^ j) (bytes s0) w = true) /\ (forall i, i < j -> place (f * 2 ^ i) (bytes s0) w = false) /\ j <= S r.
  Proof.
    intros O. assert (H : forall f l, handle_bad_alloc (grown s0 f l) = Ok (grown s0 (2 * f) l)).
    { intros f l. unfold handle_bad_alloc, grow, grown. cbn [b_p b_s b_file asked]. now rewrite !Nat.eqb_refl. }
    induction r as [|r IH]; intros f l; cbn [retry]; rewrite O; destruct (place f (bytes s0) w) eqn:A.
    - exists 0. cbn [Nat.leb Nat.pow repeat app]. rewrite Nat.mul_1_r. repeat split; auto. intros i I. lia.
    - exists 1. rewrite H. cbn [bindO Nat.leb repeat app Nat.pow]. rewrite Nat.mul_1_r, (Nat.mul_comm f 2). repeat split; auto; [lia|].
      intros i I. assert (i = 0) as -> by lia. cbn. now rewrite Nat.mul_1_r.
    - exists 0. cbn [Nat.leb Nat.pow repeat app]. rewrite Nat.mul_1_r. repeat split; auto; [|lia]. intros i I. lia.
    - rewrite H. cbn [bindO]. destruct (IH (2 * f) (w :: l)) as (j & E & F1 & F2 & Lj). exists (S j). rewrite E.
      assert (Pw : forall i, 2 * f * 2 ^ i = f * 2 ^ S i) by (intros; cbn [Nat.pow]; nia).
      assert (R : forall k (m : list nat), repeat w k ++ w :: m = repeat w (S k) ++ m).
      { intros k m. change (w :: m) with (repeat w 1 ++ m). rewrite app_assoc, <- repeat_app. f_equal. f_equal. lia. }
      change (S j <=? S r) with (j <=? r). split; [|split; [|split]].
      + rewrite Pw. cbn [app]. rewrite !R. reflexivity.
      + intros Lr. rewrite <- Pw. apply F1. lia.
      + intros [|i] I; [cbn [Nat.pow]; now rewrite Nat.mul_1_r|]. rewrite <- Pw. apply F2. lia.
      + lia.
  Qed.

  (** what a reservation of [w] bytes may do to the file and to the list of requests *)
  Definition doubled (f g used w : nat) : Prop := exists j, g = f * 2 ^ j /\ forall i, i < j -> place (f * 2 ^ i) used w = false.
  Definition asks_for (w : nat) (s s1 : build) : Prop := exists l, asked s1 = l ++ asked s /\ Forall (fun x => x = w) l.
  Lemma forall_repeat (w k : nat) : Forall (fun x => x = w) (repeat w k).
  Proof. apply Forall_forall. intros x X. now apply repeat_spec in X. Qed.

  Definition reservation (mmap : bool) (av w : nat) (s : build) (result : outcome build) (p' : vec pvalue) (s' : vec svalue) : Prop :=
    match result with
    | Ok s1 => b_p s1 = p' /\ b_s s1 = s' /\ asks_for w s s1 /\ doubled (b_file s) (b_file s1) (bytes s) w
               /\ (0 < w -> place (b_file s1) (bytes s) w = true)
    | Throw s1 => asks_for w s s1 /\ exists g, place g (bytes s) w = false /\ (mmap = true -> av < 2 * g) /\ (mmap = false -> g = b_file s)
    | UB => mmap = true /\ (b_file s = 0 \/ av < b_file s)
    | Fuel => False
    end.

  Lemma reservation_any (once : build -> build * bool) mmap av w s (p' : vec pvalue) (s' : vec svalue) :
    (forall f l, once (grown s f l) = if place f (bytes s) w then (mkBuild f p' s' (w :: l ++ asked s), true) else (grown s f (w :: l), false)) ->
    reservation mmap av w s (if mmap then bindO (max_retries av s) (fun _ => s) (fun r => retry once r s) else at_once once s) p' s'.
  Proof.
    intros O. assert (S0 : s = grown s (b_file s) []) by (destruct s; reflexivity). destruct mmap.
    - unfold max_retries. destruct (b_file s) as [|f1] eqn:Ef; [cbn; auto|]. set (f := S f1) in *.
      destruct (Nat.eqb_spec (av / f) 0) as [Z|Nz]; cbn [bindO].
      + cbn. split; [reflexivity|]. right. rewrite Ef. apply Nat.div_small_iff in Z; unfold f in *; lia.
      + set (r := Nat.log2 (av / f)). rewrite S0. destruct (retry_any once w r s p' s' O f []) as (j & E & F1 & F2 & Lj). rewrite E. clear E.
        destruct (Nat.leb_spec j r) as [L|L]; cbn [reservation b_p b_s b_file asked grown app].
        * split; [reflexivity|]. split; [reflexivity|]. split; [exists (repeat w (S j)); split; [reflexivity|apply forall_repeat]|].
          split; [exists j; rewrite ?Ef; auto|]. intros _. now apply F1.
        * assert (j = S r) as -> by lia. split; [exists (repeat w (S r)); split; [now rewrite app_nil_r|apply forall_repeat]|].
          exists (f * 2 ^ r). split; [apply F2; lia|]. split; [|discriminate]. intros _.
          destruct (Nat.log2_spec (av / f)) as [_ Q]; [lia|]. fold r in Q. cbn [Nat.pow] in Q.
          pose proof (Nat.div_mod av f ltac:(unfold f; lia)) as Dm. pose proof (Nat.mod_upper_bound av f ltac:(unfold f; lia)) as Mb. nia.
    - unfold at_once. rewrite S0. rewrite O. destruct (place (b_file s) (bytes s) w) eqn:A; cbn [reservation b_p b_s b_file asked grown app].
      + split; [reflexivity|]. split; [reflexivity|]. split; [exists [w]; auto|]. split; [exists 0; cbn; rewrite Nat.mul_1_r; split; [reflexivity|lia]|]. intros _. exact A.
      + split; [exists [w]; auto|]. exists (b_file s). repeat split; [exact A|discriminate].
  Qed.
  Lemma reservation_none (once : build -> build * bool) mmap av s (p' : vec pvalue) (s' : vec svalue) w : w = 0 -> p' = b_p s -> s' = b_s s -> once s = (s, true) ->
    reservation mmap av w s (if mmap then bindO (max_retries av s) (fun _ => s) (fun r => retry once r s) else at_once once s) p' s'.
  Proof.
    intros -> -> -> O. assert (R : forall r, retry once r s = Ok s) by (intros [|r]; cbn [retry]; now rewrite O).
    assert (G : reservation mmap av 0 s (Ok s) (b_p s) (b_s s)).
    { cbn. split; [reflexivity|]. split; [reflexivity|]. split; [exists []; auto|]. split; [exists 0; cbn; rewrite Nat.mul_1_r; split; [reflexivity|lia]|]. lia. }
    destruct mmap.
    - unfold max_retries. destruct (b_file s) as [|f1] eqn:Ef; [cbn; auto|]. set (f := S f1) in *.
      destruct (Nat.eqb_spec (av / f) 0) as [Z|Nz]; cbn [bindO]; [|rewrite R; exact G].
      cbn. split; [reflexivity|]. right. rewrite Ef. apply Nat.div_small_iff in Z; unfold f in *; lia.
    - unfold at_once. rewrite O. exact G.
  Qed.
  Lemma reserve_p mmap av n s : cap (b_p s) = 0 ->
    reservation mmap av (wp * n) s (IndexBuild.reserve_points wp ws place mmap av n s) (mkVec (items (b_p s)) n) (b_s s).
  Proof.
    intros C. unfold IndexBuild.reserve_points. destruct n as [|n].
    - apply reservation_none; [lia|destruct (b_p s); cbn in *; now rewrite C|reflexivity|]. unfold IndexBuild.vec_reserve_p. now rewrite C.
    - apply reservation_any. intros f l. unfold IndexBuild.vec_reserve_p, ask, grown. cbn [b_p]. rewrite C. cbn [Nat.ltb Nat.leb b_file b_p b_s asked].
      unfold IndexBuild.bytes. cbn [b_p b_s]. destruct (place _ _ _); reflexivity.
  Qed.
  Lemma reserve_s mmap av n s : cap (b_s s) = 0 ->
    reservation mmap av (ws * n) s (IndexBuild.reserve_segments wp ws place mmap av n s) (b_p s) (mkVec (items (b_s s)) n).
  Proof.
    intros C. unfold IndexBuild.reserve_segments. destruct n as [|n].
    - apply reservation_none; [lia|reflexivity|destruct (b_s s); cbn in *; now rewrite C|]. unfold IndexBuild.vec_reserve_s. now rewrite C.
    - apply reservation_any. intros f l. unfold IndexBuild.vec_reserve_s, ask, grown. cbn [b_s]. rewrite C. cbn [Nat.ltb Nat.leb b_file b_p b_s asked].
      unfold IndexBuild.bytes. cbn [b_p b_s]. destruct (place _ _ _); reflexivity.
  Qed.

  (** the number of segments of the edges of a network *)
  Definition segments_number (c : csr) : nat := list_sum (map (fun e => length (snd (snd e)) - 1) (c_es c)).
  Lemma svals_number c : length (svals 0 (lines_of c)) = segments_number c.
  Proof.
    unfold lines_of, segments_number. enough (G : forall k, length (svals k (map (fun e => snd (snd e)) (c_es c))) = list_sum (map (fun e => length (snd (snd e)) - 1) (c_es c))) by apply G.
    induction (c_es c) as [|e l IH]; intros k; cbn [map svals list_sum fold_right]; [reflexivity|].
    rewrite app_length, IH. unfold lvals. rewrite map_length, segments_from_length. reflexivity.
  Qed.
  Definition done (c : csr) (s : build) : Prop :=
    b_p s = mkVec (pvals 0 (points_of c)) (length (c_vs c)) /\ b_s s = mkVec (svals 0 (lines_of c)) (segments_number c).

  (** the whole run *)
  Lemma run mmap av1 av2 c f : let w1 := wp * length (c_vs c) in let w2 := ws * segments_number c in
    match build_vectors mmap av1 av2 c (new_build f) with
    | Ok s => done c s /\ (exists l1 l2, asked s = l2 ++ l1 /\ Forall (fun x => x = w1) l1 /\ Forall (fun x => x = w2) l2)
              /\ (exists g, doubled f g 0 w1 /\ doubled g (b_file s) w1 w2 /\ (0 < w1 -> place g 0 w1 = true) /\ (0 < w2 -> place (b_file s) w1 w2 = true))
    | Throw s => (exists l1 l2, asked s = l2 ++ l1 /\ Forall (fun x => x = w1) l1 /\ Forall (fun x => x = w2) l2)
              /\ ((exists g, place g 0 w1 = false /\ (mmap = true -> av1 < 2 * g) /\ (mmap = false -> g = f))
                  \/ (exists g, place g w1 w2 = false /\ (mmap = true -> av2 < 2 * g) /\ (mmap = false -> exists f', g = f' /\ doubled f f' 0 w1)))
    | UB => mmap = true /\ (f = 0 \/ av1 < f \/ exists g, doubled f g 0 w1 /\ (g = 0 \/ av2 < g))
    | Fuel => False
    end.
  Proof.
    intros w1 w2. unfold IndexBuild.build_vectors.
    assert (Z : bytes (new_build f) = 0) by (unfold IndexBuild.bytes; cbn; lia).
    pose proof (reserve_p mmap av1 (length (c_vs c)) (new_build f) eq_refl) as R1. fold w1 in R1. unfold reservation in R1. rewrite Z in R1. cbn [new_build b_p b_s items b_file] in R1.
    destruct (IndexBuild.reserve_points wp ws place mmap av1 (length (c_vs c)) (new_build f)) as [s1|s1| |]; cbn [bindO].
    2:{ destruct R1 as [(l & E & F) R1]. split; [|left; exact R1]. exists l, []. cbn in E. rewrite app_nil_r in E. auto. }
    2:{ intuition. }
    2:{ exact R1. }
    destruct R1 as (P1 & S1 & (l1 & A1 & F1) & D1 & Pl1). cbn in A1. rewrite app_nil_r in A1.
    rewrite add_points_fit by (rewrite P1; cbn; unfold points_of; rewrite map_length; lia). cbn [bindO]. rewrite P1. cbn [items app].
    rewrite count_ok. cbn [bindO]. rewrite svals_number. set (s2 := with_p s1 (pvals 0 (points_of c))).
    assert (Z2 : bytes s2 = w1). { unfold IndexBuild.bytes, s2, with_p. cbn [b_p b_s cap]. rewrite P1, S1. cbn. unfold w1. lia. }
    pose proof (reserve_s mmap av2 (segments_number c) s2 ltac:(unfold s2; cbn; now rewrite S1)) as R2. fold w2 in R2. unfold reservation in R2. rewrite Z2 in R2.
    destruct (IndexBuild.reserve_segments wp ws place mmap av2 (segments_number c) s2) as [s3|s3| |]; cbn [bindO].
    - destruct R2 as (P3 & S3 & (l2 & A2 & F2) & D2 & Pl2). unfold s2 in *. cbn [with_p b_p b_s b_file asked] in *. rewrite S1 in S3. cbn [items] in S3.
      rewrite add_lines_fit by (rewrite S3; cbn; rewrite svals_number; lia). rewrite S3. cbn [items app with_s]. split.
      + split; unfold with_s; cbn [b_p b_s cap]; [rewrite P3, P1; reflexivity|now rewrite S3].
      + unfold with_s. cbn [asked b_file]. split; [exists l1, l2; rewrite A2, A1; auto|]. exists (b_file s1). auto.
    - destruct R2 as [(l2 & A2 & F2) (g & G1 & G2 & G3)]. split; [exists l1, l2; rewrite A2; unfold s2; cbn [with_p asked]; rewrite A1; auto|].
      right. exists g. split; [exact G1|]. split; [exact G2|]. intros M. exists g. split; [reflexivity|]. rewrite (G3 M). exact D1.
    - destruct R2 as [M R2]. split; [exact M|]. right. right. exists (b_file s1). split; [exact D1|]. exact R2.
    - exact R2.
  Qed.

  (** Nothing is asked of the memory but the space of all points at once and the space of all segments at once.  When the building of the vectors returns, each holds exactly what C73 says and has no capacity to spare; it
      ends in an exception only if one of these two requests is refused, and it is undefined only if the file is already bigger than what is
      available. *)
  Theorem C98_exact mmap av1 av2 c f : let w1 := wp * length (c_vs c) in let w2 := ws * segments_number c in
    match build_vectors mmap av1 av2 c (new_build f) with
    | Ok s => (forall x, In x (asked s) -> x = w1 \/ x = w2)
              /\ cap (b_p s) = length (items (b_p s)) /\ cap (b_s s) = length (items (b_s s)) /\ bytes s = w1 + w2
              /\ map snd (items (b_p s)) = seq 0 (length (c_vs c)) /\ (forall p v, In (p, v) (items (b_p s)) <-> node_at c v p)
              /\ NoDup (map snd (items (b_s s))) /\ (forall p q e i, In ((p, q), (e, i)) (items (b_s s)) <-> segment_at c e i p q)
    | Throw s => (forall x, In x (asked s) -> x = w1 \/ x = w2) /\ ((exists g, place g 0 w1 = false) \/ (exists g, place g w1 w2 = false))
    | UB => mmap = true /\ (f = 0 \/ av1 < f \/ exists j, av2 < f * 2 ^ j /\ forall i, i < j -> place (f * 2 ^ i) 0 w1 = false)
    | Fuel => False
    end.
  Proof.
    intros w1 w2. pose proof (run mmap av1 av2 c f) as R. cbv zeta in R. fold w1 w2 in R.
    assert (A : forall s : build, (exists l1 l2, asked s = l2 ++ l1 /\ Forall (fun x => x = w1) l1 /\ Forall (fun x => x = w2) l2) -> forall x, In x (asked s) -> x = w1 \/ x = w2).
    { intros s (l1 & l2 & -> & F1 & F2) x X. rewrite Forall_forall in F1, F2. apply in_app_iff in X as [X|X]; auto. }
    destruct (build_vectors mmap av1 av2 c (new_build f)) as [s|s| |].
    - destruct R as ([D1 D2] & R & _). split; [apply A, R|]. unfold IndexBuild.bytes. rewrite D1, D2. cbn [cap items].
      rewrite pvals_length. unfold points_of at 1 2. rewrite map_length, svals_number. split; [reflexivity|]. split; [reflexivity|]. split; [reflexivity|].
      assert (E1 : pvals 0 (points_of c) = SpatialIndexProps.points_of c) by apply pvals_of.
      assert (E2 : svals 0 (lines_of c) = segs_of c) by apply svals_of. rewrite E2. split; [|split; [|split]].
      + unfold points_of. clear. enough (G : forall k, map snd (pvals k (map (fun v => snd (snd v)) (c_vs c))) = seq k (length (c_vs c))) by apply G.
        induction (c_vs c) as [|v l IH]; intros k; cbn; [reflexivity|]. f_equal. apply IH.
      + rewrite E1. intros p v. apply in_points_of.
      + apply segs_nodup.
      + intros p q e i. apply in_segs_of.
    - destruct R as [R [(g & G & _)|(g & G & _)]]; (split; [apply A, R|]); eauto.
    - destruct R as [M [R|[R|(g & (j & -> & F) & R)]]]; split; auto. destruct R as [R|R]; [left|eauto].
      assert (1 <= 2 ^ j) by (clear; induction j; cbn; lia). nia.
    - exact R.
  Qed.

  (** The contract of the memory: [over] bytes are taken by the file itself, everything else can be had. *)
  Definition room (over : nat) : Prop := forall f used n, over + used + n <= f -> place f used n = true.

  Lemma doubled_bound over f g used w : room over -> doubled f g used w -> g = f \/ g < 2 * (over + used + w).
  Proof.
    intros R (j & -> & F). destruct j as [|j]; [left; cbn; lia|]. right. specialize (F j (Nat.lt_succ_diag_r j)).
    destruct (Nat.le_gt_cases (over + used + w) (f * 2 ^ j)) as [L|L]; [rewrite (R _ _ _ L) in F; discriminate|]. cbn [Nat.pow]. nia.
  Qed.

  (** If twice what is needed is available on the disk, the vectors in a file are built, and the file does not become bigger than that
      unless it was before. *)
  Theorem C98_enough over av1 av2 c f : let w1 := wp * length (c_vs c) in let w2 := ws * segments_number c in
    room over -> 0 < f -> f <= av1 -> f <= av2 -> 2 * (over + w1) <= av1 -> 2 * (over + w1 + w2) <= av2 ->
    exists s, build_vectors true av1 av2 c (new_build f) = Ok s /\ (b_file s = f \/ b_file s < 2 * (over + w1 + w2)).
  Proof.
    intros w1 w2 R F0 F1 F2 N1 N2. pose proof (run true av1 av2 c f) as H. cbv zeta in H. fold w1 w2 in H.
    destruct (build_vectors true av1 av2 c (new_build f)) as [s|s| |].
    - exists s. split; [reflexivity|]. destruct H as (_ & _ & g & D1 & D2 & _). apply (doubled_bound over) in D1, D2; auto. lia.
    - destruct H as [_ [(g & G1 & G2 & _)|(g & G1 & G2 & _)]]; specialize (G2 eq_refl); rewrite R in G1; try discriminate; lia.
    - destruct H as [_ [H|[H|(g & D & H)]]]; [lia|lia|]. destruct H as [->|H].
      + destruct D as (j & D & _). assert (1 <= 2 ^ j) by (clear; induction j; cbn; lia). nia.
      + apply (doubled_bound over) in D; [|exact R]. destruct D as [->|D]; lia.
    - contradiction.
  Qed.

  (** In memory it is enough if both fit. *)
  Theorem C98_in_memory over c f av1 av2 : room over -> over + wp * length (c_vs c) + ws * segments_number c <= f ->
    exists s, build_vectors false av1 av2 c (new_build f) = Ok s /\ b_file s = f /\ storage_size wp ws false s = wp * length (c_vs c) + ws * segments_number c.
  Proof.
    intros R L. pose proof (run false av1 av2 c f) as H. cbv zeta in H.
    assert (B : forall w, over + w <= f -> forall g, doubled f g 0 w -> g = f).
    { intros w Lw g (j & -> & F). destruct j as [|j]; [cbn; lia|]. specialize (F 0 (Nat.lt_0_succ j)). cbn in F. rewrite Nat.mul_1_r, R in F; [discriminate|lia]. }
    destruct (build_vectors false av1 av2 c (new_build f)) as [s|s| |].
    - exists s. split; [reflexivity|]. destruct H as ([D1 D2] & _ & g & G1 & G2 & _). apply B in G1; [|lia]. subst g. split.
      + destruct G2 as (j & -> & F). destruct j as [|j]; [cbn; lia|]. specialize (F 0 (Nat.lt_0_succ j)). cbn in F. rewrite Nat.mul_1_r, R in F; [discriminate|lia].
      + unfold storage_size, IndexBuild.bytes. now rewrite D1, D2.
    - destruct H as [_ [(g & G1 & _ & G2)|(g & G1 & _ & G2)]]; specialize (G2 eq_refl).
      + subst g. rewrite R in G1; [discriminate|lia].
      + destruct G2 as (f' & -> & D). apply B in D; [|lia]. subst f'. rewrite R in G1; [discriminate|lia].
    - destruct H; discriminate.
    - contradiction.
  Qed.

  (** If no more can be had than there is place for, the file of the indices is grown to at least twice the bytes of the points and segments
      that are put into them. *)
  Theorem C98_index_room mmap av1 av2 c f s : (forall f used n, place f used n = true -> used + n <= f) ->
    build_vectors mmap av1 av2 c (new_build f) = Ok s ->
    2 * (wp * length (items (b_p s)) + ws * length (items (b_s s))) <= index_room wp ws mmap s.
  Proof.
    intros R E. pose proof (run mmap av1 av2 c f) as H. cbv zeta in H. rewrite E in H. destruct H as ([D1 D2] & _ & g & G1 & G2 & Q1 & Q2).
    unfold index_room, storage_size, IndexBuild.bytes. rewrite D1, D2. cbn [cap items]. rewrite pvals_length, svals_number. unfold points_of. rewrite map_length.
    destruct mmap; [|lia]. set (w1 := wp * length (c_vs c)) in *. set (w2 := ws * segments_number c) in *.
    assert (w1 + w2 <= b_file s); [|lia]. destruct (Nat.eq_dec w2 0) as [Z|Z].
    - destruct (Nat.eq_dec w1 0) as [Y|Y]; [lia|]. specialize (Q1 ltac:(lia)). apply R in Q1. destruct G2 as (j & -> & _).
      assert (1 <= 2 ^ j) by (clear; induction j; cbn; lia). nia.
    - specialize (Q2 ltac:(lia)). apply R in Q2. lia.
  Qed.
End C98.

(** an allocator with [over] bytes of its own that does not grow a block in its place; a full vector asks for 8/5 of its capacity *)
Definition simple (over f used n : nat) : bool := over + used + n <=? f.
Definition boost_growth (n : nat) : nat := Nat.max (n + 1) (8 * n / 5).
Lemma simple_room over : room (simple over) over.
Proof. intros f used n L. now apply Nat.leb_le. Qed.

Definition lines_net : @csr (nat * Z) (nat * list Z) :=
  mkC [(0, (10, 0%Z)); (1, (11, 5%Z)); (3, (12, 9%Z))] [(0, 1, (20, [0%Z; 2%Z; 5%Z])); (1, 2, (21, [5%Z; 9%Z])); (1, 2, (22, []))].

(** Points of 3 bytes and segments of 6 in a file of 4 bytes, 2 of them its own: 3 points need 9 bytes, 3 segments 18; the file is doubled twice for
    the points (16), once for the segments (32), and nothing else is asked for. *)
Example C98_case : exists s, build_vectors 3 6 (simple 2) boost_growth true 60 60 lines_net (new_build 4) = Ok s
  /\ items (b_p s) = [(0%Z, 0); (5%Z, 1); (9%Z, 2)] /\ items (b_s s) = [((0%Z, 2%Z), (0, 0)); ((2%Z, 5%Z), (0, 1)); ((5%Z, 9%Z), (1, 0))]
  /\ rev (asked s) = [9; 9; 9; 18; 18] /\ b_file s = 32 /\ index_room 3 6 true s = 64
  /\ 2 * (2 + 3 * length (c_vs lines_net)) <= 60 /\ 2 * (2 + 3 * length (c_vs lines_net) + 6 * segments_number lines_net) <= 60.
Proof. eexists. split; [vm_compute; reflexivity|]. vm_compute. repeat split; lia. Qed.
Example C98_memory_case : exists s, build_vectors 3 6 (simple 2) boost_growth false 0 0 lines_net (new_build 29) = Ok s /\ index_room 3 6 false s = 108.
Proof. eexists. split; vm_compute; reflexivity. Qed.

(** C98: building the vectors again fills them beyond what was reserved; a full vector needs more than one doubling of the file, and adding
    a value tries no more than that, so that it throws although there is place on the disk. *)
Theorem C98_again_refuted : exists (c : @csr (nat * Z) (nat * list Z)) s s1,
  build_vectors 1 1 (simple 0) boost_growth true 1000 1000 c (new_build 5) = Ok s
  /\ build_vectors 1 1 (simple 0) boost_growth true 1000 1000 c s = Throw s1 /\ b_file s1 = 20.
Proof.
  exists (mkC [(0, (10, 0%Z)); (0, (11, 1%Z)); (0, (12, 2%Z)); (0, (13, 3%Z)); (0, (14, 4%Z))] []).
  do 2 eexists. split; [vm_compute; reflexivity|]. split; vm_compute; reflexivity.
Qed.
(** C98: with less space left on the disk than the file has, the number of retries is undefined, although there is nothing to reserve. *)
Theorem C98_full_disk_refuted : exists (c : @csr (nat * Z) (nat * list Z)),
  c_vs c = [] /\ c_es c = [] /\ build_vectors 3 6 (simple 2) boost_growth true 100 100 c (new_build 128) = UB
  /\ exists s, build_vectors 3 6 (simple 2) boost_growth true 128 128 c (new_build 128) = Ok s.
Proof. exists (mkC [] []). split; [reflexivity|]. split; [reflexivity|]. split; [vm_compute; reflexivity|]. eexists. vm_compute. reflexivity. Qed.

(** C98: adding one point or segment in any state: a vector with room is filled without a request; a full one asks once, in the file also a
    second time after the file has become twice as big, and then gives up with the file four times as big and the vectors as they were. *)
Definition add_outcome {A : Type} (mmap room : bool) (fits : nat -> bool) (want f c n : nat) (l l' : list A) (f' c' : nat) (new : list nat) (ok : bool) : Prop :=
  if room then ok = true /\ l' = l /\ f' = f /\ c' = c /\ new = []
  else if fits f then ok = true /\ l' = l /\ f' = f /\ c' = n /\ new = [want]
  else if mmap then
    if fits (f + f) then ok = true /\ l' = l /\ f' = f + f /\ c' = n /\ new = [want; want]
    else ok = false /\ l' = l /\ f' = f + f + f + f /\ c' = c /\ new = [want; want]
  else ok = false /\ l' = l /\ f' = f /\ c' = c /\ new = [want].
Theorem C98_add_point {P : Type} (wp ws : nat) (place : nat -> nat -> nat -> bool) (bigger : nat -> nat) (mmap : bool) (s : @build P) (x : P * nat) :
  exists s' (ok : bool), add_point wp ws place bigger mmap s x = (if ok then Ok s' else Throw s') /\ b_s s' = b_s s /\
    exists (new : list nat) old, asked s' = new ++ asked s /\ items (b_p s') = old ++ (if ok then [x] else []) /\
    add_outcome mmap (length (items (b_p s)) <? cap (b_p s))
      (fun f => place f (wp * cap (b_p s) + ws * cap (b_s s)) (wp * bigger (cap (b_p s)))) (wp * bigger (cap (b_p s)))
      (b_file s) (cap (b_p s)) (bigger (cap (b_p s))) (items (b_p s)) old (b_file s') (cap (b_p s')) new ok.
Proof.
  destruct s as [f [ip cp] [is cs] a]. unfold add_point, add_outcome. cbn [b_file b_p b_s items cap asked].
  replace (f + f) with (2 * f) by lia. replace (2 * f + f + f) with (2 * (2 * f)) by lia.
  destruct mmap; cbn [retry at_once]; unfold at_once, vec_add_p, ask, bytes, grow; cbn [b_file b_p b_s items cap asked fst snd].
  - destruct (length ip <? cp) eqn:R.
    { eexists _, true. split; [reflexivity|]. split; [reflexivity|]. exists [], ip. cbn. repeat split. }
    destruct (place f (wp * cp + ws * cs) (wp * bigger cp)) eqn:P1.
    { eexists _, true. split; [reflexivity|]. split; [reflexivity|]. exists [wp * bigger cp], ip. cbn. repeat split. }
    unfold handle_bad_alloc, grow. cbn [b_file b_p b_s items cap asked]. rewrite !Nat.eqb_refl. cbn [andb bindO b_file b_p b_s items cap asked].
    rewrite R. destruct (place (2 * f) (wp * cp + ws * cs) (wp * bigger cp)) eqn:P2.
    { eexists _, true. split; [reflexivity|]. split; [reflexivity|]. exists [wp * bigger cp; wp * bigger cp], ip. repeat split. }
    cbn [b_file b_p b_s items cap asked]. rewrite !Nat.eqb_refl. cbn [andb bindO].
    eexists _, false. split; [reflexivity|]. split; [reflexivity|]. exists [wp * bigger cp; wp * bigger cp], ip. cbn [b_file b_p b_s items cap asked]. rewrite app_nil_r. repeat split.
  - destruct (length ip <? cp) eqn:R.
    { eexists _, true. split; [reflexivity|]. split; [reflexivity|]. exists [], ip. cbn. repeat split. }
    destruct (place f (wp * cp + ws * cs) (wp * bigger cp)) eqn:P1.
    { eexists _, true. split; [reflexivity|]. split; [reflexivity|]. exists [wp * bigger cp], ip. cbn. repeat split. }
    eexists _, false. split; [reflexivity|]. split; [reflexivity|]. exists [wp * bigger cp], ip. cbn [b_file b_p b_s items cap asked]. rewrite app_nil_r. repeat split.
Qed.
Theorem C98_add_segment {P : Type} (wp ws : nat) (place : nat -> nat -> nat -> bool) (bigger : nat -> nat) (mmap : bool) (s : @build P) (x : (P * P) * (nat * nat)) :
  exists s' (ok : bool), add_segment wp ws place bigger mmap s x = (if ok then Ok s' else Throw s') /\ b_p s' = b_p s /\
    exists (new : list nat) old, asked s' = new ++ asked s /\ items (b_s s') = old ++ (if ok then [x] else []) /\
    add_outcome mmap (length (items (b_s s)) <? cap (b_s s))
      (fun f => place f (wp * cap (b_p s) + ws * cap (b_s s)) (ws * bigger (cap (b_s s)))) (ws * bigger (cap (b_s s)))
      (b_file s) (cap (b_s s)) (bigger (cap (b_s s))) (items (b_s s)) old (b_file s') (cap (b_s s')) new ok.
Proof.
  destruct s as [f [ip cp] [is cs] a]. unfold add_segment, add_outcome. cbn [b_file b_p b_s items cap asked].
  replace (f + f) with (2 * f) by lia. replace (2 * f + f + f) with (2 * (2 * f)) by lia.
  destruct mmap; cbn [retry at_once]; unfold at_once, vec_add_s, ask, bytes, grow; cbn [b_file b_p b_s items cap asked fst snd].
  - destruct (length is <? cs) eqn:R.
    { eexists _, true. split; [reflexivity|]. split; [reflexivity|]. exists [], is. cbn. repeat split. }
    destruct (place f (wp * cp + ws * cs) (ws * bigger cs)) eqn:P1.
    { eexists _, true. split; [reflexivity|]. split; [reflexivity|]. exists [ws * bigger cs], is. cbn. repeat split. }
    unfold handle_bad_alloc, grow. cbn [b_file b_p b_s items cap asked]. rewrite !Nat.eqb_refl. cbn [andb bindO b_file b_p b_s items cap asked].
    rewrite R. destruct (place (2 * f) (wp * cp + ws * cs) (ws * bigger cs)) eqn:P2.
    { eexists _, true. split; [reflexivity|]. split; [reflexivity|]. exists [ws * bigger cs; ws * bigger cs], is. repeat split. }
    cbn [b_file b_p b_s items cap asked]. rewrite !Nat.eqb_refl. cbn [andb bindO].
    eexists _, false. split; [reflexivity|]. split; [reflexivity|]. exists [ws * bigger cs; ws * bigger cs], is. cbn [b_file b_p b_s items cap asked]. rewrite app_nil_r. repeat split.
  - destruct (length is <? cs) eqn:R.
    { eexists _, true. split; [reflexivity|]. split; [reflexivity|]. exists [], is. cbn. repeat split. }
    destruct (place f (wp * cp + ws * cs) (ws * bigger cs)) eqn:P1.
    { eexists _, true. split; [reflexivity|]. split; [reflexivity|]. exists [ws * bigger cs], is. cbn. repeat split. }
    eexists _, false. split; [reflexivity|]. split; [reflexivity|]. exists [ws * bigger cs], is. cbn [b_file b_p b_s items cap asked]. rewrite app_nil_r. repeat split.
Qed.
(** C98: the file of the indices is made twice as big as the file of the vectors, or four times as big as the vectors in memory. *)
Theorem C98_index_size {P : Type} (wp ws : nat) (s : @build P) :
  index_room wp ws true s = b_file s + b_file s /\ index_room wp ws false s = 4 * (wp * cap (b_p s) + ws * cap (b_s s)).
Proof. unfold index_room, storage_size, bytes. split; lia. Qed.

Print Assumptions C98_exact.
Print Assumptions C98_enough.
Print Assumptions C98_in_memory.
Print Assumptions C98_index_room.
Print Assumptions C98_again_refuted.
Print Assumptions C98_full_disk_refuted.
Print Assumptions C98_add_point.
Print Assumptions C98_add_segment.
Print Assumptions C98_index_size.
