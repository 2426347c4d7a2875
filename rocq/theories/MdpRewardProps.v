(** C63: the rewards of the step-wise matching environment. *)
From Coq Require Import Lqa.
From Verif Require Import Base ListAux Env HmmScore HmmScoreProps MdpReward.
From Verif Require UtilsProps EnvProps.

Lemma positive_spec x : positive x = true <-> (0 < x)%Q. Proof. apply lt_bool. Qed.
Lemma mul_nonneg a b : (0 <= a)%Q -> (0 <= b)%Q -> (0 <= a * b)%Q.
Proof. intros A B. setoid_replace 0%Q with (0 * b)%Q by ring. apply Qmult_le_compat_r; assumption. Qed.

Section Rewards.
  Variable f_distance f_length f_azimuth f_turn f_direction : Q.
  Variable skip_errors : bool.
  Variable seg_length seg_azimuth turn : nat -> option Q.
  Variable next_equal : nat -> bool.
  Variable equal_points : nat -> nat -> bool.
  Variable point_distance azimuth_between : nat -> nat -> Q.
  Variable direction_between : nat -> nat -> nat -> Q.
  Variable distances : list (list Q).
  Variable route : nat -> nat -> nat -> nat -> route_info.
  Variable attaches : nat -> nat -> nat -> nat -> nat -> nat -> bool.
  Variable return_length : nat -> nat -> nat -> nat -> nat -> nat -> option Q.

  Notation distance_of := (distance_of distances).
  Notation fail_reward := (fail_reward seg_length distances).
  Notation first_distance := (first_distance f_distance distances).
  Notation route_reward := (route_reward f_distance f_length f_azimuth f_turn f_direction skip_errors seg_length seg_azimuth turn next_equal
    equal_points point_distance azimuth_between distances route).
  Notation previous_reward := (previous_reward f_length f_turn seg_length turn equal_points direction_between distances route attaches return_length).
  Notation mdp_first := (mdp_first f_distance distances).
  Notation mdp_judge := (mdp_judge f_distance f_length f_azimuth f_turn f_direction skip_errors seg_length seg_azimuth turn next_equal
    equal_points point_distance azimuth_between direction_between distances route attaches return_length).

  (** lengths and distances are not negative *)
  Record lengths : Prop := mkLengths {
    le_seg : forall i, nonneg (seg_length i); le_point : forall i j, (0 <= point_distance i j)%Q; le_edge : forall l, In l distances -> Forall (fun d => 0 <= d)%Q l;
    le_route : forall p e q f, nonneg (r_length (route p e q f)); le_turns : forall p e q f, nonneg (r_turns (route p e q f));
    le_return : forall p e q f r g, nonneg (return_length p e q f r g) }.
  Record factors : Prop := mkFactors { fa_distance : (0 <= f_distance)%Q; fa_length : (0 <= f_length)%Q; fa_azimuth : (0 <= f_azimuth)%Q; fa_turn : (0 <= f_turn)%Q; fa_direction : (0 <= f_direction)%Q }.

  Lemma distance_nonneg pos e : lengths -> (0 <= distance_of pos e)%Q.
  Proof.
    intros L. unfold MdpReward.distance_of. destruct (nth_in_or_default pos distances []) as [H|H]; [|rewrite H; destruct e; apply Qle_refl].
    apply (le_edge L) in H. rewrite Forall_forall in H. destruct (nth_in_or_default e (nth pos distances []) 0%Q) as [K|K]; [apply H, K|rewrite K; apply Qle_refl].
  Qed.
  Lemma fail_fold l : forall r, lengths -> (0 <= r)%Q -> (0 <= fold_left (fun r i => match seg_length i with Some x => (r + x)%Q | None => r end) l r)%Q.
  Proof.
    induction l as [|i l IH]; intros r L R; cbn [fold_left]; [exact R|]. apply IH; [exact L|]. pose proof (le_seg L i) as K. destruct (seg_length i); [cbn in K; lra|exact R].
  Qed.
  Lemma fail_add l : forall r, (fold_left (fun r i => match seg_length i with Some x => (r + x)%Q | None => r end) l r
    == r + fold_left (fun r i => match seg_length i with Some x => (r + x)%Q | None => r end) l 0)%Q.
  Proof.
    induction l as [|i l IH]; intros r; cbn [fold_left]; [lra|]. rewrite IH. rewrite (IH (match seg_length i with Some x => (0 + x)%Q | None => 0%Q end)). destruct (seg_length i); lra.
  Qed.

  (** The penalty of a failure is the length of the rest of the track: nothing at the last point, and at each point the segment after it
      more than at the next one. *)
  Theorem C63_fail i : (length distances <= S i -> fail_reward i = 0%Q)
    /\ (S i < length distances -> (fail_reward i == or_else (seg_length i) 0 + fail_reward (S i))%Q)
    /\ (lengths -> forall j, i <= j -> (0 <= fail_reward j <= fail_reward i)%Q).
  Proof.
    assert (A : forall i, length distances <= S i -> fail_reward i = 0%Q) by (intros k H; unfold MdpReward.fail_reward; replace (length distances - 1 - k) with 0 by lia; reflexivity).
    assert (B : forall i, S i < length distances -> (fail_reward i == or_else (seg_length i) 0 + fail_reward (S i))%Q).
    { intros k H. unfold MdpReward.fail_reward. replace (length distances - 1 - k) with (S (length distances - 1 - S k)) by lia. cbn [seq fold_left]. rewrite fail_add. destruct (seg_length k); cbn [or_else]; lra. }
    split; [apply A|]. split; [apply B|]. intros L j H. assert (N : forall k, (0 <= fail_reward k)%Q) by (intros k; apply fail_fold; [exact L|apply Qle_refl]).
    split; [apply N|]. induction H as [|j H IH]; [apply Qle_refl|]. destruct (le_lt_dec (length distances) (S j)) as [K|K].
    - rewrite (A (S j)) by lia. apply N.
    - rewrite (B j K) in IH. pose proof (le_seg L j) as S. destruct (seg_length j) as [x|]; cbn in S, IH; lra.
  Qed.

  Lemma length_part n l : (0 <= n)%Q -> (0 <= l)%Q -> (0 <= f_length)%Q ->
    (0 <= f_length * (Qabs (n - l) * (l / n)))%Q /\ (0 <= f_length * Qabs (n - l))%Q.
  Proof.
    intros N L F. pose proof (Qabs_nonneg (n - l)) as A. split; apply mul_nonneg; auto. apply mul_nonneg; auto. unfold Qdiv. apply mul_nonneg; auto. apply Qinv_le_0_compat. exact N.
  Qed.

  Lemma route_reward_neg current ca next a : lengths -> factors -> (fst (route_reward current ca next a) <= 0)%Q.
  Proof.
    intros L F. unfold MdpReward.route_reward. cbv zeta. set (r := route current ca next a). set (adj := current + 1 =? next).
    destruct ((adj && next_equal current || negb adj && equal_points current next) && negb (is_some (r_length r))); [cbn; lra|].
    pose proof (distance_nonneg next a L) as D1. pose proof (distance_nonneg current ca L) as D2. destruct F as [F1 F2 F3 F4 F5].
    set (dn := distance_of next a) in *. set (dc := distance_of current ca) in *. clearbody dn dc.
    assert (W1 : (0 <= f_distance * (dn + dc))%Q) by (apply mul_nonneg; lra). assert (W2 : (0 <= f_distance * (dn * 2))%Q) by (apply mul_nonneg; lra).
    set (w2 := if length distances <=? next + 1 then _ else _). assert (H2 : (w2 <= 0)%Q) by (unfold w2; destruct (length distances <=? next + 1); lra). clearbody w2.
    set (n := if adj then or_else (seg_length (next - 1)) 0%Q else point_distance current next).
    assert (N : (0 <= n)%Q) by (unfold n; destruct adj; [pose proof (le_seg L (next - 1)) as K; destruct (seg_length (next - 1)); [exact K|apply Qle_refl]|apply (le_point L)]). clearbody n.
    set (l := or_else (r_length r) 0%Q). assert (Nl : (0 <= l)%Q) by (unfold l; pose proof (le_route L current ca next a) as K; fold r in K; destruct (r_length r); [exact K|apply Qle_refl]). clearbody l.
    destruct (length_part n l N Nl F2) as [P1 P2]. set (x := Qabs (n - l)) in *. clearbody x.
    destruct (if positive l && positive n then _ else _) as [w3 sk] eqn:E3.
    assert (H3 : (w3 <= 0)%Q).
    { destruct (positive l && positive n); injection E3 as E3 _; rewrite <- E3; lra. } clear E3 P1 P2.
    set (w5 := match r_azimuth r with Some _ => _ | None => _ end). assert (H5 : (w5 <= 0)%Q).
    { unfold w5. destruct (r_azimuth r) as [ra|]; [|exact H3].
      set (na := if adj then or_else (seg_azimuth (next - 1)) ra else _). pose proof (mul_nonneg _ _ F3 (Qabs_nonneg (angle_diff na ra))) as K4.
      destruct ((1 <=? current) && (2 <=? next)); [destruct (seg_azimuth (current - 1)) as [cz|]; [destruct (if adj then _ else _) as [nt|]|]|]; try lra.
      pose proof (mul_nonneg _ _ F4 (Qabs_nonneg (angle_diff nt (angle_diff cz ra)))). lra. }
    clearbody w5. cbn [fst]. pose proof (le_turns L current ca next a) as T. fold r in T. destruct (r_turns r) as [d|]; [|exact H5]. cbn in T. pose proof (mul_nonneg _ _ F5 T). lra.
  Qed.
  Lemma previous_neg p e c f n a w : lengths -> factors -> (w <= 0)%Q -> (fst (previous_reward p e c f n a w) <= w)%Q.
  Proof.
    intros L F W. unfold MdpReward.previous_reward. cbv zeta. destruct (r_invalid (route p e c f)); [cbn; lra|].
    destruct (negb (attaches p e c f n a)). { cbn [fst]. pose proof (proj2 (proj2 (C63_fail c)) L c (le_n c)). lra. }
    destruct F as [F1 F2 F3 F4 F5].
    set (w1 := match r_azimuth (route p e c f) with Some _ => _ | None => _ end). assert (H1 : (w1 <= w)%Q).
    { unfold w1. destruct (r_azimuth (route p e c f)) as [pz|]; [|lra]. destruct (r_azimuth (route c f n a)) as [rz|]; [|lra].
      destruct (if (p + 1 =? c) && (c + 1 =? n) then _ else _) as [d|]; [|lra]. pose proof (mul_nonneg _ _ F4 (Qabs_nonneg (angle_diff d (angle_diff pz rz)))). lra. }
    clearbody w1. cbn [fst]. destruct (is_some _ && is_some _); [|exact H1]. pose proof (le_return L p e c f n a) as K. destruct (return_length p e c f n a) as [x|]; [|exact H1].
    cbn in K. assert (0 <= f_length * (x * 2))%Q by (apply mul_nonneg; lra). lra.
  Qed.

  (** No reward is positive: neither of first edges, nor along routes, nor for failures. *)
  Theorem C63_reward s new a rw new' a' : lengths -> factors ->
    reward 0%Q (map (@length Q) distances) mdp_first mdp_judge s new a = Ok (rw, new', a') -> (rw <= 0)%Q.
  Proof.
    intros L F. unfold reward.
    assert (Hf : (mdp_first s a <= 0)%Q).
    { unfold MdpReward.mdp_first, MdpReward.first_distance. pose proof (distance_nonneg (entry s 1) (Z.to_nat a) L) as D. set (d := distance_of _ _) in *. clearbody d. destruct F as [F1 _ _ _ _].
      assert (0 <= f_distance * (d * 3))%Q by (apply mul_nonneg; lra). assert (0 <= f_distance * (d * (1 # 10)))%Q by (apply mul_nonneg; lra). destruct (_ =? 0); lra. }
    assert (Hj : (v_reward (mdp_judge s a) <= 0)%Q).
    { unfold MdpReward.mdp_judge. destruct (r_invalid _).
      - cbn [v_reward]. pose proof (proj2 (proj2 (C63_fail (entry s 3))) L _ (le_n _)). lra.
      - pose proof (route_reward_neg (entry s 3) (entry s 2) (entry s 1) (Z.to_nat a) L F) as R. destruct (route_reward _ _ _ _) as [w sk]. cbn [fst] in R.
        destruct ((3 <? length s) && negb (entry_negative s 4)); [|exact R].
        pose proof (previous_neg (entry s 5) (entry s 4) (entry s 3) (entry s 2) (entry s 1) (Z.to_nat a) w L F R) as P. destruct (previous_reward _ _ _ _ _ _ _) as [w' dt]. cbn in *. lra. }
    destruct (a <? 0)%Z; [intros E; injection E as <- _ _; apply Qle_refl|]. destruct (back s) as [np|]; [|intros E; injection E as <- _ _; apply Qle_refl].
    destruct (edge_ok _ np a) as [u|u| |]; try discriminate. cbn [bindO].
    destruct (length s <? 3); [intros E; injection E as <- _ _; exact Hf|].
    destruct (from_back s 3) as [cp|]; [|discriminate]. cbn [derefO]. destruct (from_back s 2) as [cact|]; [|discriminate]. cbn [derefO].
    destruct (cact <? 0)%Z; [intros E; injection E as <- _ _; apply Qle_refl|]. destruct (edge_ok _ cp cact) as [u'|u'| |]; try discriminate. cbn [bindO].
    destruct (if v_skip _ then _ else _) as [n1 a1]. destruct (v_valid _ && _); [|intros E; injection E as <- _ _; exact Hj].
    destruct (from_back s 5) as [pp|]; [|discriminate]. cbn [derefO]. destruct (from_back s 4) as [pact|]; [|discriminate]. cbn [derefO].
    destruct (pact <? 0)%Z; [intros E; injection E as <- _ _; exact Hj|].
    destruct (edge_ok _ cp pact) as [u2|u2| |]; try discriminate. cbn [bindO]. destruct (edge_ok _ pp pact) as [u3|u3| |]; try discriminate. cbn [bindO].
    intros E; injection E as <- _ _; exact Hj.
  Qed.

  (** between neighbouring points of the track *)
  Definition track_length (current next : nat) : Q := if current + 1 =? next then or_else (seg_length current) 0 else point_distance current next.
  (** two points in the same place, with no way to go *)
  Definition stays (current ca next a : nat) : Prop :=
    r_length (route current ca next a) = None /\ (if current + 1 =? next then next_equal current else equal_points current next) = true.
  Lemma stays_spec current ca next a : let adj := current + 1 =? next in
    (adj && next_equal current || negb adj && equal_points current next) && negb (is_some (r_length (route current ca next a))) = true <-> stays current ca next a.
  Proof.
    cbv zeta. unfold stays. destruct (current + 1 =? next); cbn [andb negb orb]; rewrite ?orb_false_r, andb_true_iff, negb_true_iff; destruct (r_length _); cbn; split; intros [A B]; split; congruence.
  Qed.

  (** When the environment skips: only if it is to skip errors, and then without a valid route, or if the route is more than ten times
      as long as the way between the points. *)
  Theorem C63_skip s a : let current := entry s 3 in let ca := entry s 2 in let next := entry s 1 in let e := Z.to_nat a in let r := route current ca next e in
    lengths -> v_valid (mdp_judge s a) = negb (r_invalid r)
    /\ (v_skip (mdp_judge s a) = true <-> skip_errors = true /\
         (r_invalid r = true \/ exists l, r_length r = Some l /\ (0 < track_length current next)%Q /\ (10 * track_length current next < l)%Q)).
  Proof.
    intros current ca next e r L. unfold MdpReward.mdp_judge. fold current ca next e. fold r. destruct (r_invalid r) eqn:V.
    { cbn. split; [reflexivity|]. split; [auto|intros [H _]; exact H]. }
    assert (G : snd (route_reward current ca next e) = true <-> skip_errors = true /\ (false = true \/ exists l, r_length r = Some l /\ (0 < track_length current next)%Q /\ (10 * track_length current next < l)%Q)).
    { unfold MdpReward.route_reward. cbv zeta. fold r.
      destruct ((_ || _) && negb (is_some (r_length r))) eqn:St.
      - apply andb_true_iff in St. destruct St as [_ St]. cbn. split; [discriminate|]. intros (_ & [K|(l & El & _)]); [discriminate|]. rewrite El in St. discriminate St.
      - fold (track_length current next) || idtac.
        assert (En : (if current + 1 =? next then or_else (seg_length (next - 1)) 0%Q else point_distance current next) = track_length current next).
        { unfold track_length. destruct (Nat.eqb_spec (current + 1) next) as [<-|]; [|reflexivity]. replace (current + 1 - 1) with current by lia. reflexivity. }
        rewrite En. set (n := track_length current next) in *. clearbody n. clear En St.
        set (w2 := if length distances <=? next + 1 then _ else _). clearbody w2.
        destruct (r_length r) as [l|] eqn:El; cbn [or_else].
        + assert (Nl : (0 <= l)%Q) by (pose proof (le_route L current ca next e) as K; fold r in K; rewrite El in K; exact K).
          set (x := Qabs (n - l)). destruct (positive l && positive n) eqn:Pp.
          * cbn [fst snd]. apply andb_true_iff in Pp. destruct Pp as [Pl Pn]. apply positive_spec in Pl. apply positive_spec in Pn. rewrite andb_true_iff, lt_bool.
            split.
            -- intros [A B]. split; [exact A|]. right. exists l. split; [reflexivity|]. split; [exact Pn|]. assert (E : (l == l / n * n)%Q) by (field; lra). set (y := (l / n)%Q) in *. nra.
            -- intros [A [K|(l' & El' & _ & B)]]; [discriminate|]. injection El' as <-. split; [exact A|]. apply Qlt_shift_div_l; assumption.
          * cbn [fst snd]. split; [discriminate|]. intros (_ & [K|(l' & El' & A & B)]); [discriminate|]. injection El' as <-.
            assert (positive l && positive n = true); [|congruence]. apply andb_true_iff. split; apply positive_spec; lra.
        + change (positive 0) with false. cbn [andb fst snd]. split; [discriminate|]. intros (_ & [K|(l' & El' & _)]); discriminate. }
    destruct (route_reward current ca next e) as [w sk]. cbn [snd] in G.
    destruct ((3 <? length s) && negb (entry_negative s 4)); [|cbn; split; [reflexivity|exact G]].
    destruct (previous_reward _ _ _ _ _ _ _) as [w' dt]. cbn. split; [reflexivity|exact G].
  Qed.

  (** What the reward of a valid route takes away: for the distances of both edges, of the last point threefold; for the length, weighted by the
      ratio of the lengths; for the azimuth; for the turn, from the third point on; and for the turns of the route. *)
  Theorem C63_parts current ca next a : let r := route current ca next a in let n := track_length current next in let l := or_else (r_length r) 0%Q in
    current < next -> ~ stays current ca next a ->
    exists pd pe pl pa pt pr, (fst (route_reward current ca next a) == - (pd + pe + pl + pa + pt + pr))%Q
      /\ pd = (f_distance * (distance_of next a + distance_of current ca))%Q
      /\ (next = length distances - 1 -> pe = (f_distance * (distance_of next a * 2))%Q) /\ (next < length distances - 1 -> pe = 0%Q)
      /\ ((0 < n)%Q -> (0 < l)%Q -> pl = (f_length * (Qabs (n - l) * (l / n)))%Q) /\ ((n <= 0 \/ l <= 0)%Q -> pl = (f_length * Qabs (n - l))%Q)
      /\ (r_azimuth r = None -> pa = 0%Q /\ pt = 0%Q)
      /\ (forall ra, r_azimuth r = Some ra -> exists az,
            (current + 1 = next -> az = or_else (seg_azimuth current) ra)
            /\ (current + 1 < next -> az = if equal_points current next then ra else azimuth_between current next)
            /\ pa = (f_azimuth * Qabs (angle_diff az ra))%Q
            /\ (forall before, 0 < current -> seg_azimuth (current - 1) = Some before ->
                 (current + 1 = next -> pt = match turn (current - 1) with Some t => (f_turn * Qabs (angle_diff t (angle_diff before ra)))%Q | None => 0%Q end)
                 /\ (current + 1 < next -> pt = (f_turn * Qabs (angle_diff (angle_diff before az) (angle_diff before ra)))%Q)))
      /\ (current = 0 \/ seg_azimuth (current - 1) = None -> pt = 0%Q)
      /\ pr = match r_turns r with Some d => (f_direction * d)%Q | None => 0%Q end.
  Proof.
    intros r n l Lt St. unfold MdpReward.route_reward. cbv zeta. fold r.
    assert (Sf : (((current + 1 =? next) && next_equal current || negb (current + 1 =? next) && equal_points current next) && negb (is_some (r_length r))) = false).
    { destruct (_ && negb (is_some (r_length r))) eqn:E; [|reflexivity]. apply (stays_spec current ca next a) in E. contradiction. }
    rewrite Sf. clear Sf.
    assert (En : (if current + 1 =? next then or_else (seg_length (next - 1)) 0%Q else point_distance current next) = n).
    { unfold n, track_length. destruct (Nat.eqb_spec (current + 1) next) as [<-|]; [|reflexivity]. replace (current + 1 - 1) with current by lia. reflexivity. }
    rewrite En. fold l. clearbody n l. clear En. set (x := Qabs (n - l)). clearbody x.
    set (dn := distance_of next a). set (dc := distance_of current ca). clearbody dn dc.
    set (pe := if length distances <=? next + 1 then (f_distance * (dn * 2))%Q else 0%Q).
    set (pl := if positive l && positive n then (f_length * (x * (l / n)))%Q else (f_length * x)%Q).
    set (adj := current + 1 =? next).
    set (az := fun ra : Q => if adj then or_else (seg_azimuth (next - 1)) ra else if equal_points current next then ra else azimuth_between current next).
    set (pa := match r_azimuth r with Some ra => (f_azimuth * Qabs (angle_diff (az ra) ra))%Q | None => 0%Q end).
    set (pt := match r_azimuth r with
               | Some ra => if (1 <=? current) && (2 <=? next) then
                   match seg_azimuth (current - 1) with
                   | Some b => match (if adj then turn (next - 2) else Some (angle_diff b (az ra))) with Some t => (f_turn * Qabs (angle_diff t (angle_diff b ra)))%Q | None => 0%Q end
                   | None => 0%Q end else 0%Q
               | None => 0%Q end).
    set (pr := match r_turns r with Some d => (f_direction * d)%Q | None => 0%Q end).
    exists (f_distance * (dn + dc))%Q, pe, pl, pa, pt, pr.
    split; [|split; [reflexivity|split; [|split; [|split; [|split; [|split; [|split; [|split; [|reflexivity]]]]]]]]].
    - assert (Ea : forall u, (if adj then or_else (seg_azimuth (next - 1)) u else if equal_points current next then u else azimuth_between current next) = az u) by reflexivity.
      assert (E2 : forall w : Q, ((if (length distances <=? next + 1)%nat then (w - f_distance * (dn * 2)) else w) == (w - pe))%Q) by (intros w; unfold pe; destruct (length distances <=? next + 1); lra).
      set (w2 := if length distances <=? next + 1 then (0 - f_distance * (dn + dc) - f_distance * (dn * 2))%Q else _). assert (W2 : (w2 == 0 - f_distance * (dn + dc) - pe)%Q) by apply E2. clearbody w2 pe. clear E2.
      destruct (if positive l && positive n then (_, _) else _) as [w3 sk] eqn:E3.
      assert (W3 : (w3 == w2 - pl)%Q) by (unfold pl; destruct (positive l && positive n); injection E3 as <- _; reflexivity). clearbody pl. clear E3. cbn [fst].
      set (w5 := match r_azimuth r with Some _ => _ | None => w3 end).
      assert (W5 : (w5 == w3 - pa - pt)%Q).
      { unfold w5, pa, pt. destruct (r_azimuth r) as [ra|]; [|lra]. rewrite Ea. destruct ((1 <=? current) && (2 <=? next)); [|lra].
        destruct (seg_azimuth (current - 1)) as [b|]; [|lra]. destruct (if adj then _ else _); lra. }
      clearbody w5 pa pt. unfold pr. destruct (r_turns r); lra.
    - intros K. unfold pe. destruct (Nat.leb_spec (length distances) (next + 1)); [reflexivity|lia].
    - intros K. unfold pe. destruct (Nat.leb_spec (length distances) (next + 1)); [lia|reflexivity].
    - intros N L. unfold pl. apply positive_spec in N. apply positive_spec in L. rewrite N, L. reflexivity.
    - intros N. unfold pl. destruct (positive l) eqn:A; [|reflexivity]. destruct (positive n) eqn:B; [|reflexivity]. apply positive_spec in A. apply positive_spec in B. lra.
    - intros N. unfold pa, pt. rewrite N. auto.
    - intros ra Hr. exists (az ra). unfold pa, pt. rewrite Hr.
      assert (Ad : forall P Q : Prop, (current + 1 = next -> adj = true -> P) -> (current + 1 < next -> adj = false -> Q) -> (current + 1 = next -> P) /\ (current + 1 < next -> Q)).
      { intros P Q A B. unfold adj in *. split; intros K; [apply A; [exact K|apply Nat.eqb_eq, K]|apply B; [exact K|apply Nat.eqb_neq; lia]]. }
      destruct (Ad (az ra = or_else (seg_azimuth current) ra) (az ra = if equal_points current next then ra else azimuth_between current next)) as [A1 A2].
      { intros K E. unfold az. rewrite E. replace (next - 1) with current by lia. reflexivity. } { intros K E. unfold az. rewrite E. reflexivity. }
      split; [exact A1|]. split; [exact A2|]. split; [reflexivity|]. intros before Hc Hb. rewrite Hb.
      assert (C : (1 <=? current) && (2 <=? next) = true) by (apply andb_true_iff; split; apply Nat.leb_le; lia). rewrite C.
      apply Ad; intros K E; rewrite E; [replace (next - 2) with (current - 1) by lia|]; reflexivity.
    - intros K. unfold pt. destruct (r_azimuth r) as [ra|]; [|reflexivity]. destruct K as [-> | ->]; [reflexivity|]. destruct ((1 <=? current) && (2 <=? next)); reflexivity.
  Qed.

  (** At a point in the same place, with no way to go, nothing is taken away. *)
  Theorem C63_stay current ca next a : stays current ca next a -> (fst (route_reward current ca next a) == 0)%Q.
  Proof. intros St. apply (stays_spec current ca next a) in St. unfold MdpReward.route_reward. cbv zeta in *. rewrite St. reflexivity. Qed.

  (** What the route before adds: nothing if it is invalid; the penalty of a failure and the end if the route does not attach to it; else the
      difference of the turn between the routes to the turn of the track, and twice the way gone there and back. *)
  Theorem C63_previous prev pa current ca next a w : let p := route prev pa current ca in let r := route current ca next a in
    let '(w', detached) := previous_reward prev pa current ca next a w in
    (detached = true <-> r_invalid p = false /\ attaches prev pa current ca next a = false)
    /\ (r_invalid p = true -> w' = w) /\ (detached = true -> w' = (w - fail_reward current)%Q)
    /\ (r_invalid p = false -> detached = false -> prev < current < next -> exists pt pz, (w' == w - pt - pz)%Q
        /\ (r_azimuth p = None \/ r_azimuth r = None -> pt = 0%Q)
        /\ (forall x y, r_azimuth p = Some x -> r_azimuth r = Some y ->
             (S (S prev) = next -> pt = match turn prev with Some t => (f_turn * Qabs (angle_diff t (angle_diff x y)))%Q | None => 0%Q end)
             /\ (S (S prev) < next -> pt = if equal_points prev current || equal_points current next then 0%Q else (f_turn * Qabs (angle_diff (direction_between prev current next) (angle_diff x y)))%Q))
        /\ (r_length p = None \/ r_length r = None \/ return_length prev pa current ca next a = None -> pz = 0%Q)
        /\ (forall x, r_length p <> None -> r_length r <> None -> return_length prev pa current ca next a = Some x -> pz = (f_length * (x * 2))%Q)).
  Proof.
    intros p r. unfold MdpReward.previous_reward. cbv zeta. fold p r. destruct (r_invalid p) eqn:V.
    { split; [split; [discriminate|intros [K _]; discriminate]|]. split; [reflexivity|]. split; discriminate. }
    destruct (attaches prev pa current ca next a) eqn:A; cbn [negb].
    2: { split; [tauto|]. split; [discriminate|]. split; [reflexivity|]. intros _ K. discriminate K. }
    split; [split; [discriminate|intros [_ K]; discriminate]|]. split; [discriminate|]. split; [discriminate|]. intros _ _ Lt.
    set (dir := if (prev + 1 =? current) && (current + 1 =? next) then turn (next - 2) else _).
    exists (match r_azimuth p, r_azimuth r, dir with Some x, Some y, Some d => (f_turn * Qabs (angle_diff d (angle_diff x y)))%Q | _, _, _ => 0%Q end),
      (if is_some (r_length p) && is_some (r_length r) then match return_length prev pa current ca next a with Some x => (f_length * (x * 2))%Q | None => 0%Q end else 0%Q).
    split; [|split; [|split; [|split]]].
    - set (t := match return_length prev pa current ca next a with Some x => (f_length * (x * 2))%Q | None => 0%Q end).
      assert (Q : forall u, (match return_length prev pa current ca next a with Some x => u - f_length * (x * 2) | None => u end == u - t)%Q) by (intros u; unfold t; destruct (return_length _ _ _ _ _ _); lra).
      destruct (is_some _ && is_some _); [rewrite Q|]; clear Q; clearbody t; destruct (r_azimuth p); try lra; destruct (r_azimuth r); try lra; destruct dir; lra.
    - intros [-> | ->]; [reflexivity|]. destruct (r_azimuth p); reflexivity.
    - intros x y -> ->. unfold dir. split.
      + intros K. assert (current = S prev) by lia. subst current next. replace (prev + 1 =? S prev) with true by (symmetry; apply Nat.eqb_eq; lia). replace (S prev + 1 =? S (S prev)) with true by (symmetry; apply Nat.eqb_eq; lia).
        cbn [andb]. replace (S (S prev) - 2) with prev by lia. reflexivity.
      + intros K. replace ((prev + 1 =? current) && (current + 1 =? next)) with false.
        * destruct (equal_points prev current), (equal_points current next); reflexivity.
        * symmetry. apply andb_false_iff. destruct (Nat.eqb_spec (prev + 1) current); [right; apply Nat.eqb_neq; lia|left; reflexivity].
    - intros [-> | [-> | ->]]; cbn [is_some andb]; [reflexivity|rewrite andb_false_r; reflexivity|destruct (is_some (r_length p) && is_some (r_length r)); reflexivity].
    - intros x Np Nr ->. destruct (r_length p); [|contradiction]. destruct (r_length r); [|contradiction]. reflexivity.
  Qed.
  (** The first edge of all counts threefold, one after a skip by a tenth. *)
  Theorem C63_first s a : (entry s 1 = 0 -> (mdp_first s a == - (3 * (f_distance * distance_of 0 (Z.to_nat a))))%Q)
    /\ (entry s 1 <> 0 -> (mdp_first s a == - ((1 # 10) * (f_distance * distance_of (entry s 1) (Z.to_nat a))))%Q).
  Proof.
    unfold MdpReward.mdp_first, MdpReward.first_distance. split; intros H.
    - rewrite H. cbn [Nat.eqb]. ring.
    - apply Nat.eqb_neq in H. rewrite H. ring.
  Qed.

  Lemma from_back_app (pre t : istate) k : 1 <= k <= length t -> from_back (pre ++ t) k = nth_error t (length t - k).
  Proof. intros H. unfold from_back. rewrite app_length. rewrite nth_error_app2 by lia. f_equal. lia. Qed.
  (** The verdict on an action in a state that ends in the previous, the current and the next measurement with the edges chosen: no route costs the rest
      of the track; the previous route is regarded exactly if an edge was chosen there. *)
  Theorem C63_verdict pre p pa c ca n a : (0 <= p)%Z -> (0 <= c)%Z -> (0 <= n)%Z -> (0 <= ca)%Z ->
    let s := pre ++ [p; pa; c; ca; n] in let r := route (Z.to_nat c) (Z.to_nat ca) (Z.to_nat n) (Z.to_nat a) in
    let w := fst (route_reward (Z.to_nat c) (Z.to_nat ca) (Z.to_nat n) (Z.to_nat a)) in let v := mdp_judge s a in
    (r_invalid r = true -> (v_reward v == - fail_reward (Z.to_nat c))%Q /\ v_detached v = false)
    /\ (r_invalid r = false -> (pa < 0)%Z -> v_reward v = w /\ v_detached v = false)
    /\ (r_invalid r = false -> (0 <= pa)%Z -> (v_reward v, v_detached v) = previous_reward (Z.to_nat p) (Z.to_nat pa) (Z.to_nat c) (Z.to_nat ca) (Z.to_nat n) (Z.to_nat a) w).
  Proof.
    intros Hp Hc Hn Hca s r w v. unfold v, MdpReward.mdp_judge, entry, entry_negative, s. rewrite !from_back_app by (cbn [length]; lia). cbn [length Nat.sub nth_error]. fold r.
    assert (L : (3 <? length (pre ++ [p; pa; c; ca; n])) = true) by (apply Nat.ltb_lt; rewrite app_length; cbn [length]; lia). rewrite L. cbn [andb].
    destruct (r_invalid r) eqn:V.
    - split; [intros _; cbn [v_reward v_detached]; split; [ring|reflexivity]|]. split; intros K; discriminate K.
    - split; [discriminate|]. unfold w. destruct (route_reward (Z.to_nat c) (Z.to_nat ca) (Z.to_nat n) (Z.to_nat a)) as [w0 sk]. cbn [fst]. destruct (Z.ltb_spec pa 0) as [H|H]; cbn [negb].
      + split; [intros _ _; split; reflexivity|]. intros _ K. lia.
      + split; [intros _ K; lia|]. intros _ _. destruct (previous_reward _ _ _ _ _ _ _) as [w' d]. reflexivity.
  Qed.
  Theorem C63_verdict_short c ca n a : (0 <= c)%Z -> (0 <= n)%Z -> (0 <= ca)%Z ->
    let r := route (Z.to_nat c) (Z.to_nat ca) (Z.to_nat n) (Z.to_nat a) in let v := mdp_judge [c; ca; n] a in v_detached v = false
    /\ (r_invalid r = true -> (v_reward v == - fail_reward (Z.to_nat c))%Q) /\ (r_invalid r = false -> v_reward v = fst (route_reward (Z.to_nat c) (Z.to_nat ca) (Z.to_nat n) (Z.to_nat a))).
  Proof.
    intros Hc Hn Hca r v. unfold v, MdpReward.mdp_judge, entry, entry_negative. unfold from_back. cbn [length Nat.sub nth_error Nat.ltb Nat.leb andb]. fold r.
    destruct (r_invalid r) eqn:V; [split; [reflexivity|]; split; [intros _; cbn [v_reward]; ring|discriminate]|].
    destruct (route_reward (Z.to_nat c) (Z.to_nat ca) (Z.to_nat n) (Z.to_nat a)) as [w0 sk]. split; [reflexivity|]. split; [discriminate|reflexivity].
  Qed.
End Rewards.

(** the part of the length, for a factor of 1 *)
Definition length_part_of (n l : Q) : Q := (Qabs (n - l) * (l / n))%Q.
(** A route that is longer by some difference costs more than one that is shorter by the same. *)
Theorem C63_longer n d : (0 < d < n)%Q -> (length_part_of n (n - d) < length_part_of n (n + d))%Q.
Proof.
  intros H. unfold length_part_of. assert (E1 : (Qabs (n - (n - d)) == d)%Q) by (setoid_replace (n - (n - d))%Q with d by ring; apply Qabs_pos; lra).
  assert (E2 : (Qabs (n - (n + d)) == d)%Q) by (setoid_replace (n - (n + d))%Q with (- d)%Q by ring; rewrite Qabs_opp; apply Qabs_pos; lra).
  rewrite E1, E2. assert (A : ((n - d) / n < (n + d) / n)%Q) by (apply Qlt_shift_div_l; [lra|]; setoid_replace ((n - d) / n * n)%Q with (n - d)%Q by (field; lra); lra).
  set (u := ((n - d) / n)%Q) in *. set (v := ((n + d) / n)%Q) in *. nra.
Qed.
(** But the farther a route falls short, the less it may cost: nearly nothing for a route of nearly no length, though one of no length
    costs the whole of the way. *)
Theorem C63_shorter_refuted : exists n l l' : Q, (0 < l < l')%Q /\ (l' < n)%Q /\ (length_part_of n l < length_part_of n l')%Q.
Proof. exists 10%Q, 1%Q, 5%Q. repeat split; vm_compute; reflexivity. Qed.

(** three points; the second has an edge that is not reachable, the route to the third is 40 long for a way of 3 *)
Definition ex_route (p e q f : nat) : route_info :=
  match p, e, q, f with
  | 0, _, 1, 0 => mkInfo true None None None
  | 0, _, 1, _ => mkInfo false (Some 12)%Q (Some 45)%Q None
  | _, _, _, _ => mkInfo false (Some 40)%Q (Some (-170))%Q (Some 90)%Q
  end.
Definition ex_seg (i : nat) : option Q := match i with 0 => Some 10%Q | _ => Some 3%Q end.
Definition ex_judge (b : bool) := mdp_judge 1 1 1 1 1 b ex_seg demo_azi demo_turn (fun _ => false) (fun _ _ => false) (fun _ _ => 5%Q) (fun _ _ => 0%Q) (fun _ _ _ => 0%Q)
  demo_distances ex_route (fun _ _ _ _ _ _ => true) (fun _ _ _ _ _ _ => None).
Example ex_lengths : lengths ex_seg (fun _ _ => 5%Q) demo_distances ex_route (fun _ _ _ _ _ _ => None).
Proof.
  constructor; intros.
  - destruct i; discriminate.
  - discriminate.
  - unfold demo_distances in H. destruct H as [<-|[<-|[<-|[]]]]; repeat constructor; discriminate.
  - unfold ex_route. destruct p as [|p], q as [|[|q]], f as [|f]; cbn; solve [discriminate|exact I].
  - unfold ex_route. destruct p as [|p], q as [|[|q]], f as [|f]; cbn; solve [discriminate|exact I].
  - exact I.
Qed.
Example ex_factors : factors 1 1 1 1 1. Proof. constructor; discriminate. Qed.
(** no route to the first edge of the second point: the penalty is the whole track, skipped only if errors are to be skipped *)
Example ex_invalid : let v := ex_judge true [0; 0; 1]%Z 0%Z in (v_reward v == -13)%Q /\ v_valid v = false /\ v_skip v = true /\ v_skip (ex_judge false [0; 0; 1]%Z 0%Z) = false.
Proof. vm_compute. auto. Qed.
(** distances 8 + 3, length 2 * 12 / 10, azimuth 15 *)
Example ex_valid : let v := ex_judge true [0; 0; 1]%Z 1%Z in (v_reward v == - (11 + (24 # 10) + 15))%Q /\ v_valid v = true /\ v_skip v = false.
Proof. vm_compute. auto. Qed.
(** more than ten times the way *)
Example ex_long : v_skip (ex_judge true [1; 1; 2]%Z 0%Z) = true /\ v_skip (ex_judge false [1; 1; 2]%Z 0%Z) = false.
Proof. vm_compute. auto. Qed.
(** If errors are not to be skipped an edge without a valid route is taken like any other one. *)
Theorem C63_invalid_kept_refuted : exists s new a, reward 0%Q [1; 2; 2] (mdp_first 1 demo_distances) (ex_judge false) s new a = Ok ((-13)%Q, new, a) /\ new <> [] /\ v_valid (ex_judge false s a) = false.
Proof. exists [0; 0; 1]%Z, [1; 0; 2]%Z, 0%Z. split; [vm_compute; reflexivity|]. split; [discriminate|reflexivity]. Qed.

Print Assumptions C63_fail.
Print Assumptions C63_reward.
Print Assumptions C63_skip.
Print Assumptions C63_verdict.
Print Assumptions C63_verdict_short.
Print Assumptions C63_parts.
Print Assumptions C63_stay.
Print Assumptions C63_previous.
Print Assumptions C63_first.
Print Assumptions C63_longer.
Print Assumptions C63_shorter_refuted.
Print Assumptions C63_invalid_kept_refuted.
