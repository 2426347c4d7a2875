(** C77: spatial reference systems, see Srs.v. *)
From Coq Require Import ZArith String.
From Verif Require Import Base Srs.
Local Open Scope Z_scope.

Lemma type_eqb_eq a b : type_eqb a b = true <-> a = b.
Proof. destruct a, b; cbn; split; intros; congruence. Qed.
Lemma type_eqb_refl a : type_eqb a a = true.
Proof. destruct a; reflexivity. Qed.

Section C77.
  Context {P X : Type}.
  Variable latlong : Z -> option bool.
  Variable forward : Z * srs_type -> Z * srs_type -> P -> P.
  (** where a place is in the reference system of a code *)
  Variable coords : Z -> X -> P.
  (** angles for systems with latitude and longitude, and only there *)
  Definition fits (c : Z) (t : srs_type) : Prop := latlong c = Some (match t with Cartesian => false | _ => true end) /\ t <> Invalid.
  Hypothesis forward_ok : forall c t c' t' x, fits c t -> fits c' t' -> forward (c, t) (c', t') (coords c x) = coords c' x.
  Notation compute_srs := (compute_srs latlong).
  Notation compute := (compute_srs_transform latlong).
  Notation create := (create_point_reprojector latlong).

  (** C77: which systems the options mean.  The source is the code that is given, of the named type or, if no type is named, of the type of the
      code.  The target is the code that is given; else that of WGS 84 for geographic and web mercator for cartesian coordinates; else it is the
      source.  There is a transformation exactly if code or type differ. *)
  Theorem C77_target c name tc tname t : compute c name tc tname = Ok t ->
    0 <= code (base t) /\ code (base t) = c /\ type (base t) <> Invalid /\ t_type t <> Invalid
    /\ proj (base t) = c /\ t_proj t = t_code t
    /\ (forall T, named_type name = T -> T <> Invalid -> type (base t) = T) /\ (named_type name = Invalid -> fits c (type (base t)) /\ type (base t) <> Spherical)
    /\ (0 <= tc -> t_code t = tc) /\ (forall T, named_type tname = T -> T <> Invalid -> t_type t = T)
    /\ (0 <= tc -> named_type tname = Invalid -> fits tc (t_type t) /\ t_type t <> Spherical)
    /\ (tc < 0 -> t_code t = match named_type tname with Geographic => 4326 | Cartesian => 3857 | _ => c end)
    /\ (tc < 0 -> named_type tname = Invalid -> t_type t = type (base t))
    /\ (transform t = false <-> t_code t = c /\ t_type t = type (base t)).
  Proof.
    unfold compute_srs_transform. destruct (compute_srs c name) as [b| | |] eqn:B; try discriminate. cbn [bindO].
    assert (Hb : 0 <= c /\ code b = c /\ proj b = c /\ type b <> Invalid /\ (forall T, named_type name = T -> T <> Invalid -> type b = T)
                 /\ (named_type name = Invalid -> fits c (type b) /\ type b <> Spherical)).
    { revert B. unfold Srs.compute_srs. destruct (Z.ltb_spec c 0); [discriminate|]. unfold detected_type.
      destruct (named_type name); [destruct (latlong c) as [[]|] eqn:L; try discriminate| | |]; cbn [bindO]; intros [= <-]; cbn;
        repeat split; try lia; try congruence; auto. }
    destruct Hb as (C0 & Cc & Cp & Ct & Cn & Cd). intros E.
    assert (G : exists rc rt, t = make_transform b rc rt rc /\ rt <> Invalid /\ (0 <= tc -> rc = tc)
      /\ (forall T, named_type tname = T -> T <> Invalid -> rt = T) /\ (0 <= tc -> named_type tname = Invalid -> fits tc rt /\ rt <> Spherical)
      /\ (tc < 0 -> rc = match named_type tname with Geographic => 4326 | Cartesian => 3857 | _ => c end)
      /\ (tc < 0 -> named_type tname = Invalid -> rt = type b)).
    { revert E. unfold detected_type. destruct (named_type tname).
      - destruct (Z.leb_spec 0 tc).
        + destruct (latlong tc) as [[]|] eqn:L; cbn [bindO]; try discriminate; intros [= <-]; eexists _, _; (split; [reflexivity|]); unfold fits; rewrite L;
            repeat split; try congruence; try lia.
        + cbn [bindO]. rewrite Cc, Cp. intros [= <-]. exists c, (type b). split; [reflexivity|]. repeat split; try lia; try congruence; auto.
      - destruct (Z.ltb_spec tc 0); cbn [bindO]; intros [= <-]; eexists _, _; (split; [reflexivity|]); repeat split; try lia; try congruence.
      - destruct (Z.ltb_spec tc 0); cbn [bindO]; intros [= <-]; eexists _, _; (split; [reflexivity|]); repeat split; try lia; try congruence.
      - destruct (Z.ltb_spec tc 0); cbn [bindO]; intros [= <-]; eexists _, _; (split; [reflexivity|]); repeat split; try lia; try congruence. }
    clear E. destruct G as (rc & rt & -> & R1 & R2 & R3 & R4 & R5 & R6). unfold make_transform. cbn [base t_code t_type t_proj transform].
    rewrite Cc. split; [exact C0|]. split; [reflexivity|]. do 2 (split; [assumption|]). split; [exact Cp|]. split; [reflexivity|]. do 7 (split; [assumption|]).
    rewrite Cp. split.
    - intros T. apply negb_false_iff, andb_true_iff in T. destruct T as [T1 T2]. apply Z.eqb_eq in T1. apply type_eqb_eq in T2. auto.
    - intros [-> ->]. rewrite Z.eqb_refl, type_eqb_refl. reflexivity.
  Qed.
  (** C77: options are refused exactly if the source has no code, or a type has to be found for a code that Boost does not know. *)
  Theorem C77_refused c name tc tname : (exists t, compute c name tc tname = Ok t) <->
    0 <= c /\ (named_type name = Invalid -> latlong c <> None) /\ (0 <= tc -> named_type tname = Invalid -> latlong tc <> None).
  Proof.
    unfold compute_srs_transform, Srs.compute_srs, detected_type. destruct (Z.ltb_spec c 0) as [L|L].
    - split; [intros [t [=]]|lia].
    - destruct (named_type name); [destruct (latlong c) as [[]|]| | |]; cbn [bindO]; (destruct (named_type tname); [destruct (Z.leb_spec 0 tc); [destruct (latlong tc) as [[]|]|]|destruct (tc <? 0)|destruct (tc <? 0)|destruct (tc <? 0)]); cbn [bindO];
        (split; [intros [t E]; try discriminate; repeat split; try congruence; try lia; intros; try congruence; lia|intros (A1 & A2 & A3); try (eexists; reflexivity); exfalso; auto; try (apply A2; reflexivity); try (apply A3; auto; lia)]).
  Qed.

  Lemma created t r : create t = Ok r -> r = mkReprojector (type (base t)) (t_type t) (transform t) (proj (base t)) (t_proj t)
    /\ latlong (proj (base t)) <> None /\ latlong (t_proj t) <> None.
  Proof.
    unfold Srs.create_point_reprojector. destruct (type (base t)), (t_type t), (latlong (proj (base t))), (latlong (t_proj t)); intros [= <-]; repeat split; discriminate.
  Qed.
  (** C77: a point of a track is where it was, in the coordinates of the target, if the types of source and target fit to their codes. *)
  Theorem C77_tracks c name tc tname t r x : compute c name tc tname = Ok t -> create t = Ok r ->
    fits c (type (base t)) -> fits (t_code t) (t_type t) -> track_point forward t r (coords c x) = Some (coords (t_code t) x).
  Proof.
    intros E R Fs Ft. destruct (C77_target _ _ _ _ _ E) as (_ & _ & _ & _ & Pb & Pt & _ & _ & _ & _ & _ & _ & _ & T). destruct (created _ _ R) as [-> _].
    unfold track_point, reproject_point. cbn [r_transform r_in r_out r_from r_to]. rewrite Pb, Pt, !type_eqb_refl. cbn [andb].
    destruct (transform t) eqn:Tr; [rewrite forward_ok by assumption; reflexivity|]. destruct (proj1 T eq_refl) as [-> ->]. rewrite type_eqb_refl. reflexivity.
  Qed.
  (** C77: without named types this is so for all codes that Boost knows, and then the reprojector can be made. *)
  Theorem C77_auto c name tc tname x : named_type name = Invalid -> named_type tname = Invalid -> 0 <= c -> latlong c <> None -> (0 <= tc -> latlong tc <> None) ->
    exists t r, compute c name tc tname = Ok t /\ create t = Ok r
      /\ track_point forward t r (coords c x) = Some (coords (if 0 <=? tc then tc else c) x).
  Proof.
    intros N N' C0 K K'. destruct (proj2 (C77_refused c name tc tname)) as [t E]; [auto|].
    destruct (C77_target _ _ _ _ _ E) as (_ & _ & Ib & It & Pb & Pt & _ & D & T1 & _ & T2 & T3 & T4 & T). destruct (D N) as [Fs _].
    assert (Ft : fits (t_code t) (t_type t) /\ t_code t = if 0 <=? tc then tc else c).
    { destruct (Z.leb_spec 0 tc) as [L|L]; [rewrite T1 by exact L; split; [apply T2; assumption|reflexivity]|].
      rewrite T4, T3 by assumption. rewrite N'. split; [exact Fs|reflexivity]. }
    destruct Ft as [Ft Ec].
    assert (R : exists r, create t = Ok r).
    { unfold Srs.create_point_reprojector. rewrite Pb, Pt. destruct Fs as [-> _], Ft as [-> _]. destruct (type (base t)); [congruence|destruct (t_type t); try congruence; eauto..]. }
    destruct R as [r R]. exists t, r. split; [exact E|]. split; [exact R|]. rewrite <- Ec. apply (C77_tracks c name tc tname t r x E R Fs Ft).
  Qed.

  (** C77: the same holds for networks from OSM, if the source is geographic. *)
  Theorem C77_osm c name tc tname t r x : compute c name tc tname = Ok t -> create t = Ok r -> type (base t) = Geographic ->
    fits c Geographic -> fits (t_code t) (t_type t) -> osm_point forward t r (coords c x) = Some (coords (t_code t) x).
  Proof.
    intros E R G Fs Ft. pose proof (C77_tracks c name tc tname t r x E R) as H. unfold track_point in H. rewrite G in H. apply H; assumption.
  Qed.
  (** C77: the other importers of networks: right if source and target have the same type. *)
  Theorem C77_files c name tc tname t r x : compute c name tc tname = Ok t -> create t = Ok r -> type (base t) = t_type t ->
    fits c (type (base t)) -> fits (t_code t) (t_type t) -> file_point forward t r (coords c x) = Some (coords (t_code t) x).
  Proof.
    intros E R G Fs Ft. pose proof (C77_tracks c name tc tname t r x E R) as H. unfold track_point in H. rewrite G in H. apply H; [rewrite G in Fs|]; assumption.
  Qed.
  (** C77: if the types differ, no vertex of the network gets coordinates, whatever is in the files. *)
  Theorem C77_files_unassigned c name tc tname t r p : compute c name tc tname = Ok t -> create t = Ok r -> type (base t) <> t_type t ->
    file_point forward t r p = None.
  Proof.
    intros E R N. destruct (C77_target _ _ _ _ _ E) as (_ & _ & _ & _ & _ & _ & _ & _ & _ & _ & _ & _ & _ & T). destruct (created _ _ R) as [-> _].
    unfold file_point, reproject_point. cbn [r_transform r_in r_out]. destruct (transform t); [|exfalso; apply N; symmetry; apply (proj1 T eq_refl)].
    assert (type_eqb (type (base t)) (t_type t) = false) as ->; [|rewrite andb_false_r; reflexivity].
    destruct (type_eqb _ _) eqn:Q; [apply type_eqb_eq in Q; congruence|reflexivity].
  Qed.

  (** C77: the export to OSM: right for a network in WGS 84, and for one that was not transformed from another system without geographic coordinates. *)
  Theorem C77_export c name tc tname t r x : compute c name tc tname = Ok t -> export_reprojector latlong t = Ok r ->
    fits 4326 Geographic -> fits (t_code t) (t_type t) ->
    (t_code t = 4326 /\ t_type t = Geographic) \/ (transform t = false /\ c <> 4326 /\ t_type t <> Geographic) ->
    export_point forward t r (coords (t_code t) x) = Some (coords 4326 x).
  Proof.
    intros E R Fw Ft [[Ec Et] | (Tf & Nc & Nt)]; destruct (C77_target _ _ _ _ _ E) as (_ & Cb & _ & It & _ & _ & _ & _ & _ & _ & _ & _ & _ & T).
    - unfold export_reprojector, compute_next_srs_transform in R. rewrite Et in R. cbn [type_eqb negb] in R. rewrite andb_false_r in R.
      destruct (created _ _ R) as [-> _]. unfold export_point, reproject_point. cbn. rewrite Et, Ec. reflexivity.
    - destruct (proj1 T Tf) as [Ec _]. unfold export_reprojector, compute_next_srs_transform in R. rewrite Cb in R.
      assert (type_eqb (t_type t) Invalid = false) as Q1 by (destruct (t_type t); congruence || reflexivity). rewrite Q1 in R.
      assert (type_eqb (t_type t) Geographic = false) as Q2 by (destruct (t_type t); congruence || reflexivity). rewrite Q2 in R.
      destruct (Z.eqb_spec c 4326) as [|_]; [congruence|]. cbn [negb andb] in R. destruct (created _ _ R) as [-> _].
      unfold export_point, reproject_point. cbn. destruct (Z.eqb_spec c 4326) as [|_]; [congruence|]. cbn [negb andb]. rewrite type_eqb_refl, Ec.
      rewrite forward_ok; [reflexivity|rewrite <- Ec; exact Ft|exact Fw].
  Qed.
  (** C77: if the data came in WGS 84 and the network is not geographic, no exported point gets coordinates. *)
  Theorem C77_export_unassigned name tc tname t r p : compute 4326 name tc tname = Ok t -> export_reprojector latlong t = Ok r -> t_type t <> Geographic ->
    export_point forward t r p = None.
  Proof.
    intros E R Nt. destruct (C77_target _ _ _ _ _ E) as (_ & Cb & _). unfold export_reprojector, compute_next_srs_transform in R. rewrite Cb in R.
    cbn [Z.eqb Pos.eqb negb] in R. rewrite andb_false_r in R. destruct (created _ _ R) as [-> _]. unfold export_point, reproject_point. cbn.
    destruct (t_type t); congruence || reflexivity.
  Qed.
  (** C77: geographic coordinates are exported as they are, whatever their code is. *)
  Theorem C77_export_same c name tc tname t r p : compute c name tc tname = Ok t -> export_reprojector latlong t = Ok r -> t_type t = Geographic ->
    export_point forward t r p = Some p.
  Proof.
    intros E R Et. unfold export_reprojector, compute_next_srs_transform in R. rewrite Et in R. cbn [type_eqb negb] in R. rewrite andb_false_r in R.
    destruct (created _ _ R) as [-> _]. unfold export_point, reproject_point. cbn. rewrite Et. reflexivity.
  Qed.
  (** C77: a track is matched exactly if the type of its target is that of the network. *)
  Theorem C77_accepted c name tc tname t nc nname n : compute c name tc tname = Ok t -> compute_srs nc nname = Ok n ->
    (track_accepted n t = true <-> type n = t_type t).
  Proof. intros _ _. apply type_eqb_eq. Qed.
End C77.

(** **** Examples and what is not true. *)
(** three systems: degrees (4326), metres of which 100 are a degree (3857), and the same with another origin (31467) *)
Definition systems (c : Z) : option bool := if c =? 4326 then Some true else if (c =? 3857) || (c =? 31467) then Some false else None.
Definition where_ (c : Z) (x : Z) : Z := if c =? 4326 then x else if c =? 3857 then 100 * x else 100 * x + 5.
Definition place_of (c : Z) (p : Z) : Z := if c =? 4326 then p else if c =? 3857 then p / 100 else (p - 5) / 100.
Definition fw (a b : Z * srs_type) (p : Z) : Z := where_ (fst b) (place_of (fst a) p).
Example fw_ok : forall c t c' t' x, fits systems c t -> fits systems c' t' -> fw (c, t) (c', t') (where_ c x) = where_ c' x.
Proof.
  intros c t c' t' x _ _. unfold fw. cbn [fst]. f_equal. unfold place_of, where_. destruct (c =? 4326), (c =? 3857); try reflexivity.
  - rewrite Z.mul_comm. apply Z.div_mul. lia.
  - replace (100 * x + 5 - 5) with (x * 100) by lia. apply Z.div_mul. lia.
Qed.
Notation comp := (compute_srs_transform systems).
Notation crea := (create_point_reprojector systems).
Local Open Scope string_scope.
Example C77_auto_ex : exists t r, comp 4326 "" 3857 "" = Ok t /\ crea t = Ok r /\ track_point fw t r 7 = Some 700 /\ osm_point fw t r 7 = Some 700.
Proof. do 2 eexists. repeat split; reflexivity. Qed.
Example C77_files_ex : exists t r, comp 31467 "" 3857 "" = Ok t /\ crea t = Ok r /\ file_point fw t r 705 = Some 700.
Proof. do 2 eexists. repeat split; reflexivity. Qed.
Example C77_export_ex : exists t r, comp 31467 "" (-1) "" = Ok t /\ transform t = false /\ export_reprojector systems t = Ok r /\ export_point fw t r 705 = Some 7.
Proof. do 2 eexists. repeat split; reflexivity. Qed.
Example C77_refused_ex : forall t, comp (-1) "" 3857 "" <> Ok t /\ comp 1 "" 3857 "" <> Ok t.
Proof. intros t. split; discriminate. Qed.

(** C77: files with nodes and arcs in WGS 84, to be transformed to web mercator: no vertex gets coordinates. *)
Theorem C77_files_refuted : exists t r, comp 4326 "" 3857 "" = Ok t /\ crea t = Ok r /\ forall p, file_point fw t r p = None.
Proof. do 2 eexists. repeat split; reflexivity. Qed.
(** C77: a network from OSM in web mercator, exported to OSM: no point gets coordinates. *)
Theorem C77_export_refuted : exists t r, comp 4326 "" 3857 "" = Ok t /\ export_reprojector systems t = Ok r /\ forall p, export_point fw t r p = None.
Proof. do 2 eexists. repeat split; reflexivity. Qed.
(** C77: a network that was transformed from one projected system to another is exported as if it were still in the first: at other places. *)
Theorem C77_export_wrong_refuted : exists t r x, comp 31467 "" 3857 "" = Ok t /\ export_reprojector systems t = Ok r
  /\ fits systems (t_code t) (t_type t) /\ export_point fw t r (where_ (t_code t) x) <> Some (where_ 4326 x).
Proof. do 2 eexists. exists 7. split; [reflexivity|]. split; [reflexivity|]. split; [split; [reflexivity|discriminate]|]. discriminate. Qed.
(** C77: an OSM file whose source is called spherical: no point gets coordinates. *)
Theorem C77_osm_refuted : exists t r, comp 4326 "spherical-equatorial" 3857 "" = Ok t /\ crea t = Ok r /\ forall p, osm_point fw t r p = None.
Proof. do 2 eexists. repeat split; reflexivity. Qed.
(** C77: a named type is not compared with the code, and a name that is no type is ignored; a projected source that is to become spherical is
    transformed to itself, its metres taken for degrees. *)
Theorem C77_type_refuted : (exists t, comp 3857 "" (-1) "spherical-equatorial" = Ok t /\ t_code t = 3857 /\ t_type t = Spherical /\ transform t = true /\ ~ fits systems (t_code t) (t_type t))
  /\ (exists t t', comp 4326 "" 3857 "geographc" = Ok t /\ comp 4326 "" 3857 "" = Ok t' /\ t = t')
  /\ (exists t, comp 4326 "cartesian" (-1) "" = Ok t /\ ~ fits systems (code (base t)) (type (base t))).
Proof.
  split; [eexists; repeat split; try reflexivity; intros [F _]; discriminate|]. split; [do 2 eexists; repeat split; reflexivity|].
  eexists. split; [reflexivity|]. intros [F _]. discriminate.
Qed.
(** C77: tracks in one projected system are matched to a network in another one. *)
Theorem C77_accepted_refuted : exists n t, compute_srs systems 3857 "" = Ok n /\ comp 31467 "" (-1) "" = Ok t /\ track_accepted n t = true /\ t_code t <> code n.
Proof. do 2 eexists. repeat split; try reflexivity. discriminate. Qed.

Print Assumptions C77_target.
Print Assumptions C77_refused.
Print Assumptions C77_auto.
Print Assumptions C77_files_unassigned.
Print Assumptions C77_export.
