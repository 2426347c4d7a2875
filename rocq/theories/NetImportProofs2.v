(** Proofs about choosing the roads to merge (network_import.hpp 299-441). *)
From Coq Require Import String.
From Verif Require Import Base ListAux AdjList AdjListSpec AdjListProofs AdjListProofs2 AdjListProofs3 Tags NetImport NetImportSpec NetImportProofs.

Section Choose.
  Context {P Str : Type}.
  Variable eqp : P -> P -> bool.
  Notation graph := (graph (node P) (road P)).
  Notation edge := (@edge (road P)).

  Lemma outs_ids (g : graph) v x : exact Bidirectional g -> get_vertex g v = Some x -> v_out x = map e_id (outs_of (g_es g) v).
  Proof.
    intros H E. apply get_vertex_in in E as [Hx Ex]. rewrite (ex_out _ _ H x Hx), Ex. unfold out_spec, outs_of. f_equal.
    apply filter_ext. intros e. unfold leaves. apply orb_false_r.
  Qed.
  Lemma ins_ids (g : graph) v x : exact Bidirectional g -> get_vertex g v = Some x -> v_in x = map e_id (ins_of (g_es g) v).
  Proof. intros H E. apply get_vertex_in in E as [Hx Ex]. rewrite (ex_in _ _ H x Hx), Ex. reflexivity. Qed.

  Lemma ins_of_in (es : list edge) v e : In e (ins_of es v) <-> In e es /\ e_tgt e = v.
  Proof. unfold ins_of. rewrite filter_In, Nat.eqb_eq. tauto. Qed.
  Lemma outs_of_in (es : list edge) v e : In e (outs_of es v) <-> In e es /\ e_src e = v.
  Proof. unfold outs_of. rewrite filter_In, Nat.eqb_eq. tauto. Qed.

  (** two roads of opposite direction on the same course *)
  Definition mate (i o : edge) : Prop :=
    e_id i <> e_id o /\ e_tgt i = e_src o /\ e_src i = e_tgt o /\ lines_are_reversed eqp (line_of i) (line_of o) = Ok true.

  Section G.
    Variable g : graph.
    Hypothesis H : exact Bidirectional g.

    Lemma match_outs_ok i outs : forall adj, In i (g_es g) -> incl outs (g_es g) ->
      exists new, match_outs eqp g (e_id i) (map e_id outs) adj = Ok (adj ++ new) /\
        forall p, In p new -> exists o, In o outs /\ p = (e_id i, e_id o) /\ mate i o.
    Proof.
      induction outs as [|o outs IH]; intros adj Hi Ho.
      - exists []. rewrite app_nil_r. split; [reflexivity|intros p []].
      - assert (Ho' : incl outs (g_es g)) by (intros z Hz; apply Ho; right; exact Hz).
        assert (skip : forall adj, exists new, match_outs eqp g (e_id i) (map e_id outs) adj = Ok (adj ++ new) /\
                 forall p, In p new -> exists o', In o' (o :: outs) /\ p = (e_id i, e_id o') /\ mate i o').
        { intros adj1. destruct (IH adj1 Hi Ho') as (new & E & Q). exists new. split; [exact E|]. intros p Hp.
          destruct (Q p Hp) as (o' & A & B). exists o'. split; [right; exact A|exact B]. }
        cbn [map match_outs]. destruct (e_id o =? e_id i) eqn:E1; [apply skip|]. apply Nat.eqb_neq in E1.
        rewrite (get_edge_of _ _ _ H Hi). cbn [derefO]. rewrite (get_edge_of _ _ o H) by (apply Ho; left; reflexivity). cbn [derefO].
        destruct ((e_tgt i =? e_src o) && (e_src i =? e_tgt o)) eqn:E2; [|apply skip].
        apply andb_true_iff in E2 as [E2 E3]. apply Nat.eqb_eq in E2, E3.
        destruct (existsb (fun p => snd p =? e_id o) adj) eqn:E4; [apply skip|].
        destruct (lines_are_reversed_ok eqp (r_line (e_data i)) (r_line (e_data o))) as (b & Eb & _). rewrite Eb. cbn [bindO].
        destruct b; [|apply skip].
        destruct (IH (adj ++ [(e_id i, e_id o)]) Hi Ho') as (new & E & Q). exists ((e_id i, e_id o) :: new).
        split; [rewrite E, <- app_assoc; reflexivity|]. intros p [<-|Hp].
        + exists o. split; [left; reflexivity|]. split; [reflexivity|]. repeat split; auto.
        + destruct (Q p Hp) as (o' & A & B). exists o'. split; [right; exact A|exact B].
    Qed.

    Definition matched (ins outs : list edge) (p : nat * nat) : Prop :=
      exists i o, In i ins /\ In o outs /\ p = (e_id i, e_id o) /\ mate i o.

    Lemma match_ins_ok outs : incl outs (g_es g) -> forall ins adj, incl ins (g_es g) ->
      match_ins eqp g (map e_id ins) (map e_id outs) adj = Ok None \/
      exists new, match_ins eqp g (map e_id ins) (map e_id outs) adj = Ok (Some (adj ++ new)) /\
        (forall p, In p new -> matched ins outs p) /\ (forall i, In i ins -> exists p, In p (adj ++ new) /\ fst p = e_id i).
    Proof.
      intros Ho. induction ins as [|i ins IH]; intros adj Hi.
      - right. exists []. rewrite app_nil_r. cbn. split; [reflexivity|]. split; [intros p []|intros i []].
      - cbn [map match_ins]. destruct (match_outs_ok i outs adj) as (new & E & Q); [apply Hi; left; reflexivity|exact Ho|].
        rewrite E. cbn [bindO]. destruct (existsb (fun p => fst p =? e_id i) (adj ++ new)) eqn:X; [|left; reflexivity].
        destruct (IH (adj ++ new)) as [N|(new' & E' & Q' & F')]; [intros z Hz; apply Hi; right; exact Hz|left; exact N|].
        right. exists (new ++ new'). rewrite app_assoc. split; [exact E'|]. split.
        + intros p Hp. apply in_app_iff in Hp as [Hp|Hp].
          * destruct (Q p Hp) as (o & A & B & C). exists i, o. split; [left; reflexivity|auto].
          * destruct (Q' p Hp) as (j & o & A & B). exists j, o. split; [right; exact A|exact B].
        + intros j [<-|Hj]; [|apply F'; exact Hj]. apply existsb_exists in X as (p & Hp & X). apply Nat.eqb_eq in X.
          exists p. split; [apply in_app_iff; left; exact Hp|exact X].
    Qed.

    (** what [_is_mergeable] accepts *)
    Definition mergeable (v : nat) : Prop :=
      (exists i o, ins_of (g_es g) v = [i] /\ outs_of (g_es g) v = [o]) \/
      (exists i1 i2 o1 o2, ins_of (g_es g) v = [i1; i2] /\ Permutation (outs_of (g_es g) v) [o1; o2] /\ mate i1 o1 /\ mate i2 o2).

    Lemma map_eid_inj l e : incl l (g_es g) -> In e (g_es g) -> In (e_id e) (map e_id l) -> In e l.
    Proof.
      intros Hl He Hin. apply in_map_iff in Hin as (f & E & Hf). rewrite <- (eid_inj _ _ _ _ H (Hl _ Hf) He E). exact Hf.
    Qed.

    Lemma is_mergeable_ok v : In v (vertex_ids g) -> exists b, is_mergeable eqp g v = Ok b /\ (b = true -> mergeable v).
    Proof.
      intros Hv. unfold is_mergeable. destruct (get_vertex_some g v Hv) as [x E]. rewrite E. cbn [derefO].
      rewrite (ins_ids g v x H E), (outs_ids g v x H E), !map_length.
      assert (Ii : incl (ins_of (g_es g) v) (g_es g)) by (intros e He; apply ins_of_in in He; tauto).
      assert (Io : incl (outs_of (g_es g) v) (g_es g)) by (intros e He; apply outs_of_in in He; tauto).
      assert (Ni : NoDup (map e_id (ins_of (g_es g) v))) by apply NoDup_map_filter, (ex_eid _ _ H).
      assert (No : NoDup (map e_id (outs_of (g_es g) v))) by apply NoDup_map_filter, (ex_eid _ _ H).
      unfold mergeable. set (ins := ins_of (g_es g) v) in *. set (outs := outs_of (g_es g) v) in *.
      destruct ((length ins =? 1) && (length outs =? 1)) eqn:E1.
      { exists true. split; [reflexivity|]. intros _. left. apply andb_true_iff in E1 as [A B]. apply Nat.eqb_eq in A, B.
        destruct ins as [|i [|? ?]]; try discriminate. destruct outs as [|o [|? ?]]; try discriminate. eauto. }
      destruct (((length outs + length ins =? 2) || (length outs + length ins =? 4)) && (length ins =? length outs)) eqn:E2; cbn [negb].
      2:{ exists false. split; [reflexivity|discriminate]. }
      assert (E3 : length ins = 2 /\ length outs = 2).
      { apply andb_true_iff in E2 as [A B]. apply Nat.eqb_eq in B. apply orb_true_iff in A.
        rewrite !Nat.eqb_eq in A. apply andb_false_iff in E1. rewrite !Nat.eqb_neq in E1. lia. }
      destruct E3 as [L1 L2]. clear E1 E2.
      destruct (match_ins_ok outs Io ins [] Ii) as [N|(adj & M & Q & F)]; [rewrite N; cbn [bindO]; exists false; split; [reflexivity|discriminate]|].
      rewrite M. cbn [bindO app]. cbn [app] in F.
      destruct (forallb (fun o => existsb (fun p => snd p =? o) adj) (map e_id outs)) eqn:Fo; [|exists false; split; [reflexivity|discriminate]].
      eexists. split; [reflexivity|]. intros X. apply Nat.eqb_eq in X. rewrite L1, L2 in X. right.
      assert (Fo' : forall o, In o outs -> exists p, In p adj /\ snd p = e_id o).
      { intros o Ho. rewrite forallb_forall in Fo. specialize (Fo (e_id o) (in_map e_id _ _ Ho)).
        apply existsb_exists in Fo as (p & Hp & Z). apply Nat.eqb_eq in Z. eauto. }
      destruct ins as [|i1 [|i2 [|? ?]]]; try discriminate. destruct outs as [|o1 [|o2 [|? ?]]]; try discriminate.
      destruct adj as [|pa [|pb [|? ?]]]; try (cbn in X; lia). clear X L1 L2 M Fo E.
      assert (Nii : e_id i1 <> e_id i2) by (cbn in Ni; inversion Ni as [|? ? A B]; subst; intros Z; apply A; left; symmetry; exact Z).
      assert (Noo : e_id o1 <> e_id o2) by (cbn in No; inversion No as [|? ? A B]; subst; intros Z; apply A; left; symmetry; exact Z).
      destruct (Q pa (or_introl eq_refl)) as (ia & oa & Ia & Oa & -> & Ma).
      destruct (Q pb (or_intror (or_introl eq_refl))) as (ib & ob & Ib & Ob & -> & Mb).
      destruct (F i1 (or_introl eq_refl)) as (p1 & Hp1 & G1). destruct (F i2 (or_intror (or_introl eq_refl))) as (p2 & Hp2 & G2).
      destruct (Fo' o1 (or_introl eq_refl)) as (r1 & Hr1 & S1). destruct (Fo' o2 (or_intror (or_introl eq_refl))) as (r2 & Hr2 & S2).
      assert (Eo : (oa = o1 /\ ob = o2) \/ (oa = o2 /\ ob = o1)).
      { cbn in Oa, Ob. destruct Oa as [<-|[<-|[]]], Ob as [<-|[<-|[]]]; auto; exfalso;
          destruct Hr1 as [<-|[<-|[]]], Hr2 as [<-|[<-|[]]]; cbn in S1, S2; congruence. }
      assert (Ei : (ia = i1 /\ ib = i2) \/ (ia = i2 /\ ib = i1)).
      { cbn in Ia, Ib. destruct Ia as [<-|[<-|[]]], Ib as [<-|[<-|[]]]; auto; exfalso;
          destruct Hp1 as [<-|[<-|[]]], Hp2 as [<-|[<-|[]]]; cbn in G1, G2; congruence. }
      destruct Ei as [[-> ->]|[-> ->]].
      - exists i1, i2, oa, ob. split; [reflexivity|]. split; [destruct Eo as [[-> ->]|[-> ->]]; [reflexivity|apply perm_swap]|auto].
      - exists i1, i2, ob, oa. split; [reflexivity|]. split; [destruct Eo as [[-> ->]|[-> ->]]; [apply perm_swap|reflexivity]|auto].
    Qed.

    (** *** the pairs to merge *)
    Variable t : tags_state Str.
    Variable complete : bool.

    Definition fits (i o : edge) : bool :=
      negb (e_id o =? e_id i) && (e_tgt i =? e_src o) && negb (e_src i =? e_tgt o) &&
      (complete || ((id_of i =? id_of o) && (if list_eq_dec Nat.eq_dec (edge_tags t (id_of i)) (edge_tags t (id_of o)) then true else false))).
    Definition taken (acc : list (nat * nat)) (i o : edge) : bool := existsb (fun p => (fst p =? e_id i) || (snd p =? e_id o)) acc.

    Fixpoint pick_outs (i : edge) (outs : list edge) (acc : list (nat * nat)) : list (nat * nat) :=
      match outs with
      | [] => acc
      | o :: r => pick_outs i r (if fits i o && negb (taken acc i o) then acc ++ [(e_id i, e_id o)] else acc)
      end.
    Fixpoint pick_ins (ins outs : list edge) (acc : list (nat * nat)) : list (nat * nat) :=
      match ins with
      | [] => acc
      | i :: r => pick_ins r outs (pick_outs i outs acc)
      end.

    Lemma merges_outs_ok i outs : forall acc, In i (g_es g) -> incl outs (g_es g) ->
      merges_outs g t complete (e_id i) (map e_id outs) acc = Ok (pick_outs i outs acc).
    Proof.
      induction outs as [|o outs IH]; intros acc Hi Ho; [reflexivity|].
      assert (Ho' : incl outs (g_es g)) by (intros z Hz; apply Ho; right; exact Hz).
      cbn [map merges_outs pick_outs]. unfold fits at 1. destruct (e_id o =? e_id i) eqn:E1; cbn [negb andb].
      { apply IH; auto. }
      rewrite (get_edge_of _ _ _ H Hi). cbn [derefO]. rewrite (get_edge_of _ _ o H) by (apply Ho; left; reflexivity). cbn [derefO].
      destruct ((e_tgt i =? e_src o) && negb (e_src i =? e_tgt o)) eqn:E2; cbn [andb]; [|apply IH; auto].
      fold (id_of i) (id_of o).
      destruct (complete || ((id_of i =? id_of o) && (if list_eq_dec Nat.eq_dec (edge_tags t (id_of i)) (edge_tags t (id_of o)) then true else false)));
        cbn [andb]; [|apply IH; auto].
      fold (taken acc i o). destruct (taken acc i o); cbn [negb]; apply IH; auto.
    Qed.

    Lemma populate_ok v : In v (vertex_ids g) ->
      populate_merges g t complete v = Ok (pick_ins (ins_of (g_es g) v) (outs_of (g_es g) v) []).
    Proof.
      intros Hv. unfold populate_merges. destruct (get_vertex_some g v Hv) as [x E]. rewrite E. cbn [derefO].
      rewrite (ins_ids g v x H E), (outs_ids g v x H E).
      assert (Ii : incl (ins_of (g_es g) v) (g_es g)) by (intros e He; apply ins_of_in in He; tauto).
      assert (Io : incl (outs_of (g_es g) v) (g_es g)) by (intros e He; apply outs_of_in in He; tauto).
      revert Ii. generalize (@nil (nat * nat)). induction (ins_of (g_es g) v) as [|i ins IH]; intros acc Ii; [reflexivity|].
      cbn [map merges_ins pick_ins]. rewrite merges_outs_ok; [|apply Ii; left; reflexivity|exact Io]. cbn [bindO].
      apply IH. intros z Hz. apply Ii. right. exact Hz.
    Qed.

    (** a chosen set of pairs of roads in and out: no road twice *)
    Definition chosen (ins outs : list edge) (ms : list (nat * nat)) : Prop :=
      NoDup (map fst ms) /\ NoDup (map snd ms) /\
      forall p, In p ms -> exists i o, In i ins /\ In o outs /\ p = (e_id i, e_id o) /\ fits i o = true.

    Lemma taken_false acc i o : taken acc i o = false -> ~ In (e_id i) (map fst acc) /\ ~ In (e_id o) (map snd acc).
    Proof.
      intros T. split; intros X; apply in_map_iff in X as (p & E & Hp); assert (Z : taken acc i o = true);
        try (apply existsb_exists; exists p; split; [exact Hp|]; rewrite E, Nat.eqb_refl, ?orb_true_r; reflexivity); congruence.
    Qed.

    Lemma chosen_snoc ins outs ms i o : chosen ins outs ms -> In i ins -> In o outs -> fits i o = true -> taken ms i o = false ->
      chosen ins outs (ms ++ [(e_id i, e_id o)]).
    Proof.
      intros (A & B & C) Hi Ho F T. apply taken_false in T as [T1 T2]. split; [|split].
      - rewrite map_app. cbn. apply NoDup_app'; auto; [constructor; [intros []|constructor]|].
        intros z Hz [<-|[]]. contradiction.
      - rewrite map_app. cbn. apply NoDup_app'; auto; [constructor; [intros []|constructor]|].
        intros z Hz [<-|[]]. contradiction.
      - intros p Hp. apply in_app_iff in Hp as [Hp|[<-|[]]]; [apply C; exact Hp|]. exists i, o. auto.
    Qed.

    Lemma pick_chosen ins outs : forall l acc, incl l ins -> chosen ins outs acc -> chosen ins outs (pick_ins l outs acc).
    Proof.
      induction l as [|i l IH]; intros acc Hl Hc; [exact Hc|]. cbn [pick_ins].
      apply IH; [intros z Hz; apply Hl; right; exact Hz|].
      assert (Hi : In i ins) by (apply Hl; left; reflexivity). clear IH Hl.
      assert (G : forall os acc, incl os outs -> chosen ins outs acc -> chosen ins outs (pick_outs i os acc)).
      { induction os as [|o os IHo]; intros acc' Ho Hc'; [exact Hc'|]. cbn [pick_outs].
        apply IHo; [intros z Hz; apply Ho; right; exact Hz|].
        destruct (fits i o && negb (taken acc' i o)) eqn:E; [|exact Hc']. apply andb_true_iff in E as [E1 E2].
        apply negb_true_iff in E2. apply chosen_snoc; auto. apply Ho. left. reflexivity. }
      apply G; [apply incl_refl|exact Hc].
    Qed.
  End G.
End Choose.
