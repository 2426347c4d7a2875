(** Property C95: how the imported network becomes the compressed one, for all graphs, tags and patterns of failed allocations. *)
From Verif Require Import Base ListAux AdjList AdjListSpec AdjListProofs AdjListProofs3 AdjListProps Csr CsrProofs CsrProps Tags TagsProofs TagsProps
  TagListProps Compress.

Section Props.
  Context {VD ED Str : Type}.
  Variable oom goom : nat -> bool.
  Variable seqb : Str -> Str -> bool.
  Hypothesis OK : forall a b, seqb a b = true <-> a = b.
  Variable store : Str -> Str.
  Variable node_of : VD -> nat.
  Variable edge_of : ED -> nat.
  Variable pairs : bool -> nat -> list (Str * Str).
  Variable mapped : bool.
  (** no text of a tag has a NUL *)
  Hypothesis texts : forall w n, intact store (pairs w n).
  Notation tags_state := (tags_state Str).

  (** ** One list of tags *)
  (** the tags known are right, and only of the numbers [P] *)
  Definition right (P : bool -> nat -> Prop) (s : tags_state) : Prop :=
    good s /\ finalized s = false /\
    forall w n is, find_key Nat.eqb n (get_map w s) = Some is -> map (tag s) is = map Some (pairs w n) /\ P w n.
  Definition kept (s s' : tags_state) : Prop :=
    clock s <= clock s' /\ forall w n is, find_key Nat.eqb n (get_map w s) = Some is -> find_key Nat.eqb n (get_map w s') = Some is.
  Definition ready (w : bool) (n : nat) (s : tags_state) : Prop := pairs w n = [] \/ find_key Nat.eqb n (get_map w s) <> None.

  Lemma kept_refl s : kept s s.
  Proof. split; auto. Qed.
  Lemma kept_trans a b c : kept a b -> kept b c -> kept a c.
  Proof. intros [A1 A2] [B1 B2]. split; [lia|auto]. Qed.
  Lemma ready_kept w n s s' : ready w n s -> kept s s' -> ready w n s'.
  Proof.
    intros [R|R] [_ K]; [left; exact R|]. right. destruct (find_key Nat.eqb n (get_map w s)) as [is|] eqn:E; [|contradiction R; reflexivity].
    rewrite (K w n is E). discriminate.
  Qed.
  Lemma get_map_extends w (s s' : tags_state) : extends s s' -> get_map w s' = get_map w s.
  Proof. intros X. destruct w; apply X. Qed.
  Lemma right_extends P s s' : right P s -> good s' -> extends s s' -> right P s' /\ kept s s'.
  Proof.
    intros (G & F & H) G' X. split; [|split; [apply extends_clock, X|intros w n is; rewrite (get_map_extends w s s' X); auto]].
    split; [exact G'|]. split; [rewrite (extends_final _ _ X); exact F|]. intros w n is E. rewrite (get_map_extends w s s' X) in E.
    destruct (H w n is E) as [M Q]. split; [|exact Q]. exact (map_tag_extends s s' is _ G G' X M).
  Qed.

  Lemma clone_once_spec P w n s : right P s -> P w n ->
    match clone_once oom seqb store mapped w n (pairs w n) s with
    | Ok (_, s') => right P s' /\ kept s s' /\ ready w n s'
    | Throw (_, s') => right P s' /\ kept s s' /\ good s' /\ extends s s' /\ hit oom s s'
    | UB => mapped = true /\ exists k, clock s <= k /\ oom k = true
    | Fuel => False
    end.
  Proof.
    intros R Pn. pose proof R as (G & F & H). unfold clone_once. destruct (pairs w n) as [|kv l] eqn:El.
    - split; [exact R|]. split; [apply kept_refl|]. left. exact El.
    - assert (I : intact store (kv :: l)) by (rewrite <- El; apply texts).
      destruct (mk_tags_spec seqb OK store oom mapped (kv :: l) s G I F) as [(is & s' & -> & G' & X & T & M)|(s' & -> & G' & X & Q & M)].
      + destruct (right_extends P s s' R G' X) as [R' K'].
        destruct (mapping s' =? mapping s) eqn:Em.
        * destruct (oom (clock s')) eqn:O.
          -- assert (X' : extends s (tick s')) by (eapply extends_trans; [exact X|apply extends_tick]).
             destruct (right_extends P s (tick s') R (good_tick _ G') X') as [R2 K2].
             split; [exact R2|]. split; [exact K2|]. split; [apply good_tick, G'|]. split; [exact X'|].
             exists (clock s'). apply extends_clock in X. cbn. split; [lia|exact O].
          -- set (s2 := tick (set_map w (emplace Nat.eqb n is (get_map w s')) s')).
             assert (Hm : forall w' m, find_key Nat.eqb m (get_map w' s2) =
                       match find_key Nat.eqb m (get_map w' s') with Some t => Some t | None => if Bool.eqb w' w && (m =? n) then Some is else None end).
             { intros w' m. unfold s2. destruct w, w'; cbn [get_map set_map tick set_nodes set_edges nodes edges Bool.eqb andb].
               1,4: rewrite find_key_emplace; destruct (find_key Nat.eqb m _); [reflexivity|destruct (m =? n); reflexivity].
               - destruct (find_key Nat.eqb m (edges s')); reflexivity.
               - destruct (find_key Nat.eqb m (nodes s')); reflexivity. }
             assert (Ht : forall j, tag s2 j = tag s' j) by (intros j; unfold s2; destruct w; reflexivity).
             split; [|split].
             ++ split; [unfold s2; destruct w; destruct G' as [A B C D]; constructor; assumption|].
                split; [rewrite <- F, <- (extends_final _ _ X); unfold s2; destruct w; reflexivity|].
                intros w' m is' E. rewrite Hm in E. rewrite (map_ext _ _ Ht).
                destruct (find_key Nat.eqb m (get_map w' s')) as [t|] eqn:Et.
                ** injection E as <-. destruct R' as (_ & _ & H'). apply (H' w' m t Et).
                ** destruct (Bool.eqb w' w && (m =? n)) eqn:Eb; [|discriminate E]. injection E as <-.
                   apply andb_prop in Eb as [E1 E2]. apply Bool.eqb_prop in E1. apply Nat.eqb_eq in E2. subst w' m. rewrite El. split; [exact T|exact Pn].
             ++ destruct K' as [K1 K2]. split; [unfold s2; destruct w; cbn; lia|]. intros w' m is' E. rewrite Hm, (K2 w' m is' E). reflexivity.
             ++ right. rewrite Hm. destruct (find_key Nat.eqb n (get_map w s')); [discriminate|]. rewrite Bool.eqb_reflx, Nat.eqb_refl. discriminate.
        * apply Nat.eqb_neq in Em. destruct M as [M|[Mm (k & Hk & Ok)]]; [congruence|]. split; [exact Mm|]. exists k. split; [lia|exact Ok].
      + destruct (right_extends P s s' R G' X) as [R' K']. auto.
  Qed.
  Lemma clone_spec P w n s : right P s -> P w n ->
    match clone oom seqb store mapped w n (pairs w n) s with
    | Ok (_, s') => right P s' /\ kept s s' /\ ready w n s'
    | Throw (_, s') => right P s' /\ kept s s' /\ exists k, oom k = true
    | UB => mapped = true /\ exists k, oom k = true
    | Fuel => False
    end.
  Proof.
    intros R Pn. unfold clone. pose proof (clone_once_spec P w n s R Pn) as C1. destruct mapped eqn:Em.
    - unfold retry_alloc. destruct (clone_once oom seqb store true w n (pairs w n) s) as [[u s1]|[u s1]| |]; [exact C1| |destruct C1 as (_ & k & _ & O); eauto|exact C1].
      destruct C1 as (R1 & K1 & G1 & X1 & (k & _ & O)).
      assert (Rg : right P (grow s1) /\ kept s1 (grow s1)) by (apply right_extends; [exact R1|apply good_grow, G1|apply extends_grow]).
      destruct Rg as [Rg Kg]. pose proof (clone_once_spec P w n (grow s1) Rg Pn) as C2. rewrite Em in C2.
      assert (K2 : kept s (grow s1)) by (eapply kept_trans; eassumption).
      destruct (clone_once oom seqb store true w n (pairs w n) (grow s1)) as [[u2 s2]|[u2 s2]| |].
      + destruct C2 as (A & B & C). split; [exact A|]. split; [eapply kept_trans; eassumption|exact C].
      + destruct C2 as (A & B & C & _). assert (Q : right P (grow s2) /\ kept s2 (grow s2)) by (apply right_extends; [exact A|apply good_grow, C|apply extends_grow]).
        split; [apply Q|]. split; [|eauto]. eapply kept_trans; [exact K2|]. eapply kept_trans; [exact B|apply Q].
      + split; [reflexivity|eauto].
      + exact C2.
    - destruct (clone_once oom seqb store false w n (pairs w n) s) as [[u s1]|[u s1]| |]; [exact C1| |destruct C1 as (Q & _); discriminate Q|exact C1].
      destruct C1 as (A & B & _ & _ & (k & _ & O)). eauto.
  Qed.

  (** ** The data of one vertex or edge *)
  Definition failed (st st' : state (Str := Str)) : Prop := (exists k, oom k = true) \/ (exists k, snd st <= k < snd st' /\ goom k = true).
  Definition moved (st st' : state (Str := Str)) : Prop := kept (fst st) (fst st') /\ snd st <= snd st'.
  Lemma moved_trans a b c : moved a b -> moved b c -> moved a c.
  Proof. intros [A1 A2] [B1 B2]. split; [eapply kept_trans; eassumption|lia]. Qed.
  Lemma failed_after a b c : moved a b -> failed b c -> failed a c.
  Proof. intros [_ A] [F|(k & H & F)]; [left; exact F|]. right. exists k. split; [lia|exact F]. Qed.

  Lemma convert_spec P w n st : right P (fst st) -> P w n ->
    match convert_data oom goom seqb store pairs mapped w n st with
    | Ok (_, st') => right P (fst st') /\ moved st st' /\ ready w n (fst st')
    | Throw (_, st') => right P (fst st') /\ moved st st' /\ failed st st'
    | UB => mapped = true /\ exists k, oom k = true
    | Fuel => False
    end.
  Proof.
    intros R Pn. unfold convert_data. pose proof (clone_spec P w n (fst st) R Pn) as C.
    destruct (clone oom seqb store mapped w n (pairs w n) (fst st)) as [[u s1]|[u s1]| |]; [| |exact C|exact C].
    - destruct C as (A & B & D). destruct (goom (snd st)) eqn:O.
      + split; [exact A|]. split; [split; [exact B|cbn; lia]|]. right. exists (snd st). cbn. split; [lia|exact O].
      + split; [exact A|]. split; [split; [exact B|cbn; lia]|]. exact D.
    - destruct C as (A & B & D). split; [exact A|]. split; [split; [exact B|cbn; lia]|]. left. exact D.
  Qed.

  (** ** The loops *)
  (** the numbers in a graph *)
  Definition inside (g : graph VD ED) (w : bool) (n : nat) : Prop :=
    if w then exists x, In x (g_vs g) /\ node_of (v_data x) = n else exists e, In e (g_es g) /\ edge_of (e_data e) = n.

  Lemma conv_edges_spec dir g vi es' ed' : forall l es ed st,
    csr_edges dir g vi l es ed = Ok (es', ed') -> right (inside g) (fst st) ->
    match conv_edges oom goom seqb store edge_of pairs mapped dir g vi l es ed st with
    | Ok (r, st') => r = (es', ed') /\ right (inside g) (fst st') /\ moved st st' /\
        forall x, In x es' -> In x es \/ ready false (edge_of (snd x)) (fst st')
    | Throw (_, st') => right (inside g) (fst st') /\ moved st st' /\ failed st st'
    | UB => mapped = true /\ exists k, oom k = true
    | Fuel => False
    end.
  Proof.
    induction l as [|e l IH]; intros es ed st E R; cbn [csr_edges conv_edges] in *.
    - injection E as <- <-. split; [reflexivity|]. split; [exact R|]. split; [split; [apply kept_refl|lia]|]. auto.
    - unfold derefO in *. destruct (get_edge g e) as [x|] eqn:Ex; [|discriminate E].
      destruct (get_vertex g (e_src x)) as [a|]; [|discriminate E]. destruct (get_vertex g (e_tgt x)) as [b|]; [|discriminate E]. cbv zeta in *.
      destruct (match dir with Undirected => negb (v_index a =? vi) && (v_index b =? vi) | _ => false end); [apply IH; assumption|].
      assert (Pn : inside g false (edge_of (e_data x))) by (exists x; split; [apply (get_edge_in g e x Ex)|reflexivity]).
      pose proof (convert_spec (inside g) false (edge_of (e_data x)) st R Pn) as C.
      destruct (convert_data oom goom seqb store pairs mapped false (edge_of (e_data x)) st) as [[u st1]|[u st1]| |]; [|exact C|exact C|exact C].
      destruct C as (R1 & M1 & D1). specialize (IH _ _ st1 E R1).
      destruct (conv_edges oom goom seqb store edge_of pairs mapped dir g vi l _ _ st1) as [[r st2]|[r st2]| |]; [| |exact IH|exact IH].
      + destruct IH as (A & B & C & D). split; [exact A|]. split; [exact B|]. split; [eapply moved_trans; eassumption|].
        intros y I. destruct (D y I) as [J|J]; [|auto]. apply in_app_iff in J as [J|[<-|[]]]; [auto|]. right. cbn [snd].
        eapply ready_kept; [exact D1|apply C].
      + destruct IH as (A & B & C). split; [exact A|]. split; [eapply moved_trans; eassumption|]. eapply failed_after; eassumption.
  Qed.
  Lemma conv_vertices_spec dir g c' : forall xs c ed st, incl xs (g_vs g) ->
    csr_vertices dir g xs c ed = Ok c' -> right (inside g) (fst st) ->
    match conv_vertices oom goom seqb store node_of edge_of pairs mapped dir g xs c ed st with
    | Ok (r, st') => r = c' /\ right (inside g) (fst st') /\ moved st st' /\
        (forall x, In x xs -> ready true (node_of (v_data x)) (fst st')) /\
        (forall x, In x (c_es c') -> In x (c_es c) \/ ready false (edge_of (snd x)) (fst st'))
    | Throw (_, st') => right (inside g) (fst st') /\ moved st st' /\ failed st st'
    | UB => mapped = true /\ exists k, oom k = true
    | Fuel => False
    end.
  Proof.
    induction xs as [|x xs IH]; intros c ed st Ix E R; cbn [csr_vertices conv_vertices] in *.
    - injection E as <-. split; [reflexivity|]. split; [exact R|]. split; [split; [apply kept_refl|lia]|]. split; [intros x []|auto].
    - destruct (csr_edges dir g (v_index x) (v_out x) (c_es c) ed) as [[es ed']| | |] eqn:Ee; try discriminate E.
      assert (Pn : inside g true (node_of (v_data x))) by (exists x; split; [apply Ix; left; reflexivity|reflexivity]).
      pose proof (convert_spec (inside g) true (node_of (v_data x)) st R Pn) as C.
      destruct (convert_data oom goom seqb store pairs mapped true (node_of (v_data x)) st) as [[u st1]|[u st1]| |]; [|exact C|exact C|exact C].
      destruct C as (R1 & M1 & D1). pose proof (conv_edges_spec dir g (v_index x) es ed' (v_out x) (c_es c) ed st1 Ee R1) as K.
      destruct (conv_edges oom goom seqb store edge_of pairs mapped dir g (v_index x) (v_out x) (c_es c) ed st1) as [[[es1 ed1] st2]|[[es1 ed1] st2]| |];
        [| |exact K|exact K].
      + destruct K as (Q & R2 & M2 & D2). injection Q as -> ->.
        assert (Ix' : incl xs (g_vs g)) by (intros y I; apply Ix; right; exact I). specialize (IH _ _ st2 Ix' E R2).
        destruct (conv_vertices oom goom seqb store node_of edge_of pairs mapped dir g xs _ ed' st2) as [[r st3]|[r st3]| |]; [| |exact IH|exact IH].
        * destruct IH as (A & B & C & D & F). split; [exact A|]. split; [exact B|].
          assert (M12 : moved st1 st3) by (eapply moved_trans; eassumption).
          split; [eapply moved_trans; eassumption|]. split.
          -- intros y [<-|I]; [|apply D, I]. eapply ready_kept; [exact D1|apply M12].
          -- intros y I. destruct (F y I) as [J|J]; [|auto]. cbn [c_es] in J. destruct (D2 y J) as [J'|J']; [auto|]. right. eapply ready_kept; [exact J'|apply C].
        * destruct IH as (A & B & C). split; [exact A|]. assert (M12 : moved st st2) by (eapply moved_trans; eassumption).
          split; [eapply moved_trans; eassumption|]. eapply failed_after; eassumption.
      + destruct K as (A & B & C). split; [exact A|]. split; [eapply moved_trans; eassumption|]. eapply failed_after; eassumption.
  Qed.
  Lemma attempt_spec dir g c st : from_adjacency_list dir g = Ok c -> right (inside g) (fst st) ->
    match attempt oom goom seqb store node_of edge_of pairs mapped dir g st with
    | Ok (r, st') => r = c /\ right (inside g) (fst st') /\ moved st st' /\
        (forall x, In x (g_vs g) -> ready true (node_of (v_data x)) (fst st')) /\
        (forall x, In x (c_es c) -> ready false (edge_of (snd x)) (fst st'))
    | Throw (_, st') => right (inside g) (fst st') /\ moved st st' /\ failed st st'
    | UB => mapped = true /\ exists k, oom k = true
    | Fuel => False
    end.
  Proof.
    intros E R. unfold attempt. destruct (goom (snd st)) eqn:O.
    - split; [exact R|]. split; [split; [apply kept_refl|cbn; lia]|]. right. exists (snd st). cbn. split; [lia|exact O].
    - pose proof (conv_vertices_spec dir g c (g_vs g) (mkC [] []) 0 (fst st, S (snd st)) (incl_refl _) E R) as K.
      assert (M0 : moved st (fst st, S (snd st))) by (split; [apply kept_refl|cbn; lia]).
      destruct (conv_vertices oom goom seqb store node_of edge_of pairs mapped dir g (g_vs g) (mkC [] []) 0 (fst st, S (snd st))) as [[r st2]|[r st2]| |];
        [| |exact K|exact K].
      + destruct K as (A & B & C & D & F). split; [exact A|]. split; [exact B|]. split; [eapply moved_trans; eassumption|]. split; [exact D|].
        intros x I. destruct (F x I) as [[]|J]. exact J.
      + destruct K as (A & B & C). split; [exact A|]. split; [eapply moved_trans; eassumption|]. eapply failed_after; eassumption.
  Qed.
  Lemma attempts_spec dir g c : from_adjacency_list dir g = Ok c -> forall retries st, right (inside g) (fst st) ->
    match attempts oom goom seqb store node_of edge_of pairs mapped retries dir g st with
    | Ok (r, st') => r = c /\ right (inside g) (fst st') /\
        (forall x, In x (g_vs g) -> ready true (node_of (v_data x)) (fst st')) /\
        (forall x, In x (c_es c) -> ready false (edge_of (snd x)) (fst st'))
    | Throw (r, st') => r = mkC [] [] /\ failed st st'
    | UB => mapped = true /\ exists k, oom k = true
    | Fuel => False
    end.
  Proof.
    intros E. induction retries as [|n IH]; intros st R; cbn [attempts]; pose proof (attempt_spec dir g c st E R) as K;
      destruct (attempt oom goom seqb store node_of edge_of pairs mapped dir g st) as [[r st2]|[r st2]| |]; try exact K.
    - destruct K as (A & B & _ & D). auto.
    - destruct K as (A & B & D). auto.
    - destruct K as (A & B & _ & D). auto.
    - destruct K as (A & B & D). specialize (IH st2 A).
      destruct (attempts oom goom seqb store node_of edge_of pairs mapped n dir g st2) as [[r3 st3]|[r3 st3]| |]; try exact IH.
      destruct IH as (P1 & P2). split; [exact P1|]. eapply failed_after; eassumption.
  Qed.

  (** the data of every edge is in the compressed graph *)
  Lemma edge_compressed dir (g : graph VD ED) (c : csr VD ED) e : exact dir g -> indexed g -> from_adjacency_list dir g = Ok c -> In e (g_es g) -> exists x, In x (c_es c) /\ snd x = e_data e.
  Proof.
    intros H Hi E I. destruct (C05_csr_represents dir g H Hi) as (c0 & E0 & Rp). rewrite E in E0. injection E0 as <-.
    destruct (ex_end _ _ H e I) as [Is _]. apply in_map_iff in Is as (v & Ev & Iv). apply In_nth_error in Iv as (i & Ni).
    destruct (rep_out _ _ Rp i v Ni) as (ds & _ & F).
    assert (Ie : In e (filter (fun e => e_src e =? v_id v) (g_es g))) by (apply filter_In; split; [exact I|apply Nat.eqb_eq; congruence]).
    clear - F Ie. induction F as [|d e' ds es (_ & _ & D) F IH]; [destruct Ie|]. destruct Ie as [->|Ie]; [|auto].
    unfold csr_edge_data in D. destruct (nth_error (c_es c) d) as [x|] eqn:N; [|discriminate D]. injection D as D.
    exists x. split; [eapply nth_error_In; exact N|exact D].
  Qed.

  (** ** Statements *)
  (** C95.  Whatever allocations fail: when the conversion returns, the graph is the compressed form of the imported one, every node and every edge has
      its tags, all and in order, no other number has tags, and the tags are finalized.  An exception means that an allocation failed, and leaves no
      graph; undefined behaviour is possible only with files and after a failed allocation of the tags. *)
  Theorem C95_compress : forall dir g retries k, exact dir g -> indexed g ->
    match compress oom goom seqb store node_of edge_of pairs mapped retries dir g (empty_tags, k) with
    | Ok (c, (s, _)) =>
        represents g c /\ finalized s = true /\
        (forall x, In x (g_vs g) -> map (tag s) (node_tags s (node_of (v_data x))) = map Some (pairs true (node_of (v_data x)))) /\
        (forall e, In e (g_es g) -> map (tag s) (edge_tags s (edge_of (e_data e))) = map Some (pairs false (edge_of (e_data e)))) /\
        (forall n, (forall x, In x (g_vs g) -> node_of (v_data x) <> n) -> node_tags s n = []) /\
        (forall n, (forall e, In e (g_es g) -> edge_of (e_data e) <> n) -> edge_tags s n = [])
    | Throw (c, _) => (mapped = true -> c_vs c = [] /\ c_es c = []) /\ ((exists n, oom n = true) \/ (exists n, k <= n /\ goom n = true))
    | UB => mapped = true /\ exists n, oom n = true
    | Fuel => False
    end.
  Proof.
    intros dir g retries k H Hi. destruct (C05_csr_represents dir g H Hi) as (c & E & Rp).
    assert (R0 : forall m, right (inside g) (mkTags [] [] [] [] [] [] [] [] false 0 m)).
    { intros m. split; [destruct (good_empty (Str := Str)) as [a1 a2 a3 a4]; constructor; assumption|]. split; [reflexivity|]. intros [] n is F; discriminate F. }
    assert (K : match (if mapped then attempts oom goom seqb store node_of edge_of pairs mapped retries dir g (grow (Str := Str) empty_tags, k)
                       else attempt oom goom seqb store node_of edge_of pairs mapped dir g (empty_tags, k)) with
      | Ok (r, st') => r = c /\ right (inside g) (fst st') /\
          (forall x, In x (g_vs g) -> ready true (node_of (v_data x)) (fst st')) /\
          (forall x, In x (c_es c) -> ready false (edge_of (snd x)) (fst st'))
      | Throw (r, st') => (mapped = true -> c_vs r = [] /\ c_es r = []) /\ ((exists n, oom n = true) \/ (exists n, k <= n /\ goom n = true))
      | UB => mapped = true /\ exists k, oom k = true
      | Fuel => False
      end).
    { destruct mapped eqn:Em.
      - pose proof (attempts_spec dir g c E retries (grow empty_tags, k) (R0 1)) as K. rewrite Em in K.
        destruct (attempts oom goom seqb store node_of edge_of pairs true retries dir g (grow empty_tags, k)) as [[r st]|[r st]| |]; try exact K.
        destruct K as (A & [B|(n & B & C)]); (split; [intros _; rewrite A; split; reflexivity|]); [left; exact B|].
        right. exists n. cbn in B. split; [lia|exact C].
      - pose proof (attempt_spec dir g c (empty_tags, k) E (R0 0)) as K. rewrite Em in K.
        destruct (attempt oom goom seqb store node_of edge_of pairs false dir g (empty_tags, k)) as [[r st]|[r st]| |]; try exact K.
        + destruct K as (A & B & _ & D). auto.
        + destruct K as (_ & _ & [B|(n & B & C)]); (split; [discriminate|]); [left; exact B|]. right. exists n. cbn in B. split; [lia|exact C]. }
    unfold compress. cbn [fst snd].
    destruct (if mapped then attempts oom goom seqb store node_of edge_of pairs mapped retries dir g (grow empty_tags, k)
              else attempt oom goom seqb store node_of edge_of pairs mapped dir g (empty_tags, k)) as [[r [s n]]|[r st]| |]; try exact K.
    destruct K as (-> & (G & F & Q) & D1 & D2). cbn [fst] in *.
    assert (T : forall w m, ready w m s -> map (tag (finalize s)) (if w then node_tags (finalize s) m else edge_tags (finalize s) m) = map Some (pairs w m)).
    { intros w m Rd.
      assert (Ew : (if w then node_tags (finalize s) m else edge_tags (finalize s) m) = match find_key Nat.eqb m (get_map w s) with Some t => t | None => [] end)
        by (destruct w; reflexivity).
      rewrite Ew. change (map (tag (finalize s))) with (map (tag s)).
      destruct (find_key Nat.eqb m (get_map w s)) as [is|] eqn:Ef; [apply (Q w m is Ef)|]. destruct Rd as [->|Rd]; [reflexivity|contradiction Rd; exact Ef]. }
    split; [exact Rp|]. split; [reflexivity|].
    split; [intros x I; exact (T true _ (D1 x I))|].
    split. { intros e I. destruct (edge_compressed dir g c e H Hi E I) as (x & Ix & Ex). rewrite <- Ex. exact (T false _ (D2 x Ix)). }
    split.
    - intros m N. unfold node_tags. cbn [finalize nodes]. destruct (find_key Nat.eqb m (nodes s)) as [is|] eqn:Ef; [|reflexivity].
      destruct (Q true m is Ef) as [_ (x & I & Ex)]. contradiction (N x I Ex).
    - intros m N. unfold edge_tags. cbn [finalize edges]. destruct (find_key Nat.eqb m (edges s)) as [is|] eqn:Ef; [|reflexivity].
      destruct (Q false m is Ef) as [_ (e & I & Ex)]. contradiction (N e I Ex).
  Qed.

  (** with files the conversion succeeds if the tags have place and at most as many allocations of the graph fail as there are retries *)
  Theorem C95_compress_retries : forall dir g retries k bad, exact dir g -> indexed g -> mapped = true ->
    (forall n, oom n = false) -> (forall n, k <= n -> goom n = true -> In n bad) -> length bad <= retries ->
    exists c st, compress oom goom seqb store node_of edge_of pairs mapped retries dir g (empty_tags, k) = Ok (c, st).
  Proof.
    intros dir g retries k bad H Hi Em T B L. destruct (C05_csr_represents dir g H Hi) as (c & E & _).
    assert (K : forall retries bad st, right (inside g) (fst st) -> (forall n, snd st <= n -> goom n = true -> In n bad) -> length bad <= retries ->
      exists r st', attempts oom goom seqb store node_of edge_of pairs mapped retries dir g st = Ok (r, st')).
    { clear - T E OK texts. induction retries as [|m IH]; intros bad st R B L; cbn [attempts]; pose proof (attempt_spec dir g c st E R) as K;
        destruct (attempt oom goom seqb store node_of edge_of pairs mapped dir g st) as [[r st2]|[r st2]| |];
        try (destruct K as (_ & x & Ox); rewrite T in Ox; discriminate Ox); try (eexists; eexists; reflexivity); try destruct K;
        destruct H0 as (M & [(x & Ox)|(x & Hx & Ox)]); try (rewrite T in Ox; discriminate Ox).
      - assert (I : In x bad) by (apply B; [lia|exact Ox]). destruct bad; [destruct I|cbn in L; lia].
      - assert (I : In x bad) by (apply B; [lia|exact Ox]).
        apply (IH (remove Nat.eq_dec x bad) st2 H).
        + intros n Hn On. apply in_in_remove; [|apply B; [destruct M; lia|exact On]]. lia.
        + pose proof (remove_length_lt Nat.eq_dec bad x I). lia. }
    unfold compress. cbn [fst snd]. rewrite Em in *.
    destruct (K retries bad (grow empty_tags, k)) as (r & [s n] & Er); [|exact B|exact L|].
    - split; [apply good_grow, good_empty|]. split; [reflexivity|]. intros [] n is F; discriminate F.
    - cbn in Er. rewrite Er. eexists. eexists. reflexivity.
  Qed.
  (** in memory it succeeds if nothing fails *)
  Theorem C95_compress_total : forall dir g retries k, exact dir g -> indexed g -> (forall n, oom n = false) -> (forall n, goom n = false) ->
    exists c st, compress oom goom seqb store node_of edge_of pairs mapped retries dir g (empty_tags, k) = Ok (c, st).
  Proof.
    intros dir g retries k H Hi T B. pose proof (C95_compress dir g retries k H Hi) as K.
    destruct (compress oom goom seqb store node_of edge_of pairs mapped retries dir g (empty_tags, k)) as [[c st]|[c st]| |]; [eauto| | |destruct K].
    - destruct K as (_ & [(n & O)|(n & _ & O)]); [rewrite T in O|rewrite B in O]; discriminate O.
    - destruct K as (_ & n & O). rewrite T in O. discriminate O.
  Qed.
End Props.

(** the copy of the tags of nodes is the one of C28 *)
Lemma clone_nodes {Str} oom (seqb : Str -> Str -> bool) store mapped n l s :
  clone oom seqb store mapped true n l s = clone_node_tags oom seqb store mapped n l s.
Proof. reflexivity. Qed.

(** a graph with three nodes and three edges; the nodes 10 and 12 and all edges have tags, the second and the fifth allocation of the graph fail *)
Definition demo_pairs (w : bool) (n : nat) : list (list nat * list nat) :=
  if w then (if (n =? 11) then [] else [([1], [S n])]) else [([1], [2]); ([3], [S n])].
Example C95_case : forall w n, intact c_str (demo_pairs w n).
Proof.
  intros w n k v I. unfold demo_pairs in I.
  destruct w; [destruct (n =? 11)|]; cbn in I; repeat (destruct I as [I|I]; [injection I as <- <-; split; reflexivity|]); destruct I.
Qed.
Example C95_value :
  let g := reindex (demo Bidirectional) in
  exists s, compress quiet (fun k => (k =? 1) || (k =? 4)) leqb c_str (fun x => x) (fun x => x) demo_pairs true 2 Bidirectional g (empty_tags, 0) =
    Ok (mkC [(0, 10); (1, 11); (2, 12)] [(0, 0, 9); (1, 0, 8); (2, 0, 5)], (s, 12)) /\
  map (tag s) (node_tags s 12) = [Some ([1], [13])] /\ node_tags s 11 = [] /\ map (tag s) (edge_tags s 8) = [Some ([1], [2]); Some ([3], [9])] /\
  finalized s = true.
Proof. cbv zeta. eexists. split; [vm_compute; reflexivity|]. vm_compute. auto. Qed.
(** with one retry less the exception goes through *)
Example C95_value_throw :
  exists st, compress quiet (fun k => (k =? 1) || (k =? 4)) leqb c_str (fun x => x) (fun x => x) demo_pairs true 1 Bidirectional
    (reindex (demo Bidirectional)) (empty_tags, 0) = Throw (mkC [] [], st).
Proof. eexists. vm_compute. reflexivity. Qed.

(** with files, a tag storage that has to grow while the tags of a node or an edge are copied ends in undefined behaviour *)
Theorem C95_tags_growth_refuted : exists oom dir (g : graph nat nat) pairs,
  exact dir g /\ indexed g /\ (forall w n, intact c_str (pairs w n)) /\ (exists n, forall k, n <= k -> oom k = false) /\
  (forall retries, compress oom quiet leqb c_str (fun x => x) (fun x => x) pairs true retries dir g (empty_tags, 0) = UB) /\
  exists c st, compress quiet quiet leqb c_str (fun x => x) (fun x => x) pairs true 0 dir g (empty_tags, 0) = Ok (c, st).
Proof.
  exists (Nat.eqb 0), Bidirectional, (reindex (demo Bidirectional)), (fun _ _ => [([1], [2])]).
  split; [apply reindex_exact, demo_exact|]. split; [apply reindex_indexed|].
  split; [intros w n k v [[= <- <-]|[]]; split; reflexivity|].
  split; [exists 1; intros k H; destruct k; [lia|reflexivity]|].
  split; [intros retries; destruct retries; vm_compute; reflexivity|]. eexists. eexists. vm_compute. reflexivity.
Qed.

Print Assumptions C95_compress.
Print Assumptions C95_compress_retries.
Print Assumptions C95_compress_total.
Print Assumptions C95_tags_growth_refuted.
