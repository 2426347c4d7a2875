(** Property C94: the rows and texts of nodes, edges, candidates, measurements and tracks, for all texts of numbers and geometries, all tags and all
    graphs. *)
From Coq Require Import String Ascii Lia.
From Verif Require Import Base Rows.
Local Open Scope string_scope.

(** * Texts *)
Lemma app_s_assoc : forall a b c : string, (a ++ b) ++ c = a ++ (b ++ c).
Proof. induction a; intros; cbn; [reflexivity|]. rewrite IHa. reflexivity. Qed.
Lemma app_s_nil : forall a : string, a ++ "" = a.
Proof. induction a; cbn; [reflexivity|]. rewrite IHa. reflexivity. Qed.
Lemma length_app_s : forall a b, String.length (a ++ b) = String.length a + String.length b.
Proof. induction a; intros; cbn; [reflexivity|]. rewrite IHa. reflexivity. Qed.

Lemma str_rest : forall l s,
  fst (fold_left (fun st f => ((if snd st : bool then fst st else fst st ++ ",") ++ f, false)) l (s, false)) =
  s ++ match l with [] => "" | _ => "," ++ String.concat "," l end.
Proof.
  induction l as [|x l IH]; intros s; cbn [fold_left]; [cbn; rewrite app_s_nil; reflexivity|].
  cbn [fst snd]. rewrite IH. rewrite !app_s_assoc. f_equal. destruct l; cbn; [rewrite app_s_nil|]; reflexivity.
Qed.
(** every text of a node, edge, candidate, measurement or track is its name and, in brackets, the fields with commas between them *)
Theorem C94_str : forall before fields, str_of before fields = before ++ "(" ++ String.concat "," fields ++ ")".
Proof.
  intros b [|x l]; unfold str_of; cbn [fold_left].
  - cbn. rewrite app_s_assoc. reflexivity.
  - cbn [fst snd]. rewrite str_rest, !app_s_assoc. f_equal. cbn [append]. f_equal. destruct l; [reflexivity|]. cbn [String.concat].
    rewrite !app_s_assoc. reflexivity.
Qed.
Theorem C94_cand_str : forall rows,
  cand_str rows = String.concat "" (map (fun r => "Candidate(" ++ String.concat "," r ++ ")" ++ newline) rows).
Proof.
  intros rows. unfold cand_str.
  assert (K : forall l s, fold_left (fun s r => s ++ str_of "Candidate" r ++ newline) l s =
    s ++ String.concat "" (map (fun r => "Candidate(" ++ String.concat "," r ++ ")" ++ newline) l)).
  { induction l as [|r l IH]; intros s; cbn [fold_left map].
    - cbn. rewrite app_s_nil. reflexivity.
    - rewrite IH, C94_str, ?app_s_assoc. f_equal.
      destruct l; cbn [map String.concat append]; rewrite ?app_s_assoc, ?app_s_nil; reflexivity. }
  apply (K rows "").
Qed.

(** * Tags *)
(** the text of one tag: nothing if it is not known *)
Definition piece (tag : nat -> option (string * string)) (i : nat) : string :=
  match tag i with Some (k, v) => "'" ++ k ++ "':'" ++ v ++ "'" | None => "" end.

Lemma tag_rest tag : forall l s, fst (fold_left (tag_step tag) l (s, false)) =
  s ++ match l with [] => "" | _ => "," ++ String.concat "," (map (piece tag) l) end.
Proof.
  induction l as [|x l IH]; intros s; cbn [fold_left]; [cbn; rewrite app_s_nil; reflexivity|].
  unfold tag_step at 2. cbn [fst snd].
  assert (E : match tag x with Some (k, v) => (s ++ ",") ++ "'" ++ k ++ "':'" ++ v ++ "'" | None => s ++ "," end = s ++ "," ++ piece tag x).
  { unfold piece. destruct (tag x) as [[k v]|]; [rewrite app_s_assoc; reflexivity|reflexivity]. }
  rewrite E, IH, !app_s_assoc. f_equal. destruct l; cbn [map String.concat]; [rewrite app_s_nil|]; reflexivity.
Qed.
Lemma tag_loop tag : forall x l, fst (fold_left (tag_step tag) (x :: l) ("[", true)) = "[" ++ String.concat "," (map (piece tag) (x :: l)).
Proof.
  intros x l. cbn [fold_left]. unfold tag_step at 2. cbn [fst snd].
  assert (E : match tag x with Some (k, v) => "[" ++ "'" ++ k ++ "':'" ++ v ++ "'" | None => "[" end = "[" ++ piece tag x).
  { unfold piece. destruct (tag x) as [[k v]|]; reflexivity. }
  rewrite E, tag_rest, app_s_assoc. f_equal. destruct l; cbn [map String.concat]; [rewrite app_s_nil|]; reflexivity.
Qed.

(** the tags of a node or edge are written in brackets with commas between them, nothing is written without tags and for a single tag that is not
    known *)
Theorem C94_tags : forall tag l,
  tags_text tag l =
  match l with
  | [] => ""
  | [i] => match tag i with Some (k, v) => "['" ++ k ++ "':'" ++ v ++ "']" | None => "" end
  | _ => "[" ++ String.concat "," (map (piece tag) l) ++ "]"
  end.
Proof.
  intros tag [|x l]; [reflexivity|]. unfold tags_text. rewrite tag_loop, app_s_assoc.
  destruct l as [|y l].
  - cbn [map String.concat]. unfold piece. destruct (tag x) as [[k v]|]; [|reflexivity].
    replace (String.length ("[" ++ ("'" ++ k ++ "':'" ++ v ++ "'") ++ "]") <=? 2)%nat with false.
    + rewrite !app_s_assoc. reflexivity.
    + symmetry. apply Nat.leb_gt. rewrite !length_app_s. cbn. lia.
  - replace (_ <=? 2)%nat with false; [reflexivity|]. symmetry. apply Nat.leb_gt.
    cbn [map String.concat]. rewrite !length_app_s. cbn. lia.
Qed.

(** a reader of the text of tags *)
Fixpoint until_quote (s : string) : option (string * string) :=
  match s with
  | EmptyString => None
  | String c r =>
      if Ascii.eqb c "'" then Some ("", r) else match until_quote r with Some (a, b) => Some (String c a, b) | None => None end
  end.
Fixpoint read_entries (fuel : nat) (s : string) : option (list (string * string)) :=
  match fuel with
  | 0 => None
  | S fuel =>
      match s with
      | String "'" s =>
          match until_quote s with
          | Some (k, String ":" (String "'" s)) =>
              match until_quote s with
              | Some (v, String "]" EmptyString) => Some [(k, v)]
              | Some (v, String "," s) => match read_entries fuel s with Some l => Some ((k, v) :: l) | None => None end
              | _ => None
              end
          | _ => None
          end
      | _ => None
      end
  end.
Definition read_tags (s : string) : option (list (string * string)) :=
  match s with
  | EmptyString => Some []
  | String "[" r => read_entries (String.length s) r
  | _ => None
  end.

Fixpoint no_quote (s : string) : bool :=
  match s with EmptyString => true | String c r => negb (Ascii.eqb c "'") && no_quote r end.

Lemma until_ok : forall s r, no_quote s = true -> until_quote (s ++ "'" ++ r) = Some (s, r).
Proof.
  induction s as [|c s IH]; intros r H; [reflexivity|]. cbn [no_quote] in H. apply andb_prop in H as [H1 H2].
  change (String c s ++ "'" ++ r) with (String c (s ++ "'" ++ r)). cbn [until_quote].
  destruct (Ascii.eqb c "'"); [discriminate H1|]. rewrite (IH r H2). reflexivity.
Qed.
Lemma read_one : forall fuel k v r, no_quote k = true -> no_quote v = true ->
  read_entries (S fuel) (("'" ++ k ++ "':'" ++ v ++ "'") ++ r) =
  match r with
  | String "]" EmptyString => Some [(k, v)]
  | String "," s => match read_entries fuel s with Some l => Some ((k, v) :: l) | None => None end
  | _ => None
  end.
Proof.
  intros fuel k v r Hk Hv. rewrite !app_s_assoc. cbn [read_entries append].
  change (k ++ String "'" (String ":" (String "'" (v ++ String "'" r)))) with (k ++ "'" ++ String ":" (String "'" (v ++ String "'" r))).
  rewrite (until_ok k _ Hk). change (v ++ String "'" r) with (v ++ "'" ++ r). rewrite (until_ok v _ Hv). reflexivity.
Qed.
Lemma read_all (tag : nat -> option (string * string)) : forall l x fuel values, (List.length l < fuel)%nat ->
  Forall2 (fun i kv => tag i = Some kv /\ no_quote (fst kv) = true /\ no_quote (snd kv) = true) (x :: l) values ->
  read_entries fuel (String.concat "," (map (piece tag) (x :: l)) ++ "]") = Some values.
Proof.
  induction l as [|y l IH]; intros x fuel values L F; (destruct fuel as [|fuel]; [cbn in L; lia|]).
  - inversion F as [|? [k v] ? ? (T & A & B) R]; subst. inversion R; subst. cbn [map String.concat]. unfold piece. rewrite T.
    cbn [fst snd] in A, B. rewrite (read_one fuel k v "]" A B). reflexivity.
  - inversion F as [|? [k v] ? vs (T & A & B) R]; subst. cbn [fst snd] in A, B.
    change (String.concat "," (map (piece tag) (x :: y :: l))) with (piece tag x ++ "," ++ String.concat "," (map (piece tag) (y :: l))).
    unfold piece at 1. rewrite T, app_s_assoc, (read_one fuel k v _ A B).
    change (("," ++ String.concat "," (map (piece tag) (y :: l))) ++ "]") with (String "," (String.concat "," (map (piece tag) (y :: l)) ++ "]")).
    cbv beta iota. rewrite (IH y fuel vs); [reflexivity|cbn in L; lia|exact R].
Qed.
Lemma concat_len (tag : nat -> option (string * string)) : forall l, (List.length l <= S (String.length (String.concat "," (map (piece tag) l))))%nat.
Proof.
  induction l as [|x l IH]; [cbn; lia|]. destruct l as [|y l]; [cbn; lia|].
  change (String.concat "," (map (piece tag) (x :: y :: l))) with (piece tag x ++ "," ++ String.concat "," (map (piece tag) (y :: l))).
  rewrite !length_app_s. cbn [String.length]. cbn [List.length] in *. lia.
Qed.
(** if all tags are known and no key and no value has a quote, the tags can be read from the text, all and in order *)
Theorem C94_tags_read : forall tag l values,
  Forall2 (fun i kv => tag i = Some kv /\ no_quote (fst kv) = true /\ no_quote (snd kv) = true) l values ->
  read_tags (tags_text tag l) = Some values.
Proof.
  intros tag l values F. destruct l as [|x l]; [inversion F; reflexivity|].
  assert (E : tags_text tag (x :: l) = "[" ++ String.concat "," (map (piece tag) (x :: l)) ++ "]").
  { rewrite C94_tags. destruct l; [|reflexivity]. inversion F as [|? [k v] ? ? (T & _) R]; subst. cbn [map String.concat]. unfold piece.
    rewrite T, !app_s_assoc. reflexivity. }
  rewrite E. change (read_tags ("[" ++ String.concat "," (map (piece tag) (x :: l)) ++ "]")) with
    (read_entries (S (String.length (String.concat "," (map (piece tag) (x :: l)) ++ "]"))) (String.concat "," (map (piece tag) (x :: l)) ++ "]")).
  apply read_all; [|exact F]. pose proof (concat_len tag (x :: l)) as K. rewrite length_app_s. cbn [List.length String.length] in *. lia.
Qed.
Example C94_tags_example :
  tags_text (fun i => if (i =? 0)%nat then Some ("highway", "primary") else Some ("oneway", "yes")) [0; 1]%nat =
    "['highway':'primary','oneway':'yes']" /\
  read_tags "['highway':'primary','oneway':'yes']" = Some [("highway", "primary"); ("oneway", "yes")].
Proof. split; reflexivity. Qed.

(** quotes are not escaped: two different lists of tags have the same text; a tag that is not known leaves a comma without a tag *)
Theorem C94_tags_quotes_refuted : exists t1 t2 : nat -> option (string * string), exists l1 l2 : list nat,
  map t1 l1 <> map t2 l2 /\ (forall i, In i l1 -> t1 i <> None) /\ (forall i, In i l2 -> t2 i <> None) /\
  List.length l1 <> List.length l2 /\ tags_text t1 l1 = tags_text t2 l2.
Proof.
  exists (fun _ => Some ("a", "b','c':'d")), (fun i => if (i =? 0)%nat then Some ("a", "b") else Some ("c", "d")), [0]%nat, [0; 1]%nat.
  repeat split; try discriminate. intros i _. destruct (i =? 0)%nat; discriminate.
Qed.
Theorem C94_tags_unknown_refuted : exists (tag : nat -> option (string * string)) l,
  (exists i, In i l /\ tag i <> None) /\ tags_text tag l = "['a':'b',,]" /\ read_tags (tags_text tag l) = None.
Proof.
  exists (fun i => if (i =? 0)%nat then Some ("a", "b") else None), [0; 1; 2]%nat. split; [|split; reflexivity].
  exists 0%nat. split; [left; reflexivity|discriminate].
Qed.

(** * Files of a network *)
Lemma save_spec {A} (header : list string) (row : A -> list string) : forall l,
  save header row l = match l with [] => [] | _ => header :: map row l end.
Proof.
  assert (K : forall l s,
    fst (fold_left (fun st x => ((if snd st : bool then (fst st ++ [header])%list else fst st) ++ [row x], false)%list) l (s, false)) = (s ++ map row l)%list).
  { induction l as [|x l IH]; intros s; cbn [fold_left map]; [cbn; rewrite app_nil_r; reflexivity|].
    cbn [fst snd]. rewrite IH, <- app_assoc. reflexivity. }
  intros [|x l]; [reflexivity|]. unfold save. cbn [fold_left fst snd]. rewrite K. reflexivity.
Qed.

(** the file of nodes starts with the names of the columns, then has one row for each node in the order of the graph, with as many fields as names; its
    first field is the number of the node *)
Theorem C94_nodes : forall (G : Type) (show_nat : nat -> string) (wkt : G -> string) tag (l : list (node (G := G))),
  l <> [] ->
  let file := save_nodes show_nat wkt tag l in
  hd_error file = Some ["id"; "geometry"; "tags"] /\ List.length file = S (List.length l) /\
  (forall i n, nth_error l i = Some n -> nth_error file (S i) = Some [show_nat (n_id n); wkt (n_point n); tags_text tag (n_tags n)]) /\
  (forall r, In r file -> List.length r = 3).
Proof.
  intros G sn w tag l N file. unfold file, save_nodes. rewrite save_spec. destruct l as [|x l]; [contradiction N; reflexivity|].
  split; [reflexivity|]. split; [cbn; rewrite map_length; reflexivity|]. split.
  - intros i n H. cbn [nth_error]. rewrite nth_error_map, H. reflexivity.
  - intros r [<-|H]; [reflexivity|]. apply in_map_iff in H as (n & <- & _). reflexivity.
Qed.
(** and the file of edges; the length is "NaN" if there is none *)
Theorem C94_edges : forall (D G : Type) (show : D -> string) (show_nat : nat -> string) (wkt : G -> string) tag (l : list (edge (D := D) (G := G))),
  l <> [] ->
  let file := save_edges show show_nat wkt tag l in
  hd_error file = Some ["id"; "geometry"; "length"; "tags"] /\ List.length file = S (List.length l) /\
  (forall i e, nth_error l i = Some e ->
     nth_error file (S i) =
       Some [show_nat (e_id e); wkt (e_line e); match e_length e with Some d => show d | None => "NaN" end; tags_text tag (e_tags e)]) /\
  (forall r, In r file -> List.length r = 4).
Proof.
  intros D G sh sn w tag l N file. unfold file, save_edges. rewrite save_spec. destruct l as [|x l]; [contradiction N; reflexivity|].
  split; [reflexivity|]. split; [cbn; rewrite map_length; reflexivity|]. split.
  - intros i n H. cbn [nth_error]. rewrite nth_error_map, H. reflexivity.
  - intros r [<-|H]; [reflexivity|]. apply in_map_iff in H as (n & <- & _). reflexivity.
Qed.
(** the nodes can be told apart in the file if their numbers are different and have different texts *)
Theorem C94_nodes_distinct : forall (G : Type) (show_nat : nat -> string) (wkt : G -> string) tag (l : list (node (G := G))),
  (forall a b, show_nat a = show_nat b -> a = b) -> NoDup (map (@n_id G) l) ->
  NoDup (map (hd "") (tl (save_nodes show_nat wkt tag l))).
Proof.
  intros G sn w tag l I N. unfold save_nodes. rewrite save_spec. destruct l as [|x l]; [constructor|]. cbn [tl].
  rewrite map_map. cbn [hd node_row].
  rewrite <- (map_map (@n_id G) sn). apply FinFun.Injective_map_NoDup; [exact I|exact N].
Qed.
(** a network without nodes gives a file without anything, not even the names of the columns *)
Theorem C94_empty_refuted : forall (D G : Type) (show : D -> string) (show_nat : nat -> string) (wkt : G -> string) tag,
  exists (nodes : list (node (G := G))) (edges : list (edge (D := D) (G := G))),
  hd_error (save_nodes show_nat wkt tag nodes) <> Some node_header /\ hd_error (save_edges show show_nat wkt tag edges) <> Some edge_header.
Proof. intros. exists [], []. split; discriminate. Qed.
Example C94_nodes_example :
  save_nodes (fun n => if (n =? 1)%nat then "1" else "2") (fun s : string => s) (fun _ => Some ("highway", "crossing"))
    [mkNode 1 "POINT(0 0)" []; mkNode 2 "POINT(1 0)" [5]]%nat =
  [["id"; "geometry"; "tags"]; ["1"; "POINT(0 0)"; ""]; ["2"; "POINT(1 0)"; "['highway':'crossing']"]].
Proof. reflexivity. Qed.
Example C94_edges_example :
  save_edges (fun d : string => d) (fun n => if (n =? 1)%nat then "1" else "2") (fun s : string => s) (fun _ => None)
    [mkEdge 1 "LINESTRING(0 0,1 0)" (Some "1.000000") []; mkEdge 2 "LINESTRING(1 0,0 0)" None [5]]%nat =
  [["id"; "geometry"; "length"; "tags"]; ["1"; "LINESTRING(0 0,1 0)"; "1.000000"; ""]; ["2"; "LINESTRING(1 0,0 0)"; "NaN"; ""]].
Proof. reflexivity. Qed.

(** * Candidates *)
Section Candidates.
  Context {D G P : Type} (show : D -> string) (show_nat : nat -> string) (wkt : G -> string) (wkt_point : P -> string) (wkt_segment : P -> P -> string).
  Let rows := cand_rows show show_nat wkt wkt_point wkt_segment.

  Lemma cand_loop : forall p l i acc,
    (forall c, In c l -> c_from (D := D) (G := G) (P := P) c <> None /\ c_to c <> None) ->
    exists r, cand_rows_from show show_nat wkt wkt_point wkt_segment i p l acc = Ok (acc ++ r)%list /\ List.length r = List.length l /\
      forall j c, nth_error l j = Some c -> exists f t, c_from c = Some f /\ c_to c = Some t /\
        nth_error r j = Some [show_nat (i + j); wkt_segment p (c_point c); show (c_distance c); wkt_point (c_point c); wkt f; wkt t].
  Proof.
    intros p. induction l as [|c l IH]; intros i acc H.
    - exists []. split; [cbn; rewrite app_nil_r; reflexivity|]. split; [reflexivity|]. intros [|j] c E; discriminate E.
    - destruct (H c (or_introl eq_refl)) as [Hf Ht]. cbn [cand_rows_from]. unfold cand_edge_row.
      destruct (c_from c) as [f|] eqn:Ef; [|contradiction Hf; reflexivity]. destruct (c_to c) as [t|] eqn:Et; [|contradiction Ht; reflexivity].
      destruct (IH (S i) (acc ++ [show_nat i :: wkt_segment p (c_point c) :: [show (c_distance c); wkt_point (c_point c); wkt f; wkt t]])%list)
        as (r & E & L & K). { intros c' I. apply H. right. exact I. }
      eexists. split; [rewrite E, <- app_assoc; reflexivity|]. split; [cbn; rewrite L; reflexivity|].
      intros [|j] c' N.
      + injection N as <-. exists f, t. rewrite Ef, Et, Nat.add_0_r. repeat split.
      + destruct (K j c' N) as (f' & t' & A & B & C). exists f', t'. split; [exact A|]. split; [exact B|].
        cbn [app nth_error]. rewrite C, Nat.add_succ_r. reflexivity.
  Qed.
  (** a candidate has one row for each of its edges, in order, numbered from zero, with a field for each of the names, and the projection starts at the
      point of the track *)
  Theorem C94_candidate : forall t index p l,
    nth_error t index = Some p ->
    (forall c, In c l -> c_from (D := D) (G := G) (P := P) c <> None /\ c_to c <> None) ->
    exists r, rows (Some t) index l = Ok r /\ List.length r = List.length l /\
      (forall x, In x r -> List.length x = List.length cand_header) /\
      forall j c, nth_error l j = Some c -> exists f g, c_from c = Some f /\ c_to c = Some g /\
        nth_error r j = Some [show_nat j; wkt_segment p (c_point c); show (c_distance c); wkt_point (c_point c); wkt f; wkt g].
  Proof.
    intros t index p l N H. destruct (cand_loop p l 0 [] H) as (r & E & L & K). exists r.
    split. { unfold rows, cand_rows. rewrite N, E. destruct l; [|reflexivity]. destruct r; [reflexivity|discriminate L]. }
    split; [exact L|]. split; [|exact K].
    intros x I. apply In_nth_error in I as (j & J).
    destruct (nth_error l j) as [c|] eqn:C.
    - destruct (K j c C) as (f & g & _ & _ & E'). rewrite E' in J. injection J as <-. reflexivity.
    - apply nth_error_None in C. assert (j < List.length r)%nat by (apply nth_error_Some; rewrite J; discriminate). lia.
  Qed.
  (** a point that is not in the track is refused, but only if there is an edge; an edge without its lines is undefined behaviour *)
  Theorem C94_candidate_outside : forall t index l, (List.length t <= index)%nat -> l <> [] -> rows (Some t) index l = Throw [].
  Proof.
    intros t index l H N. unfold rows, cand_rows. destruct l; [contradiction N; reflexivity|].
    apply nth_error_None in H. rewrite H. reflexivity.
  Qed.
  Theorem C94_candidate_none : forall t index, rows t index [] = Ok [].
  Proof. reflexivity. Qed.
  Theorem C94_candidate_lines : forall t index p l c, nth_error t index = Some p -> In c l -> c_from c = None \/ c_to c = None -> rows (Some t) index l = UB.
  Proof.
    intros t index p l c N I H. unfold rows, cand_rows.
    assert (K : forall i acc, cand_rows_from show show_nat wkt wkt_point wkt_segment i p l acc = UB).
    { clear N. induction l as [|d l IH]; intros i acc; [destruct I|]. cbn [cand_rows_from]. destruct I as [->|I].
      - unfold cand_edge_row. destruct H as [-> | ->]; [reflexivity|]. destruct (c_from c); reflexivity.
      - destruct (cand_edge_row show wkt wkt_point d); [apply IH, I|reflexivity|reflexivity|reflexivity]. }
    destruct l; [destruct I|]. rewrite N. apply K.
  Qed.
End Candidates.
Example C94_candidate_example :
  cand_rows (fun d : string => d) (fun n => if (n =? 0)%nat then "0" else "1") (fun g : string => g) (fun p : string => p) (fun a b => a ++ "-" ++ b)
    (Some ["p"; "q"]) 1 [mkCand "a" "1.0" (Some "f") (Some "t"); mkCand "b" "2.0" (Some "g") (Some "u")] =
  Ok [["0"; "q-a"; "1.0"; "a"; "f"; "t"]; ["1"; "q-b"; "2.0"; "b"; "g"; "u"]].
Proof. reflexivity. Qed.

(** * Measurements *)
(** the comparisons of measurements are those of their times: exactly one of less, equal and greater holds, less is transitive, and the others follow *)
Theorem C94_measure_order : forall (P : Type) (a b c : measurement (P := P)),
  meas_lt a a = false /\ (meas_lt a b = true -> meas_lt b c = true -> meas_lt a c = true) /\
  ((meas_lt a b = true /\ meas_eq a b = false /\ meas_gt a b = false) \/ (meas_lt a b = false /\ meas_eq a b = true /\ meas_gt a b = false) \/
   (meas_lt a b = false /\ meas_eq a b = false /\ meas_gt a b = true)) /\
  meas_le a b = (meas_lt a b || meas_eq a b)%bool /\ meas_ge a b = (meas_gt a b || meas_eq a b)%bool /\
  (meas_lt a b = true <-> (m_time a < m_time b)%nat).
Proof.
  intros P [x p] [y q] [z r]. unfold meas_le, meas_ge, meas_gt, meas_lt, meas_eq. cbn [m_time].
  destruct (Nat.ltb_spec x x), (Nat.ltb_spec x y), (Nat.ltb_spec y x), (Nat.eqb_spec x y), (Nat.ltb_spec y z), (Nat.ltb_spec x z);
    cbn; repeat split; auto; try lia; try discriminate.
Qed.
(** but equal measurements need not have the same point *)
Theorem C94_measure_equal_refuted : exists a b : measurement (P := nat), meas_eq a b = true /\ a <> b /\ m_point a <> m_point b.
Proof. exists (mkMeas 1 0)%nat, (mkMeas 1 2)%nat. repeat split; discriminate. Qed.
Theorem C94_measure_row : forall (P : Type) show_nat (w : P -> string) m,
  meas_row show_nat w m = [show_nat (m_time m); w (m_point m)] /\ List.length (meas_row show_nat w m) = List.length meas_header.
Proof. intros. split; reflexivity. Qed.

(** * Tracks *)
(** the names of the columns of a track are one more than its fields, those of several lines are as many *)
Theorem C94_track_row_short : forall (P : Type) (w : list P -> string) t,
  track_row w t = [t_id t; w (t_line t)] /\ (List.length (track_row w t) < List.length track_header)%nat.
Proof. intros. split; [reflexivity|]. cbn. lia. Qed.
Theorem C94_multi_row : forall (P : Type) (w : list (list P) -> string) t,
  multi_row w t = [mt_id t; w (mt_lines t)] /\ List.length (multi_row w t) = List.length multi_header.
Proof. intros. split; reflexivity. Qed.

(** a track made of coordinates has their pairs as points; with an odd number of coordinates a value behind the last is read *)
Theorem C94_create : forall (X P : Type) (point : X -> X -> P) (pairs : list (X * X)),
  create_track point (flat_map (fun c => [fst c; snd c]) pairs) = Ok (mkTrack "" (map (fun c => point (fst c) (snd c)) pairs)).
Proof.
  intros X P pt l. unfold create_track.
  assert (E : create_line pt (flat_map (fun c => [fst c; snd c]) l) = Ok (map (fun c => pt (fst c) (snd c)) l)).
  { induction l as [|[x y] l IH]; [reflexivity|]. cbn [flat_map app fst snd create_line]. rewrite IH. reflexivity. }
  rewrite E. reflexivity.
Qed.
Theorem C94_create_odd : forall (X P : Type) (point : X -> X -> P) l, Nat.Odd (List.length l) -> create_track point l = UB.
Proof.
  intros X P pt l H. unfold create_track.
  assert (E : forall n l, (List.length l <= n)%nat -> Nat.Odd (List.length l) -> create_line pt l = UB).
  { clear. induction n as [|n IH]; intros l L O.
    - destruct l; [destruct O as [k O]; cbn in O; lia|cbn in L; lia].
    - destruct l as [|x [|y l]]; [destruct O as [k O]; cbn in O; lia|reflexivity|]. cbn [create_line]. rewrite IH; [reflexivity|cbn in L; lia|].
      destruct O as [k O]. exists (k - 1)%nat. cbn in O. lia. }
  rewrite (E _ l (le_n _) H). reflexivity.
Qed.
Example C94_create_example : create_track pair [1; 2; 3; 4]%nat = Ok (mkTrack "" [(1, 2); (3, 4)]%nat) /\ create_track pair [1; 2; 3]%nat = UB.
Proof. split; reflexivity. Qed.

(** a part of several lines has their name and that line; there is no other part *)
Theorem C94_get_track : forall (P : Type) (t : multi_track (P := P)) i,
  (forall l, nth_error (mt_lines t) i = Some l -> get_track t i = Ok (mkTrack (mt_id t) l)) /\
  ((List.length (mt_lines t) <= i)%nat -> exists e, get_track t i = Throw e).
Proof.
  intros P t i. unfold get_track. split.
  - intros l ->. reflexivity.
  - intros H. apply nth_error_None in H. rewrite H. eexists. reflexivity.
Qed.
Theorem C94_sizes : forall (P : Type) (t : multi_track (P := P)), sizes t = List.length (List.concat (mt_lines t)).
Proof.
  intros P [i l]. unfold sizes. cbn [mt_lines].
  assert (K : forall l n, fold_left (fun n l => n + List.length (A := P) l)%nat l n = (n + List.length (List.concat l))%nat).
  { clear. induction l as [|x l IH]; intros n; cbn [fold_left List.concat]; [cbn; lia|]. rewrite IH, app_length. lia. }
  rewrite K. reflexivity.
Qed.
(** the comparisons given to the sorting are strict weak orders, as the sorting requires, and a shorter track is before a longer one if ascending, after
    it otherwise *)
Definition strict_weak {A} (lt : A -> A -> bool) : Prop :=
  (forall a, lt a a = false) /\ (forall a b c, lt a b = true -> lt b c = true -> lt a c = true) /\
  (forall a b c, lt a b = false -> lt b a = false -> lt b c = false -> lt c b = false -> lt a c = false /\ lt c a = false).
Lemma weak_up {A} (f : A -> nat) : strict_weak (fun a b => f a <? f b)%nat.
Proof.
  split; [|split].
  - intros a. apply Nat.ltb_irrefl.
  - intros a b c. rewrite !Nat.ltb_lt. lia.
  - intros a b c. rewrite !Nat.ltb_ge. lia.
Qed.
Lemma weak_down {A} (f : A -> nat) : strict_weak (fun a b => f b <? f a)%nat.
Proof.
  split; [|split].
  - intros a. apply Nat.ltb_irrefl.
  - intros a b c. rewrite !Nat.ltb_lt. lia.
  - intros a b c. rewrite !Nat.ltb_ge. lia.
Qed.
Theorem C94_sort_order : forall (P : Type) ascending,
  strict_weak (track_before (P := P) ascending) /\ strict_weak (multi_before (P := P) ascending) /\
  (forall a b : track (P := P), track_before ascending a b = true <->
     if ascending then (List.length (t_line a) < List.length (t_line b))%nat else (List.length (t_line b) < List.length (t_line a))%nat) /\
  (forall a b : multi_track (P := P), multi_before ascending a b = true <->
     if ascending then (List.length (List.concat (mt_lines a)) < List.length (List.concat (mt_lines b)))%nat
     else (List.length (List.concat (mt_lines b)) < List.length (List.concat (mt_lines a)))%nat).
Proof.
  intros P ascending. split; [|split; [|split]].
  - destruct ascending; [apply (weak_up (fun t => List.length (t_line t)))|apply (weak_down (fun t => List.length (t_line t)))].
  - destruct ascending; [apply (weak_up sizes)|apply (weak_down sizes)].
  - intros a b. unfold track_before. destruct ascending; apply Nat.ltb_lt.
  - intros a b. unfold multi_before. rewrite !C94_sizes. destruct ascending; apply Nat.ltb_lt.
Qed.

Print Assumptions C94_str.
Print Assumptions C94_cand_str.
Print Assumptions C94_tags.
Print Assumptions C94_tags_read.
Print Assumptions C94_tags_quotes_refuted.
Print Assumptions C94_tags_unknown_refuted.
Print Assumptions C94_nodes.
Print Assumptions C94_edges.
Print Assumptions C94_nodes_distinct.
Print Assumptions C94_empty_refuted.
Print Assumptions C94_candidate.
Print Assumptions C94_candidate_outside.
Print Assumptions C94_candidate_none.
Print Assumptions C94_candidate_lines.
Print Assumptions C94_measure_order.
Print Assumptions C94_measure_equal_refuted.
Print Assumptions C94_measure_row.
Print Assumptions C94_track_row_short.
Print Assumptions C94_multi_row.
Print Assumptions C94_create.
Print Assumptions C94_create_odd.
Print Assumptions C94_get_track.
Print Assumptions C94_sizes.
Print Assumptions C94_sort_order.
