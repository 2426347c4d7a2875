(** Routes and segments with remembered attributes: geometry/network/route/{route_data,lazy_route,eager_route}.hpp and
    geometry/rich_type/{rich_segment_data,rich_segment,lazy_rich_segment,eager_rich_segment}.hpp (all under src/library/include/).

    A route of [Route.v] with the remembered values; [cv] is the cached number of [RichLine.v]: not initialized (NaN), not valid (infinity)
    or a number. Sums and computed values are taken to be numbers (a sum that overflows would count as not valid). The attributes of the
    lines are those computed from their points (C22). Copying an object copies points and values, so a copy is the same Gallina value; an
    object that was moved from is not used again by the project. *)
From Verif Require Import Base RichLine MultiRich Route RouteDirs.
Local Open Scope nat_scope.

Section RouteCache.
  Context {P L A : Type}.
  Variable eqp : P -> P -> bool.
  Variable dist : P -> P -> L.
  Variable azi : P -> P -> A.
  Variable addL : L -> L -> L.
  Variable zeroL : L.
  Variable addA : A -> A -> A.
  Variable zeroA : A.
  Variable diffA : A -> A -> A.
  Variable absA : A -> A.
  Variable opposite : P * P -> P * P -> bool.

  (** route_data.hpp 106-110 beside the route *)
  Record croute := mkC { c_route : @route P; c_len : cv L; c_az : cv A; c_dirs : cv A; c_abs : cv A; c_conn : bool }.
  (** route_data.hpp 112-115, lazy_route.hpp 53-79: the constructors of a lazy route *)
  Definition fresh (r : @route P) : croute := mkC r Uninit Uninit Uninit Uninit false.

  Definition valid_cv {V} (c : cv V) : bool := match c with Val _ => true | _ => false end.
  Definition of_outcome {V} (x : outcome V) : cv V := match x with Ok v => Val v | _ => Invalid end.

  (** route_data.hpp 140-171: [_compute_length] *)
  Definition data_length (ls : list (list P)) : cv L :=
    match ls with
    | [] => Invalid
    | [l] => if line_has_length eqp zeroL addL dist l then of_outcome (plain_length eqp dist addL zeroL l) else Invalid
    | _ => let (has, x) := fold_left (fun acc l => add_line eqp zeroL addL dist l acc) ls (false, zeroL) in if has : bool then Val x else Invalid
    end.
  Definition compute_length (c : croute) : croute :=
    if initialized (c_len c) then c else mkC (c_route c) (data_length (lines (c_route c))) (c_az c) (c_dirs c) (c_abs c) (c_conn c).

  (** route_data.hpp 173-212: [_compute_azimuth] *)
  Definition data_azimuth (ls : list (list P)) : cv A :=
    match ls with
    | [] => Invalid
    | [l] => if plain_has_azimuth eqp l then of_outcome (plain_azimuth eqp azi zeroA l) else Invalid
    | _ => match route_ends ls with Some (p, q) => if eqp p q then Invalid else Val (azi p q) | None => Invalid end
    end.
  Definition compute_azimuth (c : croute) : croute :=
    if initialized (c_az c) then c else mkC (c_route c) (c_len c) (data_azimuth (lines (c_route c))) (c_dirs c) (c_abs c) (c_conn c).

  (** route_data.hpp 236-274: the loop; the sums are local, [_is_connected] is not. [Throw]: out_of_range *)
  Record sums := mkS { s_has : bool; s_dirs : A; s_abs : A; s_conn : bool }.
  Definition add_both (l : list P) (s : sums) : outcome sums :=
    bindO (add_directions eqp azi addA zeroA diffA (fun x => x) l (s_has s, s_dirs s)) (fun _ => s) (fun '(h, d) =>
    bindO (add_directions eqp azi addA zeroA diffA absA l (s_has s, s_abs s)) (fun _ => s) (fun '(_, a) => Ok (mkS h d a (s_conn s)))).
  Fixpoint dirs_loop (ls : list (list P)) (s : sums) : outcome sums :=
    match ls with
    | curr :: ((next :: rest) as r) =>
        bindO (turn eqp azi zeroA diffA curr next) (fun _ => s) (fun t =>
        let s1 := match t with
                  | Some d => mkS true (addA (s_dirs s) d) (addA (s_abs s) (absA d)) (s_conn s)
                  | None => mkS (s_has s) (s_dirs s) (s_abs s) (s_conn s && (is_empty curr || is_empty next || attaches eqp curr next))
                  end in
        bindO (add_both curr s1) (fun x => x) (fun s2 =>
        bindO (match rest with [] => add_both next s2 | _ => Ok s2 end) (fun x => x) (fun s3 => dirs_loop r s3)))
    | _ => Ok s
    end.
  (** route_data.hpp 214-281: [_compute_directions]; the second result: an exception is raised *)
  Definition compute_directions (c : croute) : croute * bool :=
    let fin d a b := mkC (c_route c) (c_len c) (c_az c) d a b in
    if initialized (c_dirs c) && initialized (c_abs c) then (c, false)
    else match lines (c_route c) with
    | [] => (fin Invalid Invalid true, false)
    | [l] => if plain_has_directions eqp azi diffA l
             then (fin (of_outcome (plain_directions eqp azi addA zeroA diffA (fun x => x) l)) (of_outcome (plain_directions eqp azi addA zeroA diffA absA l)) true, false)
             else (fin Invalid Invalid true, false)
    | ls => match dirs_loop ls (mkS false zeroA zeroA true) with
            | Ok s => ((if s_has s then fin (Val (s_dirs s)) (Val (s_abs s)) else fin Invalid Invalid) (s_conn s), false)
            | Throw s => (fin Invalid Invalid (s_conn s), true)
            | _ => (c, true)
            end
    end.

  Inductive query := QConnected | QHasLength | QLength | QHasAzimuth | QAzimuth | QHasDirections | QDirections | QAbsolute.
  Inductive reply := RBool (b : bool) | RLength (x : cv L) | RAngle (x : cv A).

  (** route_data.hpp 70-103: the getters of the remembered values; also those of an eager route, eager_route.hpp 109-139 *)
  Definition read (c : croute) (q : query) : reply :=
    match q with
    | QConnected => RBool (c_conn c)
    | QHasLength => RBool (valid_cv (c_len c))
    | QLength => RLength (c_len c)
    | QHasAzimuth => RBool (valid_cv (c_az c))
    | QAzimuth => RAngle (c_az c)
    | QHasDirections => RBool (valid_cv (c_dirs c) && valid_cv (c_abs c))
    | QDirections => RAngle (c_dirs c)
    | QAbsolute => RAngle (c_abs c)
    end.
  (** lazy_route.hpp 103-141: [None]: an exception is raised *)
  Definition lazy_ask (c : croute) (q : query) : croute * option reply :=
    match q with
    | QHasLength | QLength => let c' := compute_length c in (c', Some (read c' q))
    | QHasAzimuth | QAzimuth => let c' := compute_azimuth c in (c', Some (read c' q))
    | _ => let (c', raised) := compute_directions c in (c', if raised then None else Some (read c' q))
    end.
  Fixpoint lazy_asks (c : croute) (qs : list query) : croute * list (option reply) :=
    match qs with
    | [] => (c, [])
    | q :: r => let (c1, a) := lazy_ask c q in let (c2, l) := lazy_asks c1 r in (c2, a :: l)
    end.

  (** eager_route.hpp 53-56: nothing is computed *)
  Definition eager_flagged (b : bool) : croute := fresh (flagged b).
  (** eager_route.hpp 58-84 and route_data.hpp 283-287 [_compute]; [Throw]: the constructor raises out_of_range *)
  Definition eager_of (r : @route P) : outcome croute :=
    let (c, raised) := compute_directions (compute_azimuth (compute_length (fresh r))) in if raised then Throw c else Ok c.

  (** route.hpp 829-904 through lazy_route.hpp 163-167 and eager_route.hpp 161-165: only the lines change *)
  Definition with_route (c : croute) (r : @route P) : croute := mkC r (c_len c) (c_az c) (c_dirs c) (c_abs c) (c_conn c).
  Definition c_join (a b : croute) (retain : bool) : croute * croute :=
    let (a', b') := join eqp opposite (c_route a) (c_route b) retain in (with_route a a', with_route b b').
  (** route.hpp 734-827: the result of [merge] is constructed anew *)
  Definition c_merge (cs : list croute) (connect non_connect_except : bool) : outcome croute :=
    bindO (merge eqp (map c_route cs) connect non_connect_except) fresh (fun r => Ok (fresh r)).

  (** ** matching/algorithm/route.hpp 250-303: [candidates_route] with lazy routes; what lies between two entries of the policy is constructed
      anew in [candidate_route], 161-248. The definitions follow [Assemble.v]. *)
  Variable between : nat * nat -> nat * nat -> outcome (@route P).
  Variable in_edges : P -> bool.
  Definition c_join_last (routes : list croute) (r : croute) : list croute * croute :=
    match rev routes with
    | prev :: rest =>
        if negb (invalid (c_route r)) && negb (match lines (c_route r) with [] => true | _ => false end)
           && negb (invalid (c_route prev)) && negb (match lines (c_route prev) with [] => true | _ => false end) then
          match back (last (lines (c_route prev)) []) with
          | Some p => if in_edges p then (routes, r)
                      else let (prev', r') := c_join prev r true in (rev rest ++ [prev'], r')
          | None => (routes, r)
          end
        else (routes, r)
    | [] => (routes, r)
    end.
  Fixpoint c_route_loop (join_merges : bool) (policy : list (nat * nat)) (skipped : bool) (routes : list croute) : outcome (list croute) :=
    match policy with
    | f :: ((t :: rest) as next) =>
        if fst f =? fst t then c_route_loop join_merges rest true routes
        else
          bindO (between f t) (fun _ => routes) (fun r =>
          let (routes1, r1) := if join_merges && negb skipped then c_join_last routes (fresh r) else (routes, fresh r) in
          if negb (invalid (c_route r1)) then
            let c := compute_length r1 in
            if valid_cv (c_len c) then c_route_loop join_merges next false (routes1 ++ [c]) else c_route_loop join_merges next skipped routes1
          else c_route_loop join_merges next skipped routes1)
    | _ => Ok routes
    end.
  Definition c_candidates_route (join_merges : bool) (policy : list (nat * nat)) : outcome croute :=
    bindO (c_route_loop join_merges policy false []) (fun _ => fresh (flagged true)) (fun rs => c_merge rs false false).

  (** ** Segments *)
  (** rich_segment.hpp 227 and rich_segment_data.hpp 84-85 *)
  Record cseg := mkSeg { g_pts : P * P; g_len : cv L; g_az : cv A }.
  (** rich_segment.hpp 113-139: the plain segment; [Throw]: an exception is raised *)
  Definition seg_has (s : P * P) : bool := negb (eqp (fst s) (snd s)).
  Definition seg_length (s : P * P) : outcome L := if seg_has s then Ok (dist (fst s) (snd s)) else Throw zeroL.
  Definition seg_azimuth (s : P * P) : outcome A := if seg_has s then Ok (azi (fst s) (snd s)) else Throw zeroA.
  (** rich_segment_data.hpp 96-112 *)
  Definition seg_compute_length (s : cseg) : cseg :=
    if initialized (g_len s) then s else mkSeg (g_pts s) (if eqp (fst (g_pts s)) (snd (g_pts s)) then Invalid else Val (dist (fst (g_pts s)) (snd (g_pts s)))) (g_az s).
  Definition seg_compute_azimuth (s : cseg) : cseg :=
    if initialized (g_az s) then s else mkSeg (g_pts s) (g_len s) (if eqp (fst (g_pts s)) (snd (g_pts s)) then Invalid else Val (azi (fst (g_pts s)) (snd (g_pts s)))).

  (** what is done with a segment: the getters of lazy_rich_segment.hpp 137-155, the assignments of lazy_rich_segment.hpp 93-135 and
      eager_rich_segment.hpp 97-137 *)
  Inductive seg_op :=
  | AskLength | AskAzimuth
  | AssignPlain (s : P * P)       (* operator=(const rich_segment &) *)
  | AssignLazy (o : cseg)         (* operator=(lazy_rich_segment) *)
  | AssignEager (o : cseg).       (* operator=(eager_rich_segment) *)
  Definition lazy_seg_step (s : cseg) (o : seg_op) : cseg :=
    match o with
    | AskLength => seg_compute_length s
    | AskAzimuth => seg_compute_azimuth s
    | AssignPlain p => mkSeg p (g_len s) (g_az s)
    | AssignLazy x | AssignEager x => x
    end.
  (** eager_rich_segment.hpp 113-125: [_compute] leaves values that are there; a lazy segment is asked *)
  Definition eager_seg_step (s : cseg) (o : seg_op) : cseg :=
    match o with
    | AskLength | AskAzimuth => s
    | AssignPlain p => seg_compute_azimuth (seg_compute_length (mkSeg p (g_len s) (g_az s)))
    | AssignLazy x => mkSeg (g_pts x) (g_len (seg_compute_length x)) (g_az (seg_compute_azimuth x))
    | AssignEager x => x
    end.
  (** lazy_rich_segment.hpp 44-55, eager_rich_segment.hpp 47-62: from points *)
  Definition lazy_seg (s : P * P) : cseg := mkSeg s Uninit Uninit.
  Definition eager_seg (s : P * P) : cseg := seg_compute_azimuth (seg_compute_length (lazy_seg s)).
  (** lazy_rich_line.hpp 263-269: [rich_segment(pos)] of a lazy line with lists of lengths and azimuths that may be empty;
      [None]: out_of_range. The entries are initialized by [length(pos)] and [azimuth(pos)] (C22). *)
  Definition line_segment (line : list P) (lens : list (cv L)) (azs : list (cv A)) (pos : nat) : option cseg :=
    match segment line pos with
    | None => None
    | Some s =>
        let v {V} (f : P -> P -> V) (c : cv V) := match c with Uninit => seg_value eqp f s | x => x end in
        Some (mkSeg s (match nth_error lens pos with Some c => v dist c | None => Uninit end) (match nth_error azs pos with Some c => v azi c | None => Uninit end))
    end.
End RouteCache.
