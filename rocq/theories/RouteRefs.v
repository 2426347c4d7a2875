(** Which lines a route owns and which it only refers to, [src/library/include/geometry/network/route/route.hpp].

    A route has a list of lines of its own ([_own_rich_lines]) and a vector of references ([_rich_lines]), which refer to its own lines or to
    lines that belong to someone else: the network, a candidate, another route. Lines live in the cells of a heap; the number of a cell is
    the address of the line in it, a released cell has no content. The nodes of [std::list] keep their addresses when the list is moved.
    Reading a reference to a released line is undefined behaviour ([UB]). Of the lines only the points are modelled, as in Route.v; a line
    that was moved from is taken to be empty. Where the code tests properties of a route's lines, all of its lines are read. *)
From Verif Require Import Base RichLine Route.

Section Refs.
  Context {P : Type}.
  Variable eqp : P -> P -> bool.
  Variable opposite : P * P -> P * P -> bool.

  Definition heap := list (option (list P)).
  Definition load (h : heap) (a : nat) : option (list P) := match nth_error h a with Some c => c | None => None end.
  Fixpoint store (h : heap) (a : nat) (c : option (list P)) : heap :=
    match h, a with
    | [], _ => []
    | _ :: h', 0 => c :: h'
    | x :: h', S a' => x :: store h' a' c
    end.

  (** route.hpp 954-956 *)
  Record rroute := mkR { r_invalid : bool; own : list nat; refs : list nat }.
  (** the destructor: the own lines are released *)
  Definition destroy (h : heap) (r : rroute) : heap := fold_left (fun h a => store h a None) (own r) h.

  (** the route with its lines *)
  Fixpoint view (h : heap) (l : list nat) : option (list (list P)) :=
    match l with
    | [] => Some []
    | a :: r => match load h a, view h r with Some x, Some xs => Some (x :: xs) | _, _ => None end
    end.
  Definition seen (h : heap) (r : rroute) {T} (k : @route P -> outcome T) : outcome T :=
    derefO (view h (refs r)) (fun ls => k (mkRoute (r_invalid r) ls)).

  (** route.hpp 1001-1019: [_check_references]: every own line is found among the references, in order *)
  Fixpoint check (references own : list nat) : bool :=
    match own, references with
    | [], _ => true
    | _, [] => false
    | o :: own', a :: references' => if o =? a then check references' own' else check references' own
    end.

  (** route.hpp 60-63 *)
  Definition rflagged (b : bool) : rroute := mkR b [] [].
  (** route.hpp 65-73 for a single line; 992-999 [_set_references_from_own] *)
  Definition of_line (h : heap) (l : list P) : heap * rroute := (h ++ [Some l], mkR false [length h] [length h]).
  (** route.hpp 84-89; [Throw]: logic_error *)
  Definition construct (own references : list nat) : outcome rroute :=
    if check references own then Ok (mkR false own references) else Throw (mkR false own references).

  (** route.hpp 967-990: [_copy_rich_lines]; [rest] are the own lines of the other route not copied yet *)
  Fixpoint copy_loop (h : heap) (rest l : list nat) : outcome (heap * list nat * list nat) :=
    match l with
    | [] => Ok (h, [], [])
    | a :: l' =>
        let other := bindO (copy_loop h rest l') (fun x => x) (fun '(h', o, r) => Ok (h', o, a :: r)) in
        match rest with
        | b :: rest' =>
            if b =? a
            then derefO (load h b) (fun line =>
                 bindO (copy_loop (h ++ [Some line]) rest' l') (fun x => x) (fun '(h', o, r) => Ok (h', length h :: o, length h :: r)))
            else other
        | [] => other
        end
    end.
  (** route.hpp 91-94: the copy constructor *)
  Definition copy (h : heap) (r : rroute) : outcome (heap * rroute) :=
    bindO (copy_loop h (own r) (refs r)) (fun x => (h, r)) (fun '(h', o, l) => Ok (h', mkR (r_invalid r) o l)).

  (** route.hpp 797-818: the lines of one route are moved to the merged route *)
  Fixpoint move_loop (h : heap) (rest l : list nat) : outcome (heap * list nat * list nat) :=
    match l with
    | [] => Ok (h, [], [])
    | a :: l' =>
        let other := bindO (move_loop h rest l') (fun x => x) (fun '(h', o, r) => Ok (h', o, a :: r)) in
        match rest with
        | b :: rest' =>
            if b =? a
            then derefO (load h b) (fun line =>
                 bindO (move_loop (store h b (Some []) ++ [Some line]) rest' l') (fun x => x) (fun '(h', o, r) =>
                 Ok (h', length h :: o, length h :: r)))
            else other
        | [] => other
        end
    end.

  (** route.hpp 770-795: the connection with what was merged before; [Throw]: route_merge_exception *)
  Definition connection (connect non_connect_except : bool) (h : heap) (acc : list nat) (r : rroute) : outcome (heap * list nat) :=
    match rev acc, refs r with
    | prev :: _, next :: _ =>
        derefO (load h prev) (fun lp => derefO (load h next) (fun ln =>
        match back lp, front ln with
        | Some p, Some q =>
            if eqp p q then Ok (h, [])
            else if connect then Ok (h ++ [Some [p; q]], [length h])
            else if non_connect_except then Throw (h, [])
            else Ok (h, [])
        | _, _ => Ok (h, [])
        end))
    | _, _ => Ok (h, [])
    end.
  Fixpoint merge_loop (connect non_connect_except : bool) (h : heap) (rs : list (rroute * bool)) (o l : list nat) : outcome (heap * list nat * list nat) :=
    match rs with
    | [] => Ok (h, o, l)
    | (r, false) :: rs' => merge_loop connect non_connect_except h rs' o l
    | (r, true) :: rs' =>
        bindO (connection connect non_connect_except h l r) (fun _ => (h, o, l)) (fun '(h1, c) =>
        bindO (move_loop h1 (own r) (refs r)) (fun x => x) (fun '(h2, o2, l2) =>
        merge_loop connect non_connect_except h2 rs' (o ++ c ++ o2) (l ++ c ++ l2)))
    end.
  (** route.hpp 734-827: [merge]; the routes are given up *)
  Definition rmerge (h : heap) (rs : list rroute) (connect non_connect_except : bool) : outcome (heap * rroute) :=
    match rs with
    | [] => Ok (h, rflagged true)
    | _ => if forallb r_invalid rs then Ok (h, rflagged true)
           else
             bindO (mapO (fun r => seen h r (fun x => Ok (mergeable eqp x))) rs) (fun _ => (h, rflagged true)) (fun flags =>
             bindO (merge_loop connect non_connect_except h (combine rs flags) [] []) (fun '(h', o, l) => (h', mkR false o l)) (fun '(h', o, l) =>
             bindO (construct o l) (fun r => (h', r)) (fun r => Ok (h', r))))
    end.

  (** route.hpp 481-504: [copy_rich_line]: the own lines are searched from the last one found on, to the end *)
  Fixpoint search (rest : list nat) (a : nat) : option (list nat) :=
    match rest with
    | [] => None
    | b :: rest' => if b =? a then Some rest' else search rest' a
    end.
  Fixpoint sub_loop (h : heap) (rest l : list nat) : outcome (heap * list nat * list nat) :=
    match l with
    | [] => Ok (h, [], [])
    | a :: l' =>
        match search rest a with
        | Some rest' =>
            derefO (load h a) (fun line =>
            bindO (sub_loop (h ++ [Some line]) rest' l') (fun x => x) (fun '(h', o, r) => Ok (h', length h :: o, length h :: r)))
        | None => bindO (sub_loop h [] l') (fun x => x) (fun '(h', o, r) => Ok (h', o, a :: r))
        end
    end.
  (** route.hpp 471-516: [sub_route(from, to)]; [Throw]: out_of_range *)
  Definition rsub2 (h : heap) (r : rroute) (from to : nat) : outcome (heap * rroute) :=
    if (from <=? to) && (from <? length (refs r)) && (to <=? length (refs r)) then
      bindO (sub_loop h (own r) (firstn (to - from) (skipn from (refs r)))) (fun _ => (h, r)) (fun '(h', o, l) =>
      bindO (construct o l) (fun t => (h', t)) (fun t => Ok (h', t)))
    else Throw (h, r).

  (** route.hpp 518-560: [sub_route(from, from_pos, to, to_pos)] *)
  Definition rsub4 (h : heap) (r : rroute) (from from_pos to to_pos : nat) : outcome (heap * rroute) :=
    seen h r (fun v =>
    let size := length (refs r) in
    let line i := nth i (lines v) [] in
    if (from <=? to) && (from <? size) && (to <=? size) && negb (is_empty (line from)) && (from_pos <? length (line from))
       && ((to =? 0) || (negb (is_empty (line (to - 1))) && (to_pos <=? length (line (to - 1)))))
    then
      bindO (if 0 <? from_pos
             then bindO (sub_line (line from) from_pos (length (line from))) (fun _ => (h, [])) (fun l => let (h1, t) := of_line h l in Ok (h1, [t]))
             else Ok (h, []))
            (fun _ => (h, r)) (fun '(h1, head) =>
      let from1 := if 0 <? from_pos then from + 1 else from in
      bindO (if (0 <? to) && (to_pos <? length (line (to - 1)))
             then bindO (rsub2 h1 r from1 (to - 1)) (fun _ => (h, [])) (fun '(h2, mid) =>
                  bindO (sub_line (line (to - 1)) 0 to_pos) (fun _ => (h, [])) (fun l => let (h3, t) := of_line h2 l in Ok (h3, [mid; t])))
             else if from1 <? size then bindO (rsub2 h1 r from1 to) (fun _ => (h, [])) (fun '(h2, mid) => Ok (h2, [mid])) else Ok (h1, []))
            (fun _ => (h, r)) (fun '(h2, tail) =>
      rmerge h2 (head ++ tail) false false))
    else Throw (h, r)).

  (** route.hpp 829-904: [join] of the two routes *)
  Definition rjoin (h : heap) (a b : rroute) (retain_reversal : bool) : outcome (heap * rroute * rroute) :=
    seen h a (fun va => seen h b (fun vb =>
    let same := Ok (h, a, b) in
    if r_invalid a || r_invalid b then same
    else match rev (refs a), refs b, rev (lines va), lines vb with
    | ra :: ra_rest, rb :: rb_rest, a_back :: _, b_front :: _ =>
        if (length a_back <? 2) || (length b_front <? 2) then same
        else if retain_reversal && reverse_attaches eqp opposite a_back b_front then same
        else
          let b_line := tl b_front in
          let a_line := removelast a_back ++ firstn 1 b_line in
          let a_line1 := if length a_line <? 2 then [] else a_line in
          let b_line1 := if length b_line <? 2 then [] else b_line in
          (** 877-885: the lines at the joint are released if they belong to the routes *)
          let '(h1, own_a) := match rev (own a) with o :: rest => if o =? ra then (store h o None, rev rest) else (h, own a) | [] => (h, []) end in
          let '(h2, own_b) := match own b with o :: rest => if o =? rb then (store h1 o None, rest) else (h1, own b) | [] => (h1, []) end in
          (** 887-901 *)
          let '(h3, a1) := if is_empty a_line1 then (h2, mkR false own_a (rev ra_rest))
                           else (h2 ++ [Some a_line1], mkR false (own_a ++ [length h2]) (rev ra_rest ++ [length h2])) in
          let '(h4, b1) := if is_empty b_line1 then (h3, mkR false own_b rb_rest)
                           else (h3 ++ [Some b_line1], mkR false (length h3 :: own_b) (length h3 :: rb_rest)) in
          Ok (h4, a1, b1)
    | _, _, _, _ => same
    end)).

  (** route.hpp 684-707: [trim_merge]; the two parts are given up *)
  Definition rtrim (fuel : nat) (h : heap) (r other : rroute) : outcome (heap * rroute) :=
    seen h r (fun v => seen h other (fun w =>
    bindO (find_return_line eqp fuel v w) (fun _ => (h, r)) (fun s =>
    if some_parts s then
      bindO (match self_start s with Some (i, j) => rsub4 h r 0 0 (i + 1) (j + 1) | None => rsub4 h r 0 0 0 0 end) (fun x => x) (fun '(h1, a) =>
      bindO (match other_end s with Some (k, l) => rsub4 h1 other k l (length (refs other)) (length (last (lines w) [])) | None => Throw (h1, other) end)
            (fun x => x) (fun '(h2, b) =>
      seen h2 a (fun va => seen h2 b (fun vb =>
      bindO (match rev (lines va), lines vb with
             | x :: _, y :: _ => if reverse_attaches eqp opposite x y then rjoin h2 a b false else Ok (h2, a, b)
             | _, _ => Ok (h2, a, b)
             end) (fun '(h3, a1, b1) => (h3, a1)) (fun '(h3, a1, b1) =>
      rmerge h3 [a1; b1] false false)))))
    else Ok (h, rflagged true)))).
End Refs.
