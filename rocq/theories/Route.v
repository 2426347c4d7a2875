(** Routes, [src/library/include/geometry/network/route/route.hpp] and [common.hpp].

    A route is the list of the point lists of its rich lines and the invalid flag; which lines it owns and which it only refers to is
    the subject of [RouteRefs.v]. Lengths are an arbitrary type with addition; how the length of one line is found is modelled in
    [RichLine.v] ([plain_length]). Of [_reverse_attaches] the angle comparison is the oracle [opposite]. [std::size_t] positions not
    set, [numeric_limits::max()], are [None]. *)
From Verif Require Import Base RichLine.

Section Route.
  Context {P L : Type}.
  Variable eqp : P -> P -> bool.
  Variable zeroL : L.
  Variable addL : L -> L -> L.
  Variable dist : P -> P -> L.
  Variable opposite : P * P -> P * P -> bool.

  (** route.hpp 954-956: [_rich_lines], [_is_invalid] *)
  Record route := mkRoute { invalid : bool; lines : list (list P) }.
  (** route.hpp 60-63: [route(bool)] *)
  Definition flagged (b : bool) : route := mkRoute b [].
  (** route.hpp 65-88: from a line, from lines *)
  Definition of_lines (ls : list (list P)) : route := mkRoute false ls.

  Definition is_empty (l : list P) : bool := match l with [] => true | _ => false end.
  Definition front (l : list P) : option P := hd_error l.
  Definition back (l : list P) : option P := hd_error (rev l).

  (** route.hpp 130-152: [is_connected] *)
  Fixpoint connected_loop (ls : list (list P)) : bool :=
    match ls with
    | a :: ((b :: _) as r) => (is_empty a || is_empty b || attaches eqp a b) && connected_loop r
    | _ => true
    end.
  Definition is_connected (r : route) : bool := connected_loop (lines r).

  (** whether a line has a length: rich_line.hpp, as [plain_length] raises or not *)
  Definition line_has_length (l : list P) : bool := match plain_length eqp dist addL zeroL l with Ok _ => true | _ => false end.
  Definition add_line (l : list P) (acc : bool * L) : bool * L :=
    match plain_length eqp dist addL zeroL l with Ok x => (true, addL (snd acc) x) | _ => acc end.

  (** route.hpp 154-177: [has_length] *)
  Fixpoint has_length_loop (ls : list (list P)) : bool :=
    match ls with
    | a :: ((b :: r') as r) =>
        if line_has_length a then true else if match r' with [] => line_has_length b | _ => false end then true else has_length_loop r
    | _ => false
    end.
  Definition has_length (r : route) : bool :=
    match lines r with [] => false | [l] => line_has_length l | ls => has_length_loop ls end.

  (** route.hpp 179-213: [length]; in the loop the current length is added, in its last round also the next one *)
  Fixpoint length_loop (ls : list (list P)) (acc : bool * L) : bool * L :=
    match ls with
    | a :: ((b :: r') as r) =>
        let acc1 := add_line a acc in
        length_loop r (match r' with [] => add_line b acc1 | _ => acc1 end)
    | _ => acc
    end.
  Definition route_length (r : route) : outcome L :=
    match lines r with
    | [] => Throw zeroL
    | [l] => match plain_length eqp dist addL zeroL l with Ok x => Ok x | _ => Throw zeroL end
    | ls => let (has, x) := length_loop ls (false, zeroL) in if has then Ok x else Throw zeroL
    end.

  (** route.hpp 426-445: [attaches] *)
  Definition route_attaches (a b : route) : bool :=
    if invalid a || invalid b then false
    else match rev (lines a), lines b with
    | prev :: _, next :: _ =>
        match back prev, front next with
        | Some p, Some q => eqp p q
        | _, _ => true
        end
    | _, _ => true
    end.

  (** route.hpp 447-469: [mergeable] *)
  Definition moving (l : list P) : bool := existsb (fun s => negb (eqp (fst s) (snd s))) (segments l).
  Definition mergeable (r : route) : bool :=
    if invalid r || match lines r with [] => true | _ => false end then false
    else if forallb (fun l => length l <? 2) (lines r) then false
    else existsb moving (lines r).

  (** route.hpp 734-827: [merge]; [Throw]: route_merge_exception *)
  Definition gap (acc : list (list P)) (r : route) : option (P * P) :=
    match rev acc, lines r with
    | prev :: _, next :: _ =>
        match back prev, front next with
        | Some p, Some q => if eqp p q then None else Some (p, q)
        | _, _ => None
        end
    | _, _ => None
    end.
  Definition merge_one (connect non_connect_except : bool) (acc : list (list P)) (r : route) : outcome (list (list P)) :=
    if mergeable r then
      match gap acc r with
      | Some (p, q) => if connect then Ok (acc ++ [[p; q]] ++ lines r) else if non_connect_except then Throw acc else Ok (acc ++ lines r)
      | None => Ok (acc ++ lines r)
      end
    else Ok acc.
  Definition merge (routes : list route) (connect non_connect_except : bool) : outcome route :=
    match routes with
    | [] => Ok (flagged true)
    | _ => if forallb invalid routes then Ok (flagged true)
           else bindO (foldO (merge_one connect non_connect_except) routes []) of_lines (fun ls => Ok (of_lines ls))
    end.

  (** route.hpp 471-516: [sub_route(from, to)]; [Throw]: out_of_range *)
  Definition sub_route2 (r : route) (from to : nat) : outcome route :=
    if (from <=? to) && (from <? length (lines r)) && (to <=? length (lines r)) then Ok (of_lines (firstn (to - from) (skipn from (lines r))))
    else Throw r.

  (** route.hpp 518-560: [sub_route(from, from_pos, to, to_pos)] *)
  Definition sub_route4 (r : route) (from from_pos to to_pos : nat) : outcome route :=
    let size := length (lines r) in
    let line i := nth i (lines r) [] in
    if (from <=? to) && (from <? size) && (to <=? size) && negb (is_empty (line from)) && (from_pos <? length (line from))
       && ((to =? 0) || (negb (is_empty (line (to - 1))) && (to_pos <=? length (line (to - 1)))))
    then
      bindO (if 0 <? from_pos then bindO (sub_line (line from) from_pos (length (line from))) (fun _ => []) (fun l => Ok [of_lines [l]]) else Ok [])
            (fun _ => r) (fun head =>
      let from1 := if 0 <? from_pos then from + 1 else from in
      bindO (if (0 <? to) && (to_pos <? length (line (to - 1)))
             then bindO (sub_route2 r from1 (to - 1)) (fun _ => []) (fun mid =>
                  bindO (sub_line (line (to - 1)) 0 to_pos) (fun _ => []) (fun l => Ok [mid; of_lines [l]]))
             else if from1 <? size then bindO (sub_route2 r from1 to) (fun _ => []) (fun mid => Ok [mid]) else Ok [])
            (fun _ => r) (fun tail =>
      merge (head ++ tail) false false))
    else Throw r.

  (** common.hpp 26-50: [route_return_line_parts]; [position]s are line and index, both set or both unset *)
  Record parts := mkParts { self_start : option (nat * nat); self_end : option (nat * nat);
                            other_start : option (nat * nat); other_end : option (nat * nat) }.
  Definition no_parts : parts := mkParts None None None None.

  (** route.hpp 577-583 and 617-623: going back to the last position of a line that is not empty *)
  Fixpoint skip_back (ls : list (list P)) (i : nat) : option (nat * nat) :=
    if is_empty (nth i ls []) then match i with 0 => None | S j => skip_back ls j end
    else Some (i, length (nth i ls []) - 1).
  (** route.hpp 610-625: the position before *)
  Definition prev_pos (ls : list (list P)) (pos : nat * nat) : option (nat * nat) :=
    let (i, j) := pos in
    if 0 <? j then Some (i, j - 1) else match i with 0 => None | S i' => skip_back ls i' end.
  (** route.hpp 585-591 and 641-646: going on to the first position of a line that is not empty *)
  Fixpoint skip_forward (ls : list (list P)) (k : nat) : option (nat * nat) :=
    match ls with
    | [] => None
    | l :: r => if is_empty l then skip_forward r (S k) else Some (k, 0)
    end.
  (** route.hpp 637-649: the position after *)
  Definition next_pos (ls : list (list P)) (pos : nat * nat) : option (nat * nat) :=
    let (k, l) := pos in
    if l <? length (nth k ls []) - 1 then Some (k, l + 1) else skip_forward (skipn (S k) ls) (S k).

  (** [_at(_rich_lines[i], j)]; outside of the lines [at] raises or reading is undefined *)
  Definition at_pos (ls : list (list P)) (pos : nat * nat) : option P :=
    match nth_error ls (fst pos) with None => None | Some l => nth_error l (snd pos) end.

  (** route.hpp 605-628 and 631-654: the do-while loops; the result is the last position with the point [p] and the first one with
      another point, if there is one *)
  Fixpoint run (step : nat * nat -> option (nat * nat)) (ls : list (list P)) (fuel : nat) (pos : nat * nat) (p : P) : outcome (nat * nat * option (nat * nat)) :=
    match fuel with
    | 0 => Fuel
    | S f => match step pos with
             | None => Ok (pos, None)
             | Some q => derefO (at_pos ls q) (fun x => if eqp x p then run step ls f q p else Ok (pos, Some q))
             end
    end.

  (** route.hpp 598-656: the outer loop; [a], [b] are the current positions *)
  Fixpoint traverse (la lb : list (list P)) (fuel : nat) (a b : nat * nat) (res : parts) : outcome parts :=
    match fuel with
    | 0 => Fuel
    | S f =>
        derefO (at_pos la a) (fun pa => derefO (at_pos lb b) (fun pb =>
        if eqp pa pb then
          bindO (run (prev_pos la) la f a pa) (fun _ => res) (fun '(s, na) =>
          match na with
          | None => Ok (mkParts (Some s) (self_end res) (other_start res) (Some b))
          | Some a' =>
              bindO (run (next_pos lb) lb f b pb) (fun _ => res) (fun '(e, nb) =>
              let res1 := mkParts (Some s) (self_end res) (other_start res) (Some e) in
              match nb with
              | None => Ok res1
              | Some b' => traverse la lb f a' b' res1
              end)
          end)
        else Ok res))
    end.

  (** route.hpp 562-660: [find_return_line] *)
  Definition find_return_line (fuel : nat) (a b : route) : outcome parts :=
    match lines a, lines b with
    | [], _ | _, [] => Ok no_parts
    | _, _ =>
        if negb (route_attaches a b) then Ok no_parts
        else match skip_back (lines a) (length (lines a) - 1), skip_forward (lines b) 0 with
             | Some i, Some k => traverse (lines a) (lines b) fuel i k (mkParts None (Some i) (Some k) None)
             | _, _ => Ok no_parts
             end
    end.
  Definition some_parts (p : parts) : bool :=
    match p with mkParts None None None None => false | _ => true end.

  (** route.hpp 1071-1082: [_reverse_attaches] *)
  Definition last_segment (l : list P) : option (P * P) := match rev l with q :: p :: _ => Some (p, q) | _ => None end.
  Definition first_segment (l : list P) : option (P * P) := match l with p :: q :: _ => Some (p, q) | _ => None end.
  Definition reverse_attaches (a b : list P) : bool :=
    match last_segment a, first_segment b with
    | Some s, Some t => negb (eqp (fst s) (snd s)) && negb (eqp (fst t) (snd t)) && opposite s t
    | _, _ => false
    end.

  (** route.hpp 829-904: [join]; the lines at the joint are replaced *)
  Definition join (a b : route) (retain_reversal : bool) : route * route :=
    if invalid a || invalid b then (a, b)
    else match rev (lines a), lines b with
    | a_back :: a_rest, b_front :: b_rest =>
        if (length a_back <? 2) || (length b_front <? 2) then (a, b)
        else if retain_reversal && reverse_attaches a_back b_front then (a, b)
        else
          let b_line := tl b_front in
          let a_line := removelast a_back ++ firstn 1 b_line in
          let a_line1 := if length a_line <? 2 then [] else a_line in
          let b_line1 := if length b_line <? 2 then [] else b_line in
          (mkRoute (invalid a) (rev a_rest ++ (if is_empty a_line1 then [] else [a_line1])),
           mkRoute (invalid b) ((if is_empty b_line1 then [] else [b_line1]) ++ b_rest))
    | _, _ => (a, b)
    end.

  (** route.hpp 684-707: [trim_merge]; a position not set is the greatest number, one more is 0 *)
  Definition trim_merge (fuel : nat) (r other : route) : outcome route :=
    bindO (find_return_line fuel r other) (fun _ => r) (fun s =>
    if some_parts s then
      bindO (match self_start s with Some (i, j) => sub_route4 r 0 0 (i + 1) (j + 1) | None => sub_route4 r 0 0 0 0 end) (fun x => x) (fun a =>
      bindO (match other_end s with Some (k, l) => sub_route4 other k l (length (lines other)) (length (last (lines other) [])) | None => Throw other end)
            (fun x => x) (fun b =>
      let '(a1, b1) := match rev (lines a), lines b with
                       | x :: _, y :: _ => if reverse_attaches x y then join a b false else (a, b)
                       | _, _ => (a, b)
                       end in
      merge [a1; b1] false false))
    else Ok (flagged true)).

  (** route.hpp 1018-1041: [_get_rich_lines]; [rich_line::attaches] *)
  Fixpoint get_rich_lines_loop (attach_gaps : bool) (ls acc : list (list P)) : list (list P) :=
    match ls with
    | [] => acc
    | l :: r =>
        if is_empty l then get_rich_lines_loop attach_gaps r acc
        else match rev acc with
             | prev :: _ =>
                 if attach_gaps && negb (attaches eqp prev l)
                 then match back prev, front l with
                      | Some p, Some q => get_rich_lines_loop attach_gaps r (acc ++ [[p; q]; l])
                      | _, _ => get_rich_lines_loop attach_gaps r (acc ++ [l])
                      end
                 else get_rich_lines_loop attach_gaps r (acc ++ [l])
             | [] => get_rich_lines_loop attach_gaps r (acc ++ [l])
             end
    end.
  (** route.hpp 709-714: [get_rich_line] *)
  Definition get_rich_line (r : route) : outcome (list P) := plain_merge eqp [] (get_rich_lines_loop true (lines r) []).

  (** route.hpp 662-682: [extract_return_line] *)
  Definition extract_return_line (fuel : nat) (r other : route) (from_self : bool) : outcome (list P) :=
    bindO (find_return_line fuel r other) (fun _ => []) (fun s =>
    if some_parts s then
      if from_self then
        match self_start s, self_end s with
        | Some (i, j), Some (i', j') => bindO (sub_route4 r i j (i' + 1) (j' + 1)) (fun _ => []) get_rich_line
        | _, _ => Throw []
        end
      else
        match other_start s, other_end s with
        | Some (k, l), Some (k', l') => bindO (sub_route4 other k l (k' + 1) (l' + 1)) (fun _ => []) get_rich_line
        | Some (k, l), None => bindO (sub_route4 other k l 0 0) (fun _ => []) get_rich_line
        | _, _ => Throw []
        end
    else Ok []).

  (** route.hpp 1043-1069: [_get_multi_rich_lines], the groups of attached lines *)
  Fixpoint groups_loop (ls group : list (list P)) (acc : list (list (list P))) : list (list (list P)) :=
    match ls with
    | [] => acc ++ [group]
    | l :: r =>
        if is_empty l then groups_loop r group acc
        else match rev group with
             | prev :: _ => if attaches eqp prev l then groups_loop r (group ++ [l]) acc else groups_loop r [l] (acc ++ [group])
             | [] => groups_loop r (group ++ [l]) acc
             end
    end.
  (** route.hpp 716-731: [get_multi_rich_line] *)
  Definition get_multi_rich_line (r : route) : outcome (list (list P)) := mapO (plain_merge eqp []) (groups_loop (lines r) [] []).
End Route.
