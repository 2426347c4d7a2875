(** Model of the filter strings of the manual OpenStreetMap importer,
    /repo/src/library/include/io/network/osm_manual_importer.hpp 44-105, and of the default filters,
    /repo/src/library/include/io/network/osm_importer.hpp 57-83.

    Strings are lists of characters.  [osmium::TagsFilter] (external) is modelled by its documented meaning: the
    result of the first rule that matches, otherwise the default. *)
From Coq Require Import Ascii String.
From Verif Require Import Base.
Local Open Scope nat_scope.
Local Open Scope list_scope.

Definition str := list ascii.
Definition of_string (s : string) : str := list_ascii_of_string s.

(** [std::string::find(c, pos)]; [None] is [npos] *)
Fixpoint find_from (c : ascii) (s : str) (here pos : nat) : option nat :=
  match s with
  | [] => None
  | a :: r => if (pos <=? here) && Ascii.eqb a c then Some here else find_from c r (S here) pos
  end.
Definition find_char (c : ascii) (s : str) (pos : nat) : option nat := find_from c s 0 pos.

(** [std::string::substr(pos, n)]; [None] for [n] is [npos]; the result [None] is [out_of_range] *)
Definition substr (s : str) (pos : nat) (n : option nat) : option str :=
  if length s <? pos then None
  else Some (match n with None => skipn pos s | Some k => firstn k (skipn pos s) end).

Fixpoint str_eqb (a b : str) : bool :=
  match a, b with
  | [], [] => true
  | x :: r, y :: t => Ascii.eqb x y && str_eqb r t
  | _, _ => false
  end.

(** osm_manual_importer.hpp 44-47 *)
Record rule := mkRule { r_result : bool; r_has_value : bool; r_key : str; r_value : str }.

(** osm_manual_importer.hpp 49-51 *)
Definition true_str : str := of_string "true".
Definition parse_bool (s : str) : bool := str_eqb s true_str.

(** osm_manual_importer.hpp 65-80: one token.  [comma_pos + 1] is 0 when there is no comma ([npos + 1] wraps), and
    [find('=', npos)] finds nothing. *)
Definition parse_token (token : str) : outcome rule :=
  let comma := find_char "," token 0 in
  match substr token 0 comma with
  | None => Throw (mkRule false true [] [])
  | Some default_str =>
    let result := parse_bool default_str in
    let equal := match comma with None => None | Some c => find_char "=" token c end in
    let after := match comma with None => 0 | Some c => c + 1 end in
    match equal with
    | Some e =>
      match substr token after (Some (e - after)), substr token (e + 1) None with
      | Some k, Some v => Ok (mkRule result true k v)
      | _, _ => Throw (mkRule false true [] [])
      end
    | None =>
      match substr token after None with
      | Some k => Ok (mkRule result false k [])
      | None => Throw (mkRule false true [] [])
      end
    end
  end.

(** osm_manual_importer.hpp 53-85; [fuel] bounds the number of tokens *)
Fixpoint parse_loop (fuel : nat) (s : str) (start : nat) : outcome (list rule) :=
  if start <? length s then
    match fuel with
    | 0 => Fuel
    | S f =>
      let end_ := match find_char "|" s start with None => length s | Some e => e end in
      match substr s start (Some (end_ - start)) with
      | None => Throw []
      | Some token =>
        bindO (parse_token token) (fun r => [r]) (fun r =>
        bindO (parse_loop f s (end_ + 1)) (fun rs => r :: rs) (fun rs => Ok (r :: rs)))
      end
    end
  else Ok [].
Definition parse_rules (s : str) : outcome (list rule) := parse_loop (length s) s 0.

(** osmium::TagsFilter: default result and rules; a rule without value matches every value of its key *)
Record tags_filter := mkFilter { f_default : bool; f_rules : list rule }.
Definition matches (r : rule) (k v : str) : bool := str_eqb (r_key r) k && (negb (r_has_value r) || str_eqb (r_value r) v).
Fixpoint first_match (rs : list rule) (d : bool) (k v : str) : bool :=
  match rs with
  | [] => d
  | r :: t => if matches r k v then r_result r else first_match t d k v
  end.
Definition apply_filter (f : tags_filter) (kv : str * str) : bool := first_match (f_rules f) (f_default f) (fst kv) (snd kv).

(** osm_manual_importer.hpp 87-105; a new filter's default is [false] *)
Fixpoint add_rules (i : nat) (rs : list rule) (f : tags_filter) : tags_filter :=
  match rs with
  | [] => f
  | r :: t =>
    add_rules (S i) t
      (if i =? 0 then mkFilter (r_result r) (f_rules f)
       else mkFilter (f_default f)
              (f_rules f ++ [if r_has_value r then mkRule (r_result r) true (r_key r) (r_value r)
                             else mkRule (r_result r) false (r_key r) []]))
  end.
Definition create_tags_filter (s : str) : outcome tags_filter :=
  match parse_rules s with
  | Ok rs => Ok (add_rules 0 rs (mkFilter false []))
  | Throw _ => Throw (mkFilter false [])
  | UB => UB
  | Fuel => Fuel
  end.

(** osm_importer.hpp 57-83: the default filters *)
Definition has_key (b : bool) (k : string) : rule := mkRule b false (of_string k) [].
Definition has_tag (b : bool) (k v : string) : rule := mkRule b true (of_string k) (of_string v).
Definition default_query : tags_filter := mkFilter false [has_key true "highway"].
Definition default_filter : tags_filter := mkFilter true [].
Definition default_oneway : tags_filter :=
  mkFilter false [has_tag true "oneway" "yes"; has_tag true "oneway" "true"; has_tag true "oneway" "1";
                  has_tag true "junction" "roundabout"; has_tag true "highway" "motorway"].
Definition default_oneway_reverse : tags_filter :=
  mkFilter false [has_tag true "oneway" "-1"; has_tag true "oneway" "reverse"].
