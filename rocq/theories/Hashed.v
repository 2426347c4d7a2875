(** Model of the hashes and equalities of what the network is made of, and of the tables they are used in:
    /repo/src/library/include/geometry/point.hpp 29-57, geometry/network/node.hpp 138-155, geometry/network/edge.hpp 144-162,
    geometry/rich_type/rich_segment.hpp 198-212, geometry/rich_type/rich_line.hpp 516-547, and geometry/network/network_import.hpp 240-266
    with its set of edges.

    [boost::unordered_flat_map] and [boost::unordered_flat_set] are modelled by buckets: a key is only compared with the entries in its own
    bucket, and the number of buckets may change before any insertion.  The mixing of hashes and the hashes of numbers are arbitrary
    functions; coordinates have an equality of their own, for which NaN need not be equal to itself and two zeroes are equal. *)
From Coq Require Import NArith.
From Verif Require Import Base AdjList NetImport.
Local Open Scope nat_scope.

Section Hashes.
  Context {C : Type}.
  Variable eqc : C -> C -> bool.
  (** [boost::hash_combine(seed, value)] is [mix seed (hash value)] *)
  Variable mix : N -> N -> N.
  Variable hash_c : C -> N.
  Variable hash_id : nat -> N.

  Definition point2 := (C * C)%type.
  (** point.hpp 29-45 for two dimensions *)
  Definition hash_point (p : point2) : N := mix (mix 0%N (hash_c (fst p))) (hash_c (snd p)).
  (** equals.hpp 31-46 *)
  Definition eq_point (p q : point2) : bool := eqc (fst p) (fst q) && eqc (snd p) (snd q).
  (** rich_segment.hpp 198-201, 207-212 *)
  Definition hash_segment (s : point2 * point2) : N := mix (mix 0%N (hash_point (fst s))) (hash_point (snd s)).
  Definition eq_segment (s t : point2 * point2) : bool := eq_point (fst s) (fst t) && eq_point (snd s) (snd t).
  (** rich_line.hpp 541-547; the equality (516-531) is [eq_lines] of NetImport.v *)
  Definition hash_line (l : list point2) : N := fold_left (fun seed p => mix seed (hash_point p)) l 0%N.
  (** node.hpp 138-140, 150-155 *)
  Definition hash_node (n : nat * point2) : N := mix (mix 0%N (hash_id (fst n))) (hash_point (snd n)).
  Definition eq_node (a b : nat * point2) : bool := (fst a =? fst b) && eq_point (snd a) (snd b).
  (** edge.hpp 157-162; the equality (144-147) is [eq_road] of NetImport.v *)
  Definition hash_road (r : road point2) : N := mix (mix 0%N (hash_id (r_id r))) (hash_line (r_line r)).
End Hashes.

Section Table.
  Context {K V : Type}.
  Variable eqk : K -> K -> bool.
  Variable hash : K -> N.
  Definition table := list (list (K * V)).
  Definition bucket (n : nat) (k : K) : nat := N.to_nat (hash k mod N.of_nat n)%N.
  Fixpoint at_bucket (i : nat) (f : list (K * V) -> list (K * V)) (t : table) : table :=
    match t, i with
    | [], _ => []
    | b :: r, 0 => f b :: r
    | b :: r, S j => b :: at_bucket j f r
    end.
  Definition new_table (n : nat) : table := repeat [] (S n).
  Definition t_find (k : K) (t : table) : option V :=
    match nth_error t (bucket (length t) k) with
    | Some b => option_map snd (find (fun e => eqk (fst e) k) b)
    | None => None
    end.
  Definition t_put (x : K * V) (t : table) : table := at_bucket (bucket (length t) (fst x)) (cons x) t.
  (** all entries into a table of another size *)
  Definition t_rehash (n : nat) (t : table) : table := fold_left (fun t x => t_put x t) (concat t) (new_table n).
  (** [resize]: the new size, if the table is made bigger before the insertion *)
  Definition t_emplace (resize : option nat) (k : K) (v : V) (t : table) : table :=
    match t_find k t with
    | Some _ => t
    | None => t_put (k, v) (match resize with Some n => t_rehash n t | None => t end)
    end.
  Definition t_erase (k : K) (t : table) : table := at_bucket (bucket (length t) k) (filter (fun e => negb (eqk (fst e) k))) t.

  Inductive op := Find (k : K) | Emplace (resize : option nat) (k : K) (v : V) | Erase (k : K).
  Definition key_of (o : op) : K := match o with Find k => k | Emplace _ k _ => k | Erase k => k end.
  Definition t_step (t : table) (o : op) : table := match o with Find _ => t | Emplace n k v => t_emplace n k v t | Erase k => t_erase k t end.
  (** what is found under the key of each operation when it is called *)
  Fixpoint t_run (t : table) (ops : list op) : list (option V) :=
    match ops with [] => [] | o :: r => t_find (key_of o) t :: t_run (t_step t o) r end.
End Table.

Section Edges.
  Context {P : Type}.
  Variable eqp : P -> P -> bool.
  Variable hash : road P -> N.
  Variable resize : @table (road P) unit -> option nat.
  Local Notation graph := (graph (node P) (road P)).
  (** network_import.hpp 247-261 with the table; as in NetImport.v, [freed]: a removed edge cannot be read any more *)
  Fixpoint hashed_edges_loop (freed : bool) (g : graph) (es : list nat) (set : @table (road P) unit) (re : bool) : outcome (graph * bool) :=
    match es with
    | [] => Ok (g, re)
    | e :: r =>
      derefO (get_edge g e) (fun x =>
      match t_find (eq_road eqp) hash (e_data x) set with
      | Some _ => bindO (remove_edge Bidirectional false g e) (fun y => (y, re)) (fun g1 =>
          if freed then UB else hashed_edges_loop freed g1 r (t_emplace (eq_road eqp) hash (resize set) (e_data x) tt set) true)
      | None => hashed_edges_loop freed g r (t_emplace (eq_road eqp) hash (resize set) (e_data x) tt set) re
      end)
    end.
  (** 240-266 *)
  Definition hashed_duplicate_edges (freed : bool) (n : nat) (g : graph) : outcome graph :=
    bindO (hashed_edges_loop freed g (map e_id (g_es g)) (new_table n) false) fst (fun p =>
    Ok (if snd p then reindex (fst p) else fst p)).
End Edges.
