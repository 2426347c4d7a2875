(** Lines made of several parts: geometry/rich_type/{multi_rich_line,multi_rich_line_data,eager_multi_rich_line,
    lazy_multi_rich_line}.hpp (under src/library/include/).  [multi_has_length], [multi_length], [multi_empty],
    [multi_azimuth] and [multi_merge] are in RichLine.v.

    The parts are plain lines: the attributes of a part are those of rich_line.hpp; that the cached lines report the same
    is property C22.  Capacity, allocators and serialization are left out. *)
From Verif Require Import Base ListAux Simplify RichLine.
Local Open Scope nat_scope.

Section Multi.
  Context {P L A : Type}.
  Variable eqp : P -> P -> bool.
  Variable dist : P -> P -> L.
  Variable azi : P -> P -> A.
  Variable addL : L -> L -> L.
  Variable zeroL : L.
  Variable addA : A -> A -> A.
  Variable zeroA : A.
  Variable diffA : A -> A -> A.
  Variable absA : A -> A.

  (** rich_line.hpp 186-196 with 272-283: [has_directions] of one part *)
  Fixpoint has_directions_loop (line : list P) (todo pos : nat) : bool :=
    match todo with
    | 0 => false
    | S n => match plain_direction eqp azi diffA line pos with
             | Ok (Val _) => true
             | _ => has_directions_loop line n (pos + 1)
             end
    end.
  Definition plain_has_directions (line : list P) : bool := has_directions_loop line (length line - 2) 0.

  (** multi_rich_line.hpp 163-176: [has_azimuth] *)
  Definition multi_has_azimuth (ls : list (list P)) : outcome bool :=
    if multi_empty ls then Ok false
    else match ls with
         | [l] => Ok (plain_has_azimuth eqp l)
         | f :: _ => match f, rev (last ls []) with
                     | a :: _, b :: _ => Ok (negb (eqp a b))
                     | _, _ => UB
                     end
         | [] => Ok false
         end.

  (** the change of direction between two neighbouring parts, multi_rich_line.hpp 208-216, 238-246, 272-280 and
      multi_rich_line_data.hpp 199-207; [back()] or [front()] of an empty part is undefined *)
  Definition joint (a b : list P) : outcome (option A) :=
    match rev a, b with
    | p :: a', q :: b' =>
        if eqp p q then
          match a', b' with
          | p0 :: _, q1 :: _ => if eqp p0 p || eqp q q1 then Ok None else Ok (Some (diffA (azi p0 p) (azi q q1)))
          | _, _ => Ok None
          end
        else Ok None
    | _, _ => UB
    end.

  (** multi_rich_line.hpp 197-221: [has_directions] *)
  Fixpoint multi_has_directions_loop (ls : list (list P)) : outcome bool :=
    match ls with
    | [] => Ok false
    | l :: r =>
        if plain_has_directions l then Ok true
        else match r with
             | [] => Ok false
             | n :: _ => match joint l n with
                         | Ok (Some _) => Ok true
                         | Ok None => multi_has_directions_loop r
                         | _ => UB
                         end
             end
    end.
  Definition multi_has_directions (ls : list (list P)) : outcome bool :=
    if multi_empty ls then Ok false
    else match ls with
         | [l] => Ok (plain_has_directions l)
         | _ => multi_has_directions_loop ls
         end.

  (** multi_rich_line.hpp 223-260, 262-301: [directions], [absolute_directions] ([g] is the identity or fabs) *)
  Fixpoint multi_directions_loop (g : A -> A) (ls : list (list P)) (has : bool) (acc : A) : outcome A :=
    match ls with
    | [] => if has then Ok acc else Throw zeroA
    | l :: r =>
        bindO (if plain_has_directions l
               then bindO (plain_directions eqp azi addA zeroA diffA g l) (fun x => (has, x)) (fun v => Ok (true, addA acc v))
               else Ok (has, acc))
          snd (fun st =>
        match r with
        | [] => multi_directions_loop g r (fst st) (snd st)
        | n :: _ => match joint l n with
                    | Ok (Some d) => multi_directions_loop g r true (addA (snd st) (g d))
                    | Ok None => multi_directions_loop g r (fst st) (snd st)
                    | _ => UB
                    end
        end)
    end.
  Definition multi_directions (g : A -> A) (ls : list (list P)) : outcome A :=
    if multi_empty ls then Throw zeroA
    else match ls with
         | [l] => if plain_has_directions l then plain_directions eqp azi addA zeroA diffA g l else Throw zeroA
         | _ => multi_directions_loop g ls false zeroA
         end.

  (** multi_rich_line.hpp 371-377: [sizes]; 343-352: [multi_line] *)
  Definition sizes (ls : list (list P)) : nat := fold_left (fun n l => n + length l) ls 0.
  Definition multi_line (ls : list (list P)) : list (list P) := filter (fun l => match l with [] => false | _ => true end) ls.

  (** *** multi_rich_line_data.hpp: the cached values.  [d_lens] are the lengths of the parts, [d_azs] the changes of
      direction between the parts ("used for directions between lines here"). *)
  Notation data := (@data L A).

  (** multi_rich_line_data.hpp 152-167: [_compute_lengths] *)
  Definition m_lengths (ls : list (list P)) (l : list (cv L)) : list (cv L) :=
    match l with
    | [] => if multi_empty ls then []
            else map (fun x => if plain_has_length eqp x
                               then match plain_length eqp dist addL zeroL x with Ok v => Val v | _ => Invalid end
                               else Invalid) ls
    | _ => l
    end.
  (** multi_rich_line_data.hpp 130-150: [_compute_length] *)
  Definition m_compute_length (ls : list (list P)) (d : data) : data :=
    if initialized (d_len d) then d
    else let lens := m_lengths ls (d_lens d) in
         mkData (sum_valid addL lens false zeroL) (d_az d) (d_dirs d) (d_abs d) lens (d_azs d).

  (** multi_rich_line_data.hpp 169-188: [_compute_azimuth] *)
  Definition m_azimuth (ls : list (list P)) : outcome (cv A) :=
    if multi_empty ls then Ok Invalid
    else match ls with
         | [l] => if plain_has_azimuth eqp l
                  then match plain_azimuth eqp azi zeroA l with Ok v => Ok (Val v) | _ => Ok Invalid end
                  else Ok Invalid
         | f :: _ => match f, rev (last ls []) with
                     | a :: _, b :: _ => if eqp a b then Ok Invalid else Ok (Val (azi a b))
                     | _, _ => UB
                     end
         | [] => Ok Invalid
         end.
  Definition m_compute_azimuth (ls : list (list P)) (d : data) : outcome data :=
    if initialized (d_az d) then Ok d
    else bindO (m_azimuth ls) (fun _ => d) (fun a => Ok (mkData (d_len d) a (d_dirs d) (d_abs d) (d_lens d) (d_azs d))).

  (** multi_rich_line_data.hpp 190-213: [_compute_azimuths] *)
  Fixpoint m_joints (ls : list (list P)) : outcome (list (cv A)) :=
    match ls with
    | l :: ((n :: _) as r) =>
        match joint l n with
        | Ok d => bindO (m_joints r) (fun js => js)
                    (fun js => Ok ((match d with Some v => Val v | None => Invalid end) :: js))
        | _ => UB
        end
    | _ => Ok []
    end.
  (** the loop of multi_rich_line_data.hpp 229-243; both sums run together there *)
  Fixpoint m_sum (g : A -> A) (ls : list (list P)) (js : list (cv A)) (has : bool) (acc : A) : cv A :=
    match ls with
    | [] => if has then Val acc else Invalid
    | l :: r =>
        let st := if plain_has_directions l
                  then match plain_directions eqp azi addA zeroA diffA g l with Ok v => (true, addA acc v) | _ => (has, acc) end
                  else (has, acc) in
        match js with
        | Val d :: js' => m_sum g r js' true (addA (snd st) (g d))
        | _ :: js' => m_sum g r js' (fst st) (snd st)
        | [] => m_sum g r [] (fst st) (snd st)
        end
    end.
  (** multi_rich_line_data.hpp 215-251: [_compute_directions] *)
  Definition m_compute_directions (ls : list (list P)) (d : data) : outcome data :=
    if initialized (d_dirs d) && initialized (d_abs d) then Ok d
    else bindO (match d_azs d with [] => m_joints ls | js => Ok js end) (fun _ => d) (fun js =>
      if multi_empty ls then Ok (mkData (d_len d) (d_az d) Invalid Invalid (d_lens d) js)
      else Ok (mkData (d_len d) (d_az d) (m_sum (fun x => x) ls js false zeroA) (m_sum absA ls js false zeroA) (d_lens d) js)).
  (** multi_rich_line_data.hpp 253-257: [_compute] *)
  Definition m_compute (ls : list (list P)) (d : data) : outcome data :=
    bindO (m_compute_azimuth ls (m_compute_length ls d)) (fun x => x) (fun d2 => m_compute_directions ls d2).

  Record multi : Type := mkMulti { m_data : data; m_lines : list (list P) }.
  Definition on_lines (ls : list (list P)) (x : outcome data) : outcome multi :=
    bindO x (fun d => mkMulti d ls) (fun d => Ok (mkMulti d ls)).

  (** eager_multi_rich_line.hpp 58-104: default, from lines *)
  Definition eager_multi_default : multi := mkMulti data0 [].
  Definition eager_multi_of (ls : list (list P)) : outcome multi := on_lines ls (m_compute ls data0).
  (** eager_multi_rich_line.hpp 130-135: [operator=(const multi_rich_line &)] *)
  Definition eager_multi_assign (m : multi) (ls : list (list P)) : outcome multi := on_lines ls (m_compute ls (m_data m)).
  (** multi_rich_line.hpp 393-421 through an eager or lazy multi line: the cached values are not touched *)
  Definition cached_multi_merge (m : multi) (lines : list (list P)) : outcome multi :=
    bindO (multi_merge eqp (m_lines m) lines) (fun l => mkMulti (m_data m) l) (fun l => Ok (mkMulti (m_data m) l)).
  (** lazy_multi_rich_line.hpp 58-94 and 139-172: construction, and the getters that compute *)
  Definition lazy_multi_of (ls : list (list P)) : multi := mkMulti data0 ls.
  Definition lazy_multi_length (m : multi) : multi := mkMulti (m_compute_length (m_lines m) (m_data m)) (m_lines m).
  Definition lazy_multi_azimuth (m : multi) : outcome multi := on_lines (m_lines m) (m_compute_azimuth (m_lines m) (m_data m)).
  Definition lazy_multi_directions (m : multi) : outcome multi := on_lines (m_lines m) (m_compute_directions (m_lines m) (m_data m)).
End Multi.
Arguments mkMulti {P L A} _ _.
