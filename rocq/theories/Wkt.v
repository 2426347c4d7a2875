(** The text of points and lines: how results are written as well-known text and how the track importer reads them again.
    geometry/algorithm/wkt.hpp 26-29 ([to_wkt] with twelve digits), geometry/rich_type/multi_rich_line.hpp 366-392 and
    422-430 ([multi_line], [empty], [wkt]), io/track/csv_track_importer.hpp 140-188 (the reader), all under
    src/library/include/.

    [boost::geometry::to_wkt] and [read_wkt] are no part of the project; they are modelled here by what they write and
    accept: the writer prints the tag, parentheses, commas and coordinates separated by one blank, the reader splits the
    text at blanks and keeps commas and parentheses, takes points until a closing parenthesis and fills missing
    coordinates with zero.  Coordinates are rationals; infinite values and NaN, a third coordinate and the text that
    [read_wkt] puts into its exceptions are left out.  How the digits of one number are laid out (decimal point or
    exponent) is the variable [text] with the contract [spells]. *)
From Coq Require Import ZArith QArith Qround Qabs Qpower Ascii String.
From Verif Require Import Base ListAux.
Local Open Scope Z_scope.

(** *** Twelve significant digits: [std::setprecision(12)] on a stream, wkt.hpp 27-28 *)

(** one less than the number of decimal digits of a positive number *)
Fixpoint ndig (fuel : nat) (n : Z) : Z :=
  match fuel with
  | O => 0
  | S f => if n <? 10 then 0 else 1 + ndig f (n / 10)
  end.
Definition log10 (n : Z) : Z := ndig (Z.to_nat (Z.log2 n)) n.
(** the decimal exponent of a positive rational *)
Definition expo (x : Q) : Z :=
  let N := Z.log2_up (QDen x) in
  log10 (Qnum x * 10 ^ N / QDen x) - N.
(** the nearest integer, the even one of two *)
Definition rhe (q : Q) : Z :=
  let f := Qfloor q in
  match (q - inject_Z f ?= 1 # 2)%Q with
  | Lt => f
  | Gt => f + 1
  | Eq => if Z.even f then f else f + 1
  end.
Definition ten (k : Z) : Q := Qpower (10 # 1) k.
(** the decimal mantissa of twelve digits and the power of ten it is multiplied by; the mantissa 10^12 is one with the
    next exponent *)
Definition digits_pos (x : Q) : Z * Z :=
  let e := expo x in
  let m := rhe (x * ten (11 - e))%Q in
  if m =? 10 ^ 12 then (10 ^ 11, e - 10) else (m, e - 11).
Definition digits (x : Q) : Z * Z :=
  if Qnum x =? 0 then (0, 0)
  else let '(m, k) := digits_pos (Qabs x) in (Z.sgn (Qnum x) * m, k).
Definition value (d : Z * Z) : Q := (inject_Z (fst d) * ten (snd d))%Q.
(** the number that is written for [x] *)
Definition r12 (x : Q) : Q := value (digits x).

(** *** Texts *)
Local Open Scope string_scope.

(** [boost::to_upper], csv_track_importer.hpp 147 *)
Definition up (c : ascii) : ascii :=
  let n := nat_of_ascii c in
  if ((97 <=? n) && (n <=? 122))%nat then ascii_of_nat (n - 32) else c.
Fixpoint upper (s : string) : string :=
  match s with
  | EmptyString => EmptyString
  | String c r => String (up c) (upper r)
  end.

Inductive result (A : Type) := Got (a : A) | Failed | NoFuel.
Arguments Got {A} a.
Arguments Failed {A}.
Arguments NoFuel {A}.

Inductive token := Word (s : string) | Open | Close | Comma.
Definition flush (w : string) (r : list token) : list token :=
  match w with EmptyString => r | _ => Word w :: r end.
(** the tokenizer of [read_wkt]: blanks are dropped, commas and parentheses are tokens; [w] is the word begun *)
Fixpoint tokens (s : string) (w : string) : list token :=
  match s with
  | EmptyString => flush w []
  | String c r =>
      if Ascii.eqb c " " then flush w (tokens r "")
      else if Ascii.eqb c "(" then flush w (Open :: tokens r "")
      else if Ascii.eqb c ")" then flush w (Close :: tokens r "")
      else if Ascii.eqb c "," then flush w (Comma :: tokens r "")
      else tokens r (w ++ String c "")
  end.

Section Wkt.
  Context {N : Type}.
  (** the text of a coordinate, and [boost::lexical_cast] of it; [None]: it throws *)
  Variable show : N -> string.
  Variable num : string -> option N.
  Variable zero : N.

  Local Notation point := (N * N)%type.

  (** wkt.hpp 26-29 for points and lines *)
  Definition point_text (p : point) : string := show (fst p) ++ " " ++ show (snd p).
  Fixpoint commas (l : list string) : string :=
    match l with
    | [] => ""
    | [s] => s
    | s :: r => s ++ "," ++ commas r
    end.
  Definition line_body (l : list point) : string := "(" ++ commas (map point_text l) ++ ")".
  Definition point_wkt (p : point) : string := "POINT(" ++ point_text p ++ ")".
  Definition line_wkt (l : list point) : string := "LINESTRING" ++ line_body l.
  Definition multi_line_wkt (ls : list (list point)) : string := "MULTILINESTRING(" ++ commas (map line_body ls) ++ ")".

  Definition line_empty (l : list point) : bool := match l with [] => true | _ => false end.
  (** multi_rich_line.hpp 366-375: [multi_line] leaves out the empty parts *)
  Definition kept (ls : list (list point)) : list (list point) := filter (fun l => negb (line_empty l)) ls.
  (** multi_rich_line.hpp 377-388: [empty] *)
  Definition parts_empty (ls : list (list point)) : bool := forallb line_empty ls.
  (** multi_rich_line.hpp 422-430: [wkt] *)
  Definition parts_wkt (ls : list (list point)) : string :=
    if parts_empty ls then line_wkt []
    else if (List.length ls <=? 1)%nat then line_wkt (hd [] ls)
    else multi_line_wkt (kept ls).

  (** *** [read_wkt]: what is read, or the exception [read_wkt_exception]; [NoFuel] is an artefact of the model that never happens *)
  (** one coordinate: nothing is taken before a comma, a closing parenthesis or the end *)
  Definition coordinate (ts : list token) : result (N * list token)%type :=
    match ts with
    | Word s :: r => match num s with Some x => Got (x, r) | None => Failed end
    | Open :: _ => Failed
    | _ => Got (zero, ts)
    end.
  Definition one_point (ts : list token) : result (point * list token)%type :=
    match coordinate ts with
    | Got (x, r) => match coordinate r with
                   | Got (y, r') => Got ((x, y), r')
                   | _ => Failed
                   end
    | _ => Failed
    end.
  Definition skip_comma (ts : list token) : list token := match ts with Comma :: r => r | _ => ts end.
  (** the points up to and with the closing parenthesis *)
  Fixpoint points_loop (fuel : nat) (ts : list token) (acc : list point) : result (list point * list token)%type :=
    match ts with
    | [] => Failed
    | Close :: r => Got (acc, r)
    | _ => match fuel with
           | O => NoFuel
           | S f => match one_point ts with
                    | Got (p, r) => points_loop f (skip_comma r) (acc ++ [p])%list
                    | _ => Failed
                    end
           end
    end.
  Definition points_of (ts : list token) : result (list point * list token)%type :=
    match ts with
    | Open :: r => points_loop (List.length r) r []
    | _ => Failed
    end.
  Fixpoint lines_loop (fuel : nat) (ts : list token) (acc : list (list point))
    : result (list (list point) * list token)%type :=
    match ts with
    | [] => Failed
    | Close :: r => Got (acc, r)
    | _ => match fuel with
           | O => NoFuel
           | S f => match points_of ts with
                    | Got (l, r) => lines_loop f (skip_comma r) (acc ++ [l])%list
                    | NoFuel => NoFuel
                    | _ => Failed
                    end
           end
    end.
  (** no token may be left *)
  Definition ended {A} (x : result (A * list token)%type) : result A :=
    match x with
    | Got (a, []) => Got a
    | NoFuel => NoFuel
    | _ => Failed
    end.
  Definition read_point (s : string) : result point :=
    match tokens s "" with
    | Word "POINT" :: Open :: r =>
        ended (match one_point r with Got (p, Close :: r') => Got (p, r') | _ => Failed end)
    | _ => Failed
    end.
  Definition read_line (s : string) : result (list point) :=
    match tokens s "" with
    | [Word "LINESTRING"; Word "EMPTY"] => Got []
    | Word "LINESTRING" :: r => ended (points_of r)
    | _ => Failed
    end.
  Definition read_multi (s : string) : result (list (list point)) :=
    match tokens s "" with
    | [Word "MULTILINESTRING"; Word "EMPTY"] => Got []
    | Word "MULTILINESTRING" :: Open :: r => ended (lines_loop (List.length r) r [])
    | _ => Failed
    end.

  (** csv_track_importer.hpp 147-188: what a text in the geometry column is taken for *)
  Inductive geometry := APoint (p : point) | Parts (ls : list (list point)) | Skipped.
  Definition read_text (text : string) : result geometry :=
    let s := upper text in
    let conv {A} (x : result A) (k : A -> geometry) : result geometry :=
      match x with Got a => Got (k a) | Failed => Failed | NoFuel => NoFuel end in
    if prefix "POINT" s then conv (read_point s) APoint
    else if prefix "LINESTRING" s then conv (read_line s) (fun l => Parts [l])
    else if prefix "MULTILINESTRING" s then conv (read_multi s) Parts
    else if prefix "GEOMETRYCOLLECTION EMPTY" s then Got (Parts [[]])
    else Got Skipped.
End Wkt.
