(** Model of the program: /repo/src/main.cpp 22-27, src/app/src/app/global.cpp 27-74, prepare.cpp 58-73, match_cli.cpp 44-59, compare.cpp 139-154.

    Options are read twice: first those of all modes, unknown ones are left alone; then those of the chosen mode.  The work of a mode (with its
    corrections, Options.v) is an oracle that ends normally or throws. *)
From Coq Require Import ZArith String.
From Verif Require Import Base Options.
Local Open Scope string_scope.

Inductive event := Help (md : mode) | Version | Error | Work (md : mode) (m : vm).
Section App.
  Variable cores : Z.
  (** [data.correct(vm)] and the work of the mode end without exception *)
  Variable works : mode -> vm -> bool.

  Definition options_of (md : mode) : list desc :=
    match md with PREPARE => options_prepare | MATCH => options_match cores | COMPARE => options_compare cores | _ => [] end.
  (** prepare.cpp 58-73, match_cli.cpp 44-59, compare.cpp 139-154; the result is what they return, [None]: they throw *)
  Definition run_mode (md : mode) (cli : source) (config : string -> option source) : list event * option nat :=
    match process (options_of md) md cli config with
    | Ready m => ([Work md m], if works md m then Some 0 else None)
    | Helped => ([Help md], Some 1)
    | Versioned => ([Version], Some 1)
    | Refused => ([Error], Some 1)
    end.
  (** global.cpp 27-41: what the modes return is dropped; the server does nothing *)
  Definition dispatch (md : mode) (cli : source) (config : string -> option source) : list event * bool :=
    match md with
    | PREPARE | MATCH | COMPARE => let '(ev, r) := run_mode md cli config in (ev, match r with Some _ => true | None => false end)
    | SERVER | NONE => ([], true)
    end.
  (** global.cpp 43-74: events and exit status *)
  Definition app (cli : source) (config : string -> option source) : list event * nat :=
    match process options_mode NONE cli config with
    | Ready m =>
        match mode_correct m with
        | Ok (_, md) => let '(ev, ok) := dispatch md cli config in if ok then (ev, 0) else ((ev ++ [Error])%list, 3)
        | _ => ([Error], 2)
        end
    | Helped => ([Help NONE], 1)
    | Versioned => ([Version], 1)
    | Refused => ([Error], 1)
    end.
End App.
