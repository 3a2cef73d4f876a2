(** The arguments of the command jpath.  Models cmd/jpath/jpath.go:18-25.

    The rules are those of package flag of Go's library (parseOne and Parse of a FlagSet), which is not in the
    repository: like encoding/json it is outside, but unlike it it is modelled, from its
    documentation.  The boolean values are those of strconv.ParseBool. *)
From Verif Require Export Cli.
Local Open Scope Z_scope.

(** what flag.Parse makes of one argument: jpath.go:21 *)
Inductive one_arg : Type :=
| AOperand            (* not a flag: the arguments end here *)
| ATerminator         (* --, after which they end *)
| AFlag (b : bool)    (* -l, with its value *)
| ABad                (* a bad or unknown flag *)
| AHelp.              (* -h or -help *)

(** strconv.ParseBool, which sets a flag declared by flag.Bool: jpath.go:19 *)
Definition parse_bool (s : bytes) : option bool :=
  if existsb (fun w => beqb s (b_of w)) ["1"; "t"; "T"; "TRUE"; "true"; "True"]%string then Some true
  else if existsb (fun w => beqb s (b_of w)) ["0"; "f"; "F"; "FALSE"; "false"; "False"]%string then Some false
  else None.

(** the name before the first =, and the value after it: jpath.go:21 *)
Fixpoint cut_value (s : bytes) : bytes * option bytes :=
  match s with
  | [] => ([], None)
  | c :: r => if c =? 61 then ([], Some r) else let (n, v) := cut_value r in (c :: n, v)
  end.

(** a flag without its dashes; the only one declared is l: jpath.go:19-21 *)
Definition named_flag (s : bytes) : one_arg :=
  match s with
  | [] => ABad
  | c :: _ =>
    if (c =? 45) || (c =? 61) then ABad
    else
      let (n, v) := cut_value s in
      if beqb n (b_of "l") then
        match v with
        | None => AFlag true
        | Some v => match parse_bool v with Some b => AFlag b | None => ABad end
        end
      else if beqb n (b_of "help") || beqb n (b_of "h") then AHelp
      else ABad
  end.

(** jpath.go:21 *)
Definition parse_one (s : bytes) : one_arg :=
  match s with
  | d :: c :: r =>
    if d =? 45 then
      if c =? 45 then match r with [] => ATerminator | _ => named_flag r end
      else named_flag (c :: r)
    else AOperand
  | _ => AOperand
  end.

(** the value of the flag and flag.Args(), or the exit by package flag: jpath.go:19-22 *)
Inductive parsed_args : Type :=
| PRest (line : bool) (args : list bytes)
| PRefused
| PHelped.

Fixpoint flag_parse (line : bool) (args : list bytes) : parsed_args :=
  match args with
  | [] => PRest line []
  | s :: r =>
    match parse_one s with
    | AOperand => PRest line (s :: r)
    | ATerminator => PRest line r
    | AFlag b => flag_parse b r
    | ABad => PRefused
    | AHelp => PHelped
    end
  end.

(** main, from os.Args[1:]: jpath.go:18-60.  [None] where package flag exits, with nothing on the
    standard output. *)
Definition jpath_main (L : jsonlib) (W : world) (T : nat -> nat) (fuel n : nat) (args : list bytes)
    (open : bytes -> tried input) (stdin : input) : option (option (bytes * ended fault)) :=
  match flag_parse false args with
  | PRest line rest => Some (jpath L W T fuel n line rest open stdin)
  | PRefused | PHelped => None
  end.
