(** The public interface.  Models jsonpath.go. *)
From Verif Require Export Parser Coder Machine.
Local Open Scope Z_scope.

(** The error results of jsonpath.Compile: those of ParsePath and of mach.Compile:
    jsonpath.go:43-56 *)
Inductive api_err : Type :=
| AParse (e : perr)
| ACompile (e : cerr).

(** jsonpath.go:30-36.  The path field is never set. *)
Record JSONPath : Type := mkJP { jp_expr : bytes; jp_prog : program }.

(** jsonpath.go:38-41 *)
Definition JP_String (jp : JSONPath) : bytes := jp_expr jp.

(** jsonpath.go:43-56 *)
Definition JP_Compile (TX : textoracles) (expr : bytes) : outcome api_err JSONPath :=
  match ParsePath TX expr with
  | OK path =>
    match Compile path with
    | OK prog => OK (mkJP expr prog)
    | Fail e => Fail (ACompile e)
    | Panics => Panics
    | OutOfFuel => OutOfFuel
    end
  | Fail e => Fail (AParse e)
  | Panics => Panics
  | OutOfFuel => OutOfFuel
  end.

(** jsonpath.go:58-72; the text of the panic is not modelled *)
Definition JP_MustCompile (TX : textoracles) (expr : bytes) : outcome api_err JSONPath :=
  match JP_Compile TX expr with
  | Fail _ => Panics
  | r => r
  end.

(** jsonpath.go:74-93.  [JP_Eval W t jp root r]: evaluation ends with outcome [r],
    where [t] numbers the first range over a map.  Fuel is hidden: the evaluation
    has an outcome when some amount of fuel suffices. *)
Definition JP_Eval (W : world) (t : nat) (jp : JSONPath) (root : val)
    (r : outcome rerr (list val)) : Prop :=
  r <> OutOfFuel /\ exists fuel, Run fuel W t (jp_prog jp) root = r.

(** jsonpath.go:91-93 as its caller sees it: the two results returned *)
Definition JP_Eval_go (W : world) (t : nat) (jp : JSONPath) (root : val)
    (r : gslice * option rerr) : Prop :=
  exists fuel, Run_go fuel W t (jp_prog jp) root = OK r.
