(** The text of a compiled path: its constants, then a word for each instruction.  A
    specification. *)
From Coq Require Import String.
From Verif Require Import Value SpecSelect SpecCode Listing.
Local Open Scope Z_scope.
Local Open Scope string_scope.
Local Open Scope list_scope.

(** the words of the operators, in the order of their numbers *)
Definition op_words : list string :=
  [ "Error"; "Int"; "Bool"; "ID"; "Real"; "String"; "RE"; "Null"; "Bounds";
    "Member"; "Select"; "Union"; "Wild"; "Filter"; "Exp"; "For"; "Nest"; "Rep";
    "NestMember"; "NestSelect"; "NestUnion"; "NestWild"; "NestFilter";
    "Root"; "Current"; "Dot"; "Index"; "Slice";
    "LT"; "LE"; "EQ"; "NE"; "GE"; "GT"; "And"; "Or";
    "Mul"; "Div"; "Mod"; "Neg"; "Add"; "Sub"; "Call"; "Array"; "In"; "Nin"; "Match"; "Not" ].
Definition op_word (o : op) : bytes := b_of (nth (Z.to_nat (op_num o)) op_words "").

(** the word of a kind of constant *)
Definition kind_word (v : val) : bytes :=
  match v with
  | VInt64 _ => b_of "Int"
  | VFloat _ => b_of "Real"
  | VStr _ => b_of "String"
  | VBool _ => b_of "Bool"
  | VNil => b_of "Null"
  | VName _ => b_of "ID"
  | VRegexp _ => b_of "RE"
  | VSlice _ => b_of "Bounds"
  | _ => []
  end.

(** an operator that takes [n] operands, or goes to position [n]; the number, reduced to 23
    bits, is left out when it is 0 *)
Definition numbered (o : op) (n : Z) : bytes :=
  op_word o ++ if (wrap23 n =? 0)%Z then [] else b_of "." ++ decimal (wrap23 n).

(** the words of instructions that need no table entry *)
Definition plain_word (i : instr) : bytes :=
  match i with
  | ILoad VNil => b_of "Null"
  | ILoad (VBool b) => b_of "Bool(" ++ b_of (if b then "1" else "0") ++ b_of ")"
  | ILoad (VInt64 z) => b_of "Int(" ++ decimal z ++ b_of ")"
  | ILoad _ => []
  | IRoot => b_of "Root"
  | ICurrent => b_of "Current"
  | IApply o n => numbered o (Z.of_nat n)
  | ILoop o exit => numbered o exit
  | IRep top => numbered OpRep top
  end.
Definition needs_entry (i : instr) : bool := match i with ILoad v => tabled v | _ => false end.
Definition entry_word (v : val) (k : nat) : bytes :=
  kind_word v ++ b_of "[" ++ decimal (Z.of_nat k) ++ b_of "]".

(** [listed t is ws t']: with the constants [t] already listed, the instructions [is] have
    the words [ws], and then the constants listed are [t'] *)
Inductive listed : list val -> list instr -> list bytes -> list val -> Prop :=
| LsEnd : forall t, listed t [] [] t
| LsPlain : forall t i is ws t', needs_entry i = false -> listed t is ws t' ->
    listed t (i :: is) (plain_word i :: ws) t'
| LsOld : forall t v k is ws t', tabled v = true -> shared v = true -> nth_error t k = Some v ->
    listed t is ws t' -> listed t (ILoad v :: is) (entry_word v k :: ws) t'
| LsNew : forall t v is ws t', tabled v = true -> (shared v = true -> ~ In v t) ->
    listed (t ++ [v]) is ws t' ->
    listed t (ILoad v :: is) (entry_word v (length t) :: ws) t'.

(** ** Constants *)
Section texts.
Variable F : printers.

(** an expression that is a bound of a slice is not written out: only its literal or the
    name of its operator *)
Definition bound_text (b : bound) : bytes :=
  match b with
  | BInt z => decimal z
  | BExpr (EInt z) => decimal z
  | BExpr (EFloat f) => pr_float F f
  | BExpr (EStr s) => pr_quote F s
  | BExpr (EBool true) => b_of "true"
  | BExpr (EBool false) => b_of "false"
  | BExpr ENull => b_of "null"
  | BExpr (EName s) => s
  | BExpr ECurrent => b_of "@"
  | BExpr ERoot => b_of "$"
  | BExpr (ERegexp p) => b_of "Regexp(" ++ pr_quote F p ++ b_of ")"
  | BExpr (EInner o _) => b_of "Op" ++ op_word o
  end.
Definition opt_text (lead : bytes) (b : option bound) : bytes :=
  match b with Some b => lead ++ bound_text b | None => [] end.

Definition const_text (v : val) : bytes :=
  match v with
  | VInt64 z => decimal z
  | VFloat f => pr_float F f
  | VStr s | VRegexp s => pr_quote F s
  | VName s => s
  | VSlice s => b_of "[" ++ opt_text [] (sl_start s) ++ b_of ":" ++ opt_text [] (sl_end s)
      ++ opt_text (b_of ":") (sl_stride s) ++ b_of "]"
  | _ => []
  end.

(** words separated by single spaces *)
Fixpoint spaced (ws : list bytes) : bytes :=
  match ws with
  | [] => []
  | [w] => w
  | w :: r => w ++ b_of " " ++ spaced r
  end.
End texts.
