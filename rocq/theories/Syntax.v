(** Abstract syntax: operators, tokens, expression trees, paths.
    Models paths/ops.go, paths/tokens.go, paths/expr.go, paths/val.go,
    paths/path.go. *)
From Verif Require Export Base F64.
Local Open Scope Z_scope.

(** paths/ops.go:17-74, in declaration (iota) order *)
Inductive op : Set :=
| OpError | OpInt | OpBool | OpID | OpReal | OpString | OpRE | OpNull | OpBounds
| OpMember | OpSelect | OpUnion | OpWild | OpFilter | OpExp
| OpFor | OpNest | OpRep
| OpNestMember | OpNestSelect | OpNestUnion | OpNestWild | OpNestFilter
| OpRoot | OpCurrent | OpDot | OpIndex | OpSlice
| OpLT | OpLE | OpEQ | OpNE | OpGE | OpGT | OpAnd | OpOr
| OpMul | OpDiv | OpMod | OpNeg | OpAdd | OpSub
| OpCall | OpArray | OpIn | OpNin | OpMatch | OpNot.

Scheme Equality for op.

(** the iota values of paths/ops.go:17-74 *)
Definition all_ops : list op :=
  [ OpError; OpInt; OpBool; OpID; OpReal; OpString; OpRE; OpNull; OpBounds;
    OpMember; OpSelect; OpUnion; OpWild; OpFilter; OpExp;
    OpFor; OpNest; OpRep;
    OpNestMember; OpNestSelect; OpNestUnion; OpNestWild; OpNestFilter;
    OpRoot; OpCurrent; OpDot; OpIndex; OpSlice;
    OpLT; OpLE; OpEQ; OpNE; OpGE; OpGT; OpAnd; OpOr;
    OpMul; OpDiv; OpMod; OpNeg; OpAdd; OpSub;
    OpCall; OpArray; OpIn; OpNin; OpMatch; OpNot ].

(** iota, paths/ops.go:17-74 *)
Fixpoint index_op (o : op) (l : list op) : Z :=
  match l with
  | [] => 0
  | x :: l' => if op_beq o x then 0 else 1 + index_op o l'
  end.

(** the value of a constant of paths/ops.go:17-74 *)
Definition op_num (o : op) : Z := index_op o all_ops.

(** The Op with a given number; numbers beyond the last constant are not operators ([None]).
    paths/ops.go:15-74 *)
Definition op_of_num (n : Z) : option op := index_Z all_ops n.

(** paths/ops.go:193-201 (Op).IsLeaf *)
Definition op_is_leaf (o : op) : bool :=
  match o with
  | OpID | OpString | OpInt | OpBool | OpReal | OpRE | OpNull | OpRoot
  | OpCurrent | OpWild | OpBounds => true
  | _ => false
  end.

(** paths/ops.go:203-211 (Op).HasVal *)
Definition op_has_val (o : op) : bool :=
  match o with
  | OpID | OpString | OpInt | OpBool | OpReal | OpRE | OpBounds => true
  | _ => false
  end.

(** paths/ops.go:213-233 (Op).precedence *)
Definition precedence (o : op) : Z :=
  match o with
  | OpOr => 0
  | OpAnd => 1
  | OpEQ | OpNE => 2
  | OpLT | OpLE | OpGT | OpGE | OpMatch | OpIn | OpNin => 3
  | OpAdd | OpSub => 4
  | OpMul | OpDiv | OpMod => 5
  | _ => -1
  end.

(** paths/ops.go:235-238 (Op).associativity: all operators are left-associative *)
Definition associativity (_ : op) : Z := 1.

(** paths/tokens.go:11-32.  In Go a token is a rune: single-character tokens are
    the character itself ([TChar]), the others are numbered from
    utf8.MaxRune, hence distinct from every byte. *)
Inductive token : Set :=
| TChar (c : Z)
| TError | TEOF | TID | TString | TInt | TNest | TReal | TRE
| TLE | TGE | TEQ | TNE | TFilter | TAnd | TOr | TMatch | TIn | TNin.

(** token == token: paths/tokens.go:11 *)
Definition tok_eqb (a b : token) : bool :=
  match a, b with
  | TChar c, TChar d => c =? d
  | TError, TError | TEOF, TEOF | TID, TID | TString, TString | TInt, TInt
  | TNest, TNest | TReal, TReal | TRE, TRE | TLE, TLE | TGE, TGE | TEQ, TEQ
  | TNE, TNE | TFilter, TFilter | TAnd, TAnd | TOr, TOr | TMatch, TMatch
  | TIn, TIn | TNin, TNin => true
  | _, _ => false
  end.

(** paths/expr.go:10-110.  A NameLeaf with Op OpID, OpCurrent or OpRoot is
    [EName], [ECurrent], [ERoot].  A RegexpLeaf's compiled Prog is determined by
    its Pattern, so only the pattern is kept. *)
Inductive expr : Type :=
| EInt (z : Z)
| EFloat (f : f64)
| EStr (s : bytes)
| EBool (b : bool)
| ENull
| EName (s : bytes)
| ECurrent
| ERoot
| ERegexp (pat : bytes)
| EInner (o : op) (kids : list expr).

(** paths/expr.go:14-22, paths/ops.go:188-191 (Expr).Opcode *)
Definition opcode (e : expr) : op :=
  match e with
  | EInt _ => OpInt
  | EFloat _ => OpReal
  | EStr _ => OpString
  | EBool _ => OpBool
  | ENull => OpNull
  | EName _ => OpID
  | ECurrent => OpCurrent
  | ERoot => OpRoot
  | ERegexp _ => OpRE
  | EInner o _ => o
  end.

(** paths/val.go:82-88: a Slice's Start, End and Stride are IntVal or Expr
    (paths/parsepath.go:200-213,222-229,288-301), or nil. *)
Inductive bound : Type :=
| BInt (z : Z)
| BExpr (e : expr).

(** paths/val.go:82-88 *)
Record slice : Type := mkSlice {
  sl_start : option bound;
  sl_end : option bound;
  sl_stride : option bound
}.

(** paths/val.go:8-21: the arguments of a Step *)
Inductive pval : Type :=
| PInt (z : Z)
| PStr (s : bytes)
| PName (s : bytes)
| PSlice (sl : slice)
| PExpr (e : expr).

(** paths/path.go:8-17 *)
Record pstep : Type := mkStep {
  st_op : op;
  st_args : list pval
}.

(** paths/path.go:8-11 *)
Definition path := list pstep.
