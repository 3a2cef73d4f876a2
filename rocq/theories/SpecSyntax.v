(** Well-formed syntax trees: the shapes the grammar of paths and script expressions
    allows (paths/parsepath.go:7-21, paths/parseexpr.go:94-187 give the grammar as
    comments).  A specification: nothing here refers to the lexer or parser. *)
From Verif Require Import Syntax.
Local Open Scope Z_scope.

(** binary operators written between two operands, and indexing *)
Definition is_binary (o : op) : bool :=
  match o with
  | OpIndex | OpOr | OpAnd | OpAdd | OpSub | OpMul | OpDiv | OpMod
  | OpEQ | OpNE | OpLT | OpLE | OpGE | OpGT | OpMatch | OpIn | OpNin => true
  | _ => false
  end.

(** a literal's value: a number that is not negative zero *)
Definition lit_float (f : f64) : Prop := f <> S754_nan /\ f <> S754_zero true.

Inductive wf_expr : expr -> Prop :=
| WfInt : forall z, in_int64 z -> wf_expr (EInt z)
| WfFloat : forall f, lit_float f -> wf_expr (EFloat f)
| WfStr : forall s, wf_expr (EStr s)
| WfBool : forall b, wf_expr (EBool b)
| WfNull : wf_expr ENull
| WfName : forall s, wf_expr (EName s)
| WfCurrent : wf_expr ECurrent
| WfRoot : wf_expr ERoot
| WfRegexp : forall p, wf_expr (ERegexp p)
| WfUnary : forall o a, o = OpNeg \/ o = OpNot -> wf_expr a -> wf_expr (EInner o [a])
| WfBinary : forall o a b, is_binary o = true -> wf_expr a -> wf_expr b ->
    wf_expr (EInner o [a; b])
| WfDot : forall a s, wf_expr a -> wf_expr (EInner OpDot [a; EName s])
| WfArray : forall l, Forall wf_expr l -> wf_expr (EInner OpArray l)
| WfCall : forall f l, Forall wf_expr l -> wf_expr (EInner OpCall (EName f :: l)).

Inductive wf_bound : bound -> Prop :=
| WfBInt : forall z, in_int64 z -> wf_bound (BInt z)
| WfBExpr : forall e, wf_expr e -> wf_bound (BExpr e).

Definition wf_obound (b : option bound) : Prop :=
  match b with None => True | Some b => wf_bound b end.

Definition wf_slice (s : slice) : Prop :=
  wf_obound (sl_start s) /\ wf_obound (sl_end s) /\ wf_obound (sl_stride s).

(** member ::= identifier | signed-integer | expr ("*" is a step of its own) *)
Inductive wf_member : pval -> Prop :=
| WfMName : forall s, wf_member (PName s)
| WfMInt : forall z, in_int64 z -> wf_member (PInt z)
| WfMExpr : forall e, wf_expr e -> wf_member (PExpr e).

(** union-element ::= array-index | string-literal | identifier | array-slice *)
Inductive wf_union_elt : pval -> Prop :=
| WfUInt : forall z, in_int64 z -> wf_union_elt (PInt z)
| WfUStr : forall s, wf_union_elt (PStr s)
| WfUName : forall s, wf_union_elt (PName s)
| WfUSlice : forall s, wf_slice s -> wf_union_elt (PSlice s).

(** a single subscript that is not "*" or a filter *)
Inductive wf_sub : pval -> Prop :=
| WfSElt : forall v, wf_union_elt v -> wf_sub v
| WfSExpr : forall e, wf_expr e -> wf_sub (PExpr e).

Inductive wf_step : pstep -> Prop :=
| WfWild : wf_step (mkStep OpWild [])
| WfMember : forall v, wf_member v -> wf_step (mkStep OpMember [v])
| WfSelect : forall v, wf_sub v -> wf_step (mkStep OpSelect [v])
| WfUnion : forall l, (2 <= length l)%nat -> Forall wf_union_elt l -> wf_step (mkStep OpUnion l)
| WfFilter : forall e, wf_expr e -> wf_step (mkStep OpFilter [PExpr e])
| WfNestWild : wf_step (mkStep OpNestWild [])
| WfNestMember : forall v, wf_member v -> wf_step (mkStep OpNestMember [v])
| WfNestSelect : forall v, wf_sub v -> wf_step (mkStep OpNestSelect [v])
| WfNestUnion : forall l, (2 <= length l)%nat -> Forall wf_union_elt l ->
    wf_step (mkStep OpNestUnion l)
| WfNestFilter : forall e, wf_expr e -> wf_step (mkStep OpNestFilter [PExpr e]).

Definition wf_path (p : path) : Prop := Forall wf_step p.
