(** What the text of a step says.  A specification. *)
From Verif Require Import Syntax Listing.
Local Open Scope Z_scope.

(** what is assumed of strconv.Quote: a quoted string starts with a double quote, and tells where
    it ends and what it quotes *)
Definition quoting (F : printers) : Prop :=
  (forall s, exists x, pr_quote F s = 34 :: x) /\
  (forall s s' x x', pr_quote F s ++ x = pr_quote F s' ++ x' -> s = s' /\ x = x').

(** the outermost operator of an expression *)
Definition outermost (e : expr) : op :=
  match e with
  | EInt _ => OpInt | EFloat _ => OpReal | EStr _ => OpString | EBool _ => OpBool | ENull => OpNull
  | EName _ => OpID | ECurrent => OpCurrent | ERoot => OpRoot | ERegexp _ => OpRE
  | EInner o _ => o
  end.

(** [alike]: of expressions only the outermost operators are the same, and a name may be a string *)
Inductive alike_bound : option bound -> option bound -> Prop :=
| AbNone : alike_bound None None
| AbInt : forall z, alike_bound (Some (BInt z)) (Some (BInt z))
| AbExpr : forall e e', outermost e = outermost e' -> alike_bound (Some (BExpr e)) (Some (BExpr e')).

Inductive alike_arg : pval -> pval -> Prop :=
| AaInt : forall z, alike_arg (PInt z) (PInt z)
| AaStrings : forall a a' s, a = PStr s \/ a = PName s -> a' = PStr s \/ a' = PName s -> alike_arg a a'
| AaSlice : forall s s', alike_bound (sl_start s) (sl_start s') -> alike_bound (sl_end s) (sl_end s') ->
    alike_bound (sl_stride s) (sl_stride s') -> alike_arg (PSlice s) (PSlice s')
| AaExpr : forall e e', outermost e = outermost e' -> alike_arg (PExpr e) (PExpr e').

Definition alike (st st' : pstep) : Prop := st_op st = st_op st' /\ Forall2 alike_arg (st_args st) (st_args st').

(** a step with no expression for an argument *)
Definition constant (st : pstep) : Prop := forall e, ~ In (PExpr e) (st_args st).
