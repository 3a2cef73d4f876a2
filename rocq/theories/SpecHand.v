(** Paths built by hand rather than parsed.  A specification: it does not mention the compiler.
    A Path is an exported type (paths/path.go:10-17) and mach.Compile takes any (mach/coder.go:20). *)
From Verif Require Export Syntax.

(** the operators of operands that carry a value, and those of operands that carry none *)
Definition valued_ops : list op := [OpID; OpString; OpInt; OpBool; OpReal; OpRE; OpBounds].
Definition bare_ops : list op := [OpNull; OpRoot; OpCurrent; OpWild].

(** [hollow e]: somewhere in [e] operands are given to an operator that should carry a value.
    The operands of a bare operator are never looked at. *)
Inductive hollow : expr -> Prop :=
| HoHere : forall o kids, In o valued_ops -> hollow (EInner o kids)
| HoKid : forall o kids k, ~ In o bare_ops -> In k kids -> hollow k -> hollow (EInner o kids).

Definition hollow_arg (a : pval) : Prop := match a with PExpr e => hollow e | _ => False end.

(** a step with a valued operator and no argument, or with a hollow expression; a step with a
    valued operator has no argument but its first *)
Definition hollow_step (s : pstep) : Prop :=
  (In (st_op s) valued_ops /\ match st_args s with [] => True | a :: _ => hollow_arg a end) \/
  (~ In (st_op s) valued_ops /\ exists a, In a (st_args s) /\ hollow_arg a).

(** is [o] one of [l]? *)
Definition op_dec : forall a b : op, {a = b} + {a <> b}.
Proof. decide equality. Defined.
Definition among (o : op) (l : list op) : bool := if in_dec op_dec o l then true else false.

(** ** How many orders a path takes *)
Definition total {A} (f : A -> nat) (l : list A) : nat := fold_right (fun x n => f x + n) 0 l.

(** one for every operand and operator that is looked at *)
Fixpoint orders_expr (e : expr) : nat :=
  match e with
  | EInner o kids =>
    S (if among o (valued_ops ++ bare_ops) then 0
       else (fix go l := match l with [] => 0 | k :: l' => orders_expr k + go l' end) kids)
  | _ => 1
  end.

Definition orders_arg (a : pval) : nat := match a with PExpr e => orders_expr e | _ => 1 end.

(** two more for a step that loops *)
Definition orders_step (s : pstep) : nat :=
  if among (st_op s) valued_ops then match st_args s with [] => 0 | a :: _ => orders_arg a end
  else S (total orders_arg (st_args s)) +
    (if among (st_op s) [OpNestMember; OpNestFilter; OpNestSelect; OpNestUnion; OpNestWild; OpFilter] then 2 else 0).

Definition orders_path (ss : path) : nat := total orders_step ss.
