(** The text of a step of a path.  Models paths/path.go:19-33. *)
From Verif Require Export Listing.
Local Open Scope Z_scope.

Section describe.
Variable F : printers.

(** [%#v] of a field of a Slice: paths/val.go:82-88.  An IntVal (paths/val.go:32) is printed in
    decimal; every Expr embeds an Op (paths/expr.go:25-107), whose GoString it is then printed by;
    package fmt prints an interface that is nil as its type and "(nil)" *)
Definition bound_GoSyntax (b : option bound) : bytes :=
  match b with
  | Some (BInt z) => sprint_int z
  | Some (BExpr e) => op_GoString (opcode e)
  | None => b_of "paths.Val(nil)"
  end.

(** [%#v] of a *Slice, which has no GoString: paths/val.go:82-88, paths/path.go:28 *)
Definition slice_GoSyntax (s : slice) : bytes :=
  b_of "&paths.Slice{Start:" ++ bound_GoSyntax (sl_start s) ++ b_of ", End:" ++ bound_GoSyntax (sl_end s)
  ++ b_of ", Stride:" ++ bound_GoSyntax (sl_stride s) ++ b_of "}".

(** [%#v] of an argument: paths/path.go:28.  A StringVal or NameVal (paths/val.go:49,66) has no
    GoString, and is printed as a quoted string. *)
Definition pval_GoSyntax (a : pval) : bytes :=
  match a with
  | PInt z => sprint_int z
  | PStr s => pr_quote F s
  | PName s => pr_quote F s
  | PSlice s => slice_GoSyntax s
  | PExpr e => op_GoString (opcode e)
  end.

(** the loop of paths/path.go:24-29, after its first round *)
Fixpoint args_String (l : list pval) : bytes :=
  match l with
  | [] => []
  | a :: l' => b_of ", " ++ pval_GoSyntax a ++ args_String l'
  end.

(** paths/path.go:19-33 *)
Definition Step_String (st : pstep) : bytes :=
  op_GoString (st_op st) ++
  match st_args st with
  | [] => []
  | a :: l => b_of "(" ++ pval_GoSyntax a ++ args_String l ++ b_of ")"
  end.
End describe.
