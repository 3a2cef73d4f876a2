(** The text of a program.  Models mach/text.go and the String methods it calls
    (paths/val.go, paths/expr.go, mach/program.go). *)
From Verif Require Export Program.
Local Open Scope Z_scope.

(** The formatting of package fmt that is not modelled. Fmt of a float64, mach/program.go:80-82,
    and %q, mach/text.go:13-47, paths/val.go:78-80 *)
Record printers : Type := mkPrinters {
  (** %q of a string *)
  pr_quote : bytes -> bytes;
  (** fmt.Sprint of a float64 *)
  pr_float : f64 -> bytes
}.

(** paths/ops.go:76-125,178-181 (Op).GoString *)
Definition op_GoString (o : op) : bytes :=
  match o with
  | OpError => b_of "OpError"
  | OpID => b_of "OpID"
  | OpString => b_of "OpString"
  | OpInt => b_of "OpInt"
  | OpBool => b_of "OpBool"
  | OpReal => b_of "OpReal"
  | OpRE => b_of "OpRE"
  | OpNull => b_of "OpNull"
  | OpBounds => b_of "OpBounds"
  | OpRoot => b_of "OpRoot"
  | OpCurrent => b_of "OpCurrent"
  | OpDot => b_of "OpDot"
  | OpSelect => b_of "OpSelect"
  | OpMember => b_of "OpMember"
  | OpIndex => b_of "OpIndex"
  | OpSlice => b_of "OpSlice"
  | OpUnion => b_of "OpUnion"
  | OpWild => b_of "OpWild"
  | OpFilter => b_of "OpFilter"
  | OpExp => b_of "OpExp"
  | OpFor => b_of "OpFor"
  | OpRep => b_of "OpRep"
  | OpNest => b_of "OpNest"
  | OpNestMember => b_of "OpNestMember"
  | OpNestSelect => b_of "OpNestSelect"
  | OpNestUnion => b_of "OpNestUnion"
  | OpNestWild => b_of "OpNestWild"
  | OpNestFilter => b_of "OpNestFilter"
  | OpLT => b_of "OpLT"
  | OpLE => b_of "OpLE"
  | OpEQ => b_of "OpEQ"
  | OpNE => b_of "OpNE"
  | OpGE => b_of "OpGE"
  | OpGT => b_of "OpGT"
  | OpAnd => b_of "OpAnd"
  | OpOr => b_of "OpOr"
  | OpMul => b_of "OpMul"
  | OpDiv => b_of "OpDiv"
  | OpMod => b_of "OpMod"
  | OpNeg => b_of "OpNeg"
  | OpAdd => b_of "OpAdd"
  | OpSub => b_of "OpSub"
  | OpCall => b_of "OpCall"
  | OpArray => b_of "OpArray"
  | OpIn => b_of "OpIn"
  | OpNin => b_of "OpNin"
  | OpMatch => b_of "OpMatch"
  | OpNot => b_of "OpNot"
  end.

(** paths/ops.go:178-181 of an Op that need not be one of the constants: the zero value
    of the map's element type *)
Definition num_GoString (n : Z) : bytes :=
  match op_of_num n with Some o => op_GoString o | None => [] end.

(** mach/text.go:51-57; [None] is the panic, of the program or of the slicing.  [%#v] of an
    Op is its GoString. *)
Definition trimOp (n : Z) : option bytes :=
  match num_GoString n with
  | [] => None
  | [_] => None
  | _ :: _ :: rest => Some rest
  end.

Section strings.
Variable F : printers.

(** paths/expr.go:38-40,48-50,58-60,68-70,78-80,87-89,97-99,108-110.  [%#v] of an *Inner is the
    GoString of the Op it embeds.  The Names of "@" and "$" are in
    paths/parseexpr.go:229,231. *)
Definition expr_String (e : expr) : bytes :=
  match e with
  | EInt z => sprint_int z
  | EFloat f => pr_float F f
  | EStr s => pr_quote F s
  | EBool b => sprint_bool b
  | ENull => b_of "null"
  | EName s => s
  | ECurrent => b_of "@"
  | ERoot => b_of "$"
  | ERegexp p => b_of "Regexp(" ++ pr_quote F p ++ b_of ")"
  | EInner o _ => op_GoString o
  end.

(** paths/val.go:44-46 and the above *)
Definition bound_String (b : bound) : bytes :=
  match b with BInt z => sprint_int z | BExpr e => expr_String e end.

(** paths/val.go:95-111 *)
Definition slice_String (s : slice) : bytes :=
  let s1 := b_of "[" in
  let s2 := match sl_start s with Some b => s1 ++ bound_String b | None => s1 end in
  let s3 := s2 ++ b_of ":" in
  let s4 := match sl_end s with Some b => s3 ++ bound_String b | None => s3 end in
  let s5 := match sl_stride s with Some b => s4 ++ b_of ":" ++ bound_String b | None => s4 end in
  s5 ++ b_of "]".

(** paths/val.go:44-46,51-53,78-80,95-111, mach/program.go:80-82,103-105 *)
Definition cval_String (c : cval) : bytes :=
  match c with
  | CInt z => sprint_int z
  | CStr s => pr_quote F s
  | CName s => s
  | CSlice s => slice_String s
  | CFloat f => pr_float F f
  | CRegexp p => pr_quote F p
  end.

(** mach/text.go:13-18; [i] says whether the index is above 0 *)
Fixpoint vals_String (sb : bytes) (i : bool) (vals : list cval) : bytes :=
  match vals with
  | [] => sb
  | v :: r =>
    let sb := if i then sb ++ b_of " " else sb in
    vals_String (sb ++ cval_String v) true r
  end.

(** the loop body of mach/text.go:22-47, after the space; [None] is a panic *)
Definition order_String (sb : bytes) (ord : order) : option bytes :=
  match trimOp (order_op ord) with
  | None => None
  | Some name =>
    let sb := sb ++ name in
    match op_of_num (order_op ord) with
    | None => None                      (* not reached: trimOp panicked *)
    | Some o =>
      if op_is_leaf o then
        if negb (op_has_val o) then Some sb
        else if order_is_small ord then
          Some (sb ++ b_of "(" ++ sprint_int (order_small_int ord) ++ b_of ")")
        else
          match order_index ord with
          | None => None
          | Some i => Some (sb ++ b_of "[" ++ sprint_int i ++ b_of "]")
          end
      else if order_is_small ord && negb (order_small_int ord =? 0) then
        Some (sb ++ b_of "." ++ sprint_int (order_small_int ord))
      else Some sb
    end
  end.

(** mach/text.go:22-47 *)
Fixpoint orders_String (sb : bytes) (i : bool) (ords : list order) : option bytes :=
  match ords with
  | [] => Some sb
  | ord :: r =>
    let sb := if i then sb ++ b_of " " else sb in
    match order_String sb ord with
    | None => None
    | Some sb' => orders_String sb' true r
    end
  end.

(** mach/text.go:10-49; [None] is a panic *)
Definition Program_String (p : program) : option bytes :=
  let sb := vals_String [] false (p_vals p) in
  let sb := match p_vals p with [] => sb | _ => sb ++ b_of " " end in
  orders_String sb false (p_orders p).
End strings.
