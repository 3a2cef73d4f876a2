(** The compiler from paths to programs.  Models mach/coder.go. *)
From Verif Require Export Program.
Local Open Scope Z_scope.

(** mach/coder.go:10-12 *)
Inductive cerr : Type := ErrTooManyVals.

(** Equality of map keys of type paths.Val: equal dynamic types and equal values; floats compare
    with ==; a *Slice or *Regexp is equal only to the same pointer, and each occurrence in a
    path is a pointer of its own. The map of mach/coder.go:14-18 *)
Definition key_eqb (a b : cval) : bool :=
  match a, b with
  | CInt x, CInt y => x =? y
  | CStr x, CStr y => beqb x y
  | CName x, CName y => beqb x y
  | CFloat x, CFloat y => f_eqb x y
  | _, _ => false
  end.

(** The index the builder's map holds for [c] (mach/coder.go:14-18,188): the map
    has exactly the entries of the constants table. *)
Fixpoint find_val (c : cval) (i : Z) (l : list cval) : option Z :=
  match l with
  | [] => None
  | d :: l' => if key_eqb c d then Some i else find_val c (i + 1) l'
  end.

(** the result of the builder's functions, mach/coder.go:55-199: the program built so far, or an
    error *)
Definition C := outcome cerr program.

(** mach/coder.go:186-199 *)
Definition mkVal (p : program) (c : cval) : outcome cerr (Z * program) :=
  match find_val c 0 (p_vals p) with
  | Some i => OK (i, p)
  | None =>
    let (o, p') := prog_data p c in
    if o >=? indexTop then Fail ErrTooManyVals else OK (o, p')
  end.

(** mach/coder.go:166-184; [None] is a nil value *)
Definition codeOp (p : program) (o : op) (v : option cval) : C :=
  match v with
  | None => OK (prog_asm p (mkSmall o 0))
  | Some c =>
    match (match c with CInt n => if isSmallInt n then Some n else None | _ => None end) with
    | Some n => OK (prog_asm p (mkSmall o n))
    | None =>
      let! (i, p') := mkVal p c in
      OK (prog_asm p' (mkOrder o i))
    end
  end.

(** mach/coder.go:131-164.  An Inner node whose operator is a leaf operator cannot
    come from the parser; it falls in the cases below as in Go. *)
Definition codeLeaf (p : program) (e : expr) : C :=
  let o := opcode e in
  if negb (op_has_val o) then codeOp p o None
  else
    match e with
    | EInt z =>
      if isSmallInt z then OK (prog_asm p (mkSmall o z)) else codeOp p o (Some (CInt z))
    | EFloat f => codeOp p o (Some (CFloat f))
    | EStr s => codeOp p o (Some (CStr s))
    | EName s => codeOp p o (Some (CName s))
    | ERegexp s => codeOp p o (Some (CRegexp s))
    | EBool b => OK (prog_asm p (mkSmall o (if b then 1 else 0)))
    | ENull => codeOp p o None
    | _ => Panics
    end.

(** mach/coder.go:113-129 *)
Fixpoint codeExpr (p : program) (e : expr) {struct e} : C :=
  if op_is_leaf (opcode e) then codeLeaf p e
  else
    match e with
    | EInner o kids =>
      let! p' :=
        (fix go (p : program) (ks : list expr) : C :=
           match ks with
           | [] => OK p
           | k :: ks' => let! p' := codeExpr p k in go p' ks'
           end) p kids in
      OK (prog_asm p' (mkSmall o (Z.of_nat (length kids))))
    | _ => Panics
    end.

(** mach/coder.go:85-101 *)
Definition valOp (v : pval) : op :=
  match v with
  | PName _ => OpID
  | PInt _ => OpInt
  | PStr _ => OpString
  | PSlice _ => OpBounds
  | PExpr _ => OpExp
  end.

(** a non-Expr value as a constant: mach/coder.go:103-111 *)
Definition pval_const (v : pval) : option cval :=
  match v with
  | PInt z => Some (CInt z)
  | PStr s => Some (CStr s)
  | PName s => Some (CName s)
  | PSlice s => Some (CSlice s)
  | PExpr _ => None
  end.

(** mach/coder.go:103-111 *)
Definition codeVal (p : program) (o : op) (v : pval) : C :=
  match v with
  | PExpr e => codeExpr p e
  | _ => if negb (op_has_val o) then codeOp p o None else codeOp p o (pval_const v)
  end.

(** mach/coder.go:75-83 *)
Fixpoint codeArgs (p : program) (args : list pval) : C :=
  match args with
  | [] => OK p
  | a :: r => let! p' := codeVal p (valOp a) a in codeArgs p' r
  end.

(** mach/coder.go:67-73; the pc returned is the size of the program on entry.  When
    the arguments fail the order is still appended, but the program is discarded by
    the caller. *)
Definition codeStep (p : program) (s : pstep) : C :=
  let! p' := codeArgs p (st_args s) in
  OK (prog_asm p' (mkSmall (st_op s) (Z.of_nat (length (st_args s))))).

(** mach/coder.go:55-65 *)
Definition codeLoop (p : program) (s : pstep) (intro : op) : C :=
  let fpc := prog_size p in
  let p1 := prog_asm p (mkSmall intro 0) in
  let lpc := prog_size p1 in
  let! p2 := codeStep p1 s in
  let p3 := prog_asm p2 (mkSmall OpRep lpc) in
  OK (prog_patch p3 fpc (mkSmall intro (prog_size p3))).

(** the body of the loop of mach/coder.go:24-51 *)
Definition codePathStep (p : program) (s : pstep) : C :=
  if op_is_leaf (st_op s) && op_has_val (st_op s) then
    match st_args s with
    | a :: _ => codeVal p (st_op s) a
    | [] => Panics
    end
  else
    match st_op s with
    | OpNestMember | OpNestFilter | OpNestSelect | OpNestUnion | OpNestWild => codeLoop p s OpNest
    | OpFilter => codeLoop p s OpFor
    | _ => codeStep p s
    end.

(** the loop of mach/coder.go:21-53 *)
Fixpoint codePath (p : program) (ss : path) : C :=
  match ss with
  | [] => OK p
  | s :: r => let! p' := codePathStep p s in codePath p' r
  end.

(** mach/coder.go:20-53 *)
Definition Compile (ss : path) : C := codePath (mkProg [] []) ss.
