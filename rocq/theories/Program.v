(** Instructions and programs of the abstract machine.  Models mach/program.go. *)
From Verif Require Export Value.
Local Open Scope Z_scope.

(** mach/program.go:10-26.  An order is a uint32, here the integer 0 .. 2^32-1. *)
Definition order := Z.
Definition opSize : Z := 8.
Definition opMask : Z := Z.shiftl 1 opSize - 1.
Definition smallFlag : Z := Z.shiftl 1 opSize.
Definition indexSize : Z := 23.
Definition indexOffset : Z := opSize + 1.
Definition indexTop : Z := Z.shiftl 1 (indexSize - 1).
Definition indexMask : Z := Z.shiftl 1 indexSize - 1.

(** conversion to uint32: mach/program.go:29-36 *)
Definition u32 (z : Z) : Z := z mod 4294967296.

(** mach/program.go:28-31; [index] is a uint32 and the shift discards high bits *)
Definition mkOrder (o : op) (index : Z) : order :=
  Z.lor (Z.land (op_num o) opMask) (u32 (Z.shiftl index indexOffset)).

(** mach/program.go:33-36 *)
Definition mkSmall (o : op) (v : Z) : order :=
  Z.lor (Z.lor (Z.land (op_num o) opMask) (u32 (Z.shiftl (Z.land v indexMask) indexOffset)))
        smallFlag.

(** mach/program.go:38-41; an operation number, which need not be that of an [op] *)
Definition order_op (o : order) : Z := Z.land o opMask.

(** mach/program.go:43-46 *)
Definition order_is_small (o : order) : bool := negb (Z.land o smallFlag =? 0).

(** mach/program.go:48-55; [None] is the panic *)
Definition order_index (o : order) : option Z :=
  if order_is_small o then None else Some (Z.shiftr o indexOffset).

(** int32(o) for a uint32: mach/program.go:57-62 *)
Definition i32 (o : order) : Z := if o <? 2147483648 then o else o - 4294967296.

(** mach/program.go:57-62 *)
Definition order_small_int (o : order) : Z := Z.shiftr (i32 o) indexOffset.

(** mach/program.go:64-67 *)
Definition isSmallInt (i : Z) : bool := (- indexTop <=? i) && (i <=? indexTop - 1).

(** mach/program.go:69-75; [None] is the panic *)
Definition order_pc (o : order) : option Z :=
  if order_is_small o then Some (order_small_int o) else None.

(** The constants of a program: paths.IntVal, StringVal, NameVal, *Slice
    (paths/val.go) and floatVal, regexpVal (mach/program.go:77-105). *)
Inductive cval : Type :=
| CInt (z : Z)
| CStr (s : bytes)
| CName (s : bytes)
| CSlice (s : slice)
| CFloat (f : f64)
| CRegexp (pat : bytes).

(** The Value methods: paths/val.go:40,56,74,91, mach/program.go:85,99 *)
Definition cval_value (c : cval) : val :=
  match c with
  | CInt z => VInt64 z
  | CStr s => VStr s
  | CName s => VName s
  | CSlice s => VSlice s
  | CFloat f => VFloat f
  | CRegexp p => VRegexp p
  end.

(** mach/program.go:107-112 *)
Record program : Type := mkProg { p_vals : list cval; p_orders : list order }.

(** mach/program.go:137-141 *)
Definition prog_size (p : program) : Z := Z.of_nat (length (p_orders p)).

(** mach/program.go:114-118; the result is the new program, its pc the old size *)
Definition prog_asm (p : program) (o : order) : program :=
  mkProg (p_vals p) (p_orders p ++ [o]).

(** the assignment of mach/program.go:120-123 *)
Fixpoint set_nth {A} (i : nat) (x : A) (l : list A) : list A :=
  match l, i with
  | [], _ => []
  | _ :: l', O => x :: l'
  | y :: l', S i' => y :: set_nth i' x l'
  end.

(** mach/program.go:120-123, for a pc in range *)
Definition prog_patch (p : program) (pc : Z) (o : order) : program :=
  mkProg (p_vals p) (set_nth (Z.to_nat pc) o (p_orders p)).

(** mach/program.go:125-130; the index returned is the old length *)
Definition prog_data (p : program) (c : cval) : Z * program :=
  (Z.of_nat (length (p_vals p)), mkProg (p_vals p ++ [c]) (p_orders p)).

(** mach/program.go:132-135; [None] is the index panic *)
Definition prog_value (p : program) (i : Z) : option cval := index_Z (p_vals p) i.
