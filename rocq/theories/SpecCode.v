(** The code a path stands for, as a listing of abstract instructions: no encoding, no
    constants table, no back-patching.  A specification. *)
From Verif Require Import Syntax Value Program Machine.
Local Open Scope Z_scope.

Inductive instr : Type :=
| ILoad (v : val)                    (* push a constant *)
| IRoot                              (* push the document *)
| ICurrent                           (* push @ *)
| IApply (o : op) (n : nat)          (* an operator applied to the top [n] values *)
| ILoop (o : op) (exit : Z)          (* start iterating; to [exit] if there is no candidate *)
| IRep (top : Z).                    (* next iteration at [top], or fall through *)

(** literals are loaded, operands in order before their operator *)
Fixpoint list_expr (e : expr) : list instr :=
  match e with
  | EInt z => [ILoad (VInt64 z)]
  | EFloat f => [ILoad (VFloat f)]
  | EStr s => [ILoad (VStr s)]
  | EBool b => [ILoad (VBool b)]
  | ENull => [ILoad VNil]
  | EName s => [ILoad (VName s)]
  | ERegexp p => [ILoad (VRegexp p)]
  | ECurrent => [ICurrent]
  | ERoot => [IRoot]
  | EInner o kids => flat_map list_expr kids ++ [IApply o (length kids)]
  end.

Definition list_arg (a : pval) : list instr :=
  match a with
  | PInt z => [ILoad (VInt64 z)]
  | PStr s => [ILoad (VStr s)]
  | PName s => [ILoad (VName s)]
  | PSlice s => [ILoad (VSlice s)]
  | PExpr e => list_expr e
  end.

(** the arguments of a step and its operator *)
Definition list_body (s : pstep) : list instr :=
  flat_map list_arg (st_args s) ++ [IApply (st_op s) (length (st_args s))].

(** the iteration a step needs, if any *)
Definition loop_of (o : op) : option op :=
  match o with
  | OpFilter => Some OpFor
  | OpNestMember | OpNestSelect | OpNestUnion | OpNestWild | OpNestFilter => Some OpNest
  | _ => None
  end.

(** the code of a step that starts at position [at_] *)
Definition list_step (at_ : Z) (s : pstep) : list instr :=
  let body := list_body s in
  match loop_of (st_op s) with
  | None => body
  | Some k => ILoop k (at_ + 2 + Z.of_nat (length body)) :: body ++ [IRep (at_ + 1)]
  end.

Fixpoint list_path (at_ : Z) (ss : path) : list instr :=
  match ss with
  | [] => []
  | s :: r => let c := list_step at_ s in c ++ list_path (at_ + Z.of_nat (length c)) r
  end.

(** ** The stack *)

(** values an instruction takes from the stack and values it leaves there *)
Definition takes (i : instr) : nat := match i with IApply _ n => n | _ => 0%nat end.

(** the operators of steps leave nothing, those of expressions leave their value *)
Definition leaves (i : instr) : nat :=
  match i with
  | ILoad _ | IRoot | ICurrent => 1
  | IApply o _ =>
    match o with
    | OpWild | OpMember | OpSelect | OpUnion | OpFilter
    | OpNestWild | OpNestMember | OpNestSelect | OpNestUnion | OpNestFilter => 0
    | _ => 1
    end
  | ILoop _ _ | IRep _ => 0
  end.

(** the stack height after some code run in sequence, and the number of open loops *)
Definition height (is : list instr) : Z :=
  fold_right (fun i h => Z.of_nat (leaves i) - Z.of_nat (takes i) + h) 0 is.
Definition open_loops (is : list instr) : Z :=
  fold_right (fun i h => match i with ILoop _ _ => 1 | IRep _ => -1 | _ => 0 end + h) 0 is.

(** ** The constants written in a path, from left to right *)
Fixpoint literals_expr (e : expr) : list val :=
  match e with
  | EInt z => [VInt64 z]
  | EFloat f => [VFloat f]
  | EStr s => [VStr s]
  | EBool b => [VBool b]
  | ENull => [VNil]
  | EName s => [VName s]
  | ERegexp p => [VRegexp p]
  | ECurrent | ERoot => []
  | EInner _ kids => flat_map literals_expr kids
  end.

Definition literals_arg (a : pval) : list val :=
  match a with
  | PInt z => [VInt64 z]
  | PStr s => [VStr s]
  | PName s => [VName s]
  | PSlice s => [VSlice s]
  | PExpr e => literals_expr e
  end.

Definition literals (ss : path) : list val := flat_map (fun s => flat_map literals_arg (st_args s)) ss.

(** the constants some code loads, in order *)
Definition load_of (i : instr) : list val := match i with ILoad v => [v] | _ => [] end.
Definition loaded (is : list instr) : list val := flat_map load_of is.

(** ** Decoding *)

(** [loads p ord v]: executing the order does nothing but push the value *)
Definition loads (p : program) (ord : order) (v : val) : Prop :=
  forall W root m, exec W p root ord m = OK (push v m).

(** an order of program [p] is a faithful encoding of an instruction *)
Definition decodes (p : program) (ord : order) (i : instr) : Prop :=
  match i with
  | ILoad v => loads p ord v
  | IRoot => op_of_num (order_op ord) = Some OpRoot
  | ICurrent => op_of_num (order_op ord) = Some OpCurrent
  | IApply o n => op_of_num (order_op ord) = Some o /\ order_small_int ord = Z.of_nat n
  | ILoop o exit => op_of_num (order_op ord) = Some o /\ order_pc ord = Some exit
  | IRep top => op_of_num (order_op ord) = Some OpRep /\ order_pc ord = Some top
  end.

(** an instruction's number: its operand count or branch target *)
Definition operand (i : instr) : Z :=
  match i with
  | ILoad _ | IRoot | ICurrent => 0
  | IApply _ n => Z.of_nat n
  | ILoop _ exit => exit
  | IRep top => top
  end.

(** reduction modulo 2^23 to a signed 23-bit number *)
Definition wrap23 (n : Z) : Z := (n + 4194304) mod 8388608 - 4194304.

(** the instruction with its number reduced *)
Definition encodes (p : program) (ord : order) (i : instr) : Prop :=
  match i with
  | ILoad v => loads p ord v
  | IRoot => op_of_num (order_op ord) = Some OpRoot
  | ICurrent => op_of_num (order_op ord) = Some OpCurrent
  | IApply o n => op_of_num (order_op ord) = Some o /\ order_small_int ord = wrap23 (Z.of_nat n)
  | ILoop o exit => op_of_num (order_op ord) = Some o /\ order_pc ord = Some (wrap23 exit)
  | IRep top => op_of_num (order_op ord) = Some OpRep /\ order_pc ord = Some (wrap23 top)
  end.

(** ** The constants table *)

(** constants that do not fit in an order *)
Definition tabled (v : val) : bool :=
  match v with
  | VInt64 z => negb ((-4194304 <=? z) && (z <? 4194304))
  | VBool _ | VNil => false
  | _ => true
  end.

(** constants that share one entry with equal ones; slices and regular expressions get
    an entry for each occurrence *)
Definition shared (v : val) : bool :=
  match v with VInt64 _ | VFloat _ | VStr _ | VName _ => true | _ => false end.

(** [table_of lits tbl]: the table holds each constant once, in order of first occurrence *)
Inductive table_of : list val -> list val -> Prop :=
| ToNil : table_of [] []
| ToOld : forall l t v, table_of l t -> shared v = true -> In v t -> table_of (l ++ [v]) t
| ToNew : forall l t v, table_of l t -> (shared v = true -> ~ In v t) -> table_of (l ++ [v]) (t ++ [v]).

(** the code of a path has fewer than 2^22 instructions *)
Definition small (ss : path) : Prop := Z.of_nat (length (list_path 0 ss)) < 4194304.
