(** JSON values and their conversions.  Models mach/json.go and the value types of
    paths/val.go and mach/program.go that can appear on the machine's stack. *)
From Verif Require Export Syntax Lexer.
Local Open Scope Z_scope.

(** The error values that functions and operators push as "nothing":
    mach/run.go:15-23,95, and the errors of strconv.ParseFloat and regexp.Compile
    returned as values by mach/fns.go:237-239,254-257. *)
Inductive errkind : Type :=
| KFailure | KType | KOverflow | KNumber (s : bytes) | KRegexp (s : bytes).

(** mach/json.go:13-15: an interface value.  [VInt] is a Go int, [VInt64] a Go
    int64, [VNum] a json.Number, [VArr] a slice of interfaces, [VObj] a map from
    strings to interfaces as an association list with distinct keys.  [VName],
    [VSlice] and [VRegexp] are the NameVal, *Slice and *Regexp values the machine
    itself pushes; [VErr] an error value.  Other Go types a caller could pass in
    (structs, float32, ...) are not modelled.  A nil map or nil slice stored in an
    interface behaves as an empty one. *)
Inductive val : Type :=
| VNil
| VBool (b : bool)
| VInt (z : Z)
| VInt64 (z : Z)
| VFloat (f : f64)
| VStr (s : bytes)
| VNum (s : bytes)
| VArr (l : list val)
| VObj (m : list (bytes * val))
| VName (s : bytes)
| VSlice (s : slice)
| VRegexp (pat : bytes)
| VErr (k : errkind).

(** Library behaviour the model leaves open. Theorems quantify over all worlds, with explicit
    hypotheses where a property needs them. Strconv.ParseFloat mach/json.go:128,348, fmt.Sprint
    mach/json.go:274-290, int64(f) mach/json.go:293-327, regexps mach/run.go:433-459, orders of
    map iteration mach/run.go:698-712,808-857 *)
Record world : Type := mkWorld {
  w_text : textoracles;
  (** Regexp.MatchString of the compiled pattern *)
  w_re_match : bytes -> bytes -> bool;
  (** Regexp.Split(s, -1) of the compiled pattern *)
  w_re_split : bytes -> bytes -> list bytes;
  (** fmt.Sprint of a float64 *)
  w_sprint_float : f64 -> bytes;
  (** fmt.Sprint of an array, object, regular expression, name or error *)
  w_sprint : val -> bytes;
  (** int64(f) when f is NaN, infinite or out of range (implementation-defined in
      Go); the result is taken modulo 2^64 into the int64 range *)
  w_f2i : f64 -> Z;
  (** the order in which the [n]-th [range] over a map visits its entries *)
  w_perm : nat -> nat -> list nat
}.

(** strconv.ParseFloat, mach/json.go:128,348, mach/fns.go:237 *)
Definition parse_float (W : world) (s : bytes) : option f64 := o_parse_float (w_text W) s.
(** regexp.Compile succeeds, mach/run.go:433-459 *)
Definition re_ok (W : world) (s : bytes) : bool := o_re_ok (w_text W) s.

(** mach/json.go:19-67 and mach/run.go:97-101 *)
Definition isString (v : val) : bool := match v with VStr _ => true | _ => false end.
Definition isInt (v : val) : bool := match v with VInt _ | VInt64 _ => true | _ => false end.
Definition isFloat (v : val) : bool := match v with VFloat _ => true | _ => false end.
Definition isSlice (v : val) : bool := match v with VSlice _ => true | _ => false end.
Definition isArith (v : val) : bool :=
  match v with VInt _ | VInt64 _ | VFloat _ | VBool _ => true | _ => false end.
Definition isSimple (v : val) : bool :=
  match v with VBool _ | VInt _ | VInt64 _ | VFloat _ | VStr _ => true | _ => false end.
Definition isNothing (v : val) : bool := match v with VErr _ => true | _ => false end.

(** mach/json.go:69-89 *)
Definition IsObject (v : val) : bool := match v with VObj _ => true | _ => false end.
Definition IsArray (v : val) : bool := match v with VArr _ => true | _ => false end.
Definition IsStructure (v : val) : bool := match v with VObj _ | VArr _ => true | _ => false end.

(** fmt.Sprint of a bool: mach/json.go:274-290 *)
Definition sprint_bool (b : bool) : bytes := if b then b_of "true" else b_of "false".

(** mach/json.go:273-290 *)
Definition cvs (W : world) (v : val) : bytes :=
  match v with
  | VErr _ => b_of "undefined"
  | VNil => b_of "null"
  | VStr s => s
  | VBool b => sprint_bool b
  | VInt z | VInt64 z => sprint_int z
  | VFloat f => w_sprint_float W f
  | VNum s => s
  | _ => b_of "[object Object]"
  end.

(** int64(f) for a float64: mach/json.go:293-327 *)
Definition f2i (W : world) (f : f64) : Z :=
  match f_trunc f with
  | Some z => if in_int64b z then z else wrap64 (w_f2i W f)
  | None => wrap64 (w_f2i W f)
  end.

(** mach/json.go:292-327.  The IntVal case concerns slice bounds and is in
    [cvi_bound]. *)
Definition cvi (W : world) (v : val) : Z :=
  match v with
  | VBool b => if b then 1 else 0
  | VInt z | VInt64 z => z
  | VFloat f => f2i W f
  | VStr s =>
    match s with
    | [] => 0
    | _ => match parse_int s with Some n => n | None => 0 end
    end
  | VNum s => match parse_int s with Some n => n | None => 0 end
  | _ => 0
  end.

(** mach/json.go:292-327 applied to a Slice's bound: an IntVal is its integer, and
    an Expr falls in the default case *)
Definition cvi_bound (b : bound) : Z :=
  match b with BInt z => z | BExpr _ => 0 end.

(** float64(n) for an int64: mach/json.go:330-345 *)
Definition f_one : f64 := f_of_Z 1.

(** mach/json.go:329-362 *)
Definition cvf (W : world) (v : val) : f64 :=
  match v with
  | VBool b => if b then f_one else f_zero
  | VInt z | VInt64 z => f_of_Z z
  | VFloat f => f
  | VStr s =>
    match s with
    | [] => f_zero
    | _ => match parse_float W s with Some f => f | None => f_nan end
    end
  | VNum s => match parse_float W s with Some f => f | None => f_nan end
  | _ => f_nan
  end.

(** mach/json.go:364-392 *)
Definition cvb (W : world) (v : val) : bool :=
  match v with
  | VNil | VErr _ => false
  | VBool b => b
  | VInt z | VInt64 z => negb (z =? 0)
  | VFloat f => negb (f_is_nan f) && negb (f_eqb f f_zero) && negb (f_eqb f (f_neg f_zero))
  | VStr s => match s with [] => false | _ => true end
  | VNum s =>
    match parse_int s with
    | Some n => negb (n =? 0)
    | None =>
      match parse_float W s with
      | Some f => negb (f_eqb f f_zero)
      | None => match s with [] => false | _ => true end
      end
    end
  | _ => true
  end.

(** mach/json.go:394-404 *)
Inductive jsType : Set := Undefined | Null | Number | JString | Boolean | Object.
Scheme Equality for jsType.

(** mach/json.go:406-422 *)
Definition typeOf (v : val) : jsType :=
  match v with
  | VErr _ => Undefined
  | VNil => Null
  | VInt _ | VInt64 _ | VFloat _ => Number
  | VStr _ => JString
  | VBool _ => Boolean
  | _ => Object
  end.

(** mach/json.go:135-147.  -zero is 0 negated at run time, -0. *)
Definition eqNum (W : world) (a b : val) : bool :=
  if isFloat a || isFloat b then
    let va := cvf W a in
    let vb := cvf W b in
    if (f_eqb va f_zero && f_eqb vb (f_neg f_zero)) ||
       (f_eqb vb f_zero && f_eqb va (f_neg f_zero)) then true
    else f_eqb va vb
  else cvi W a =? cvi W b.

(** mach/json.go:91-102 *)
Definition eqArrayS (W : world) (a : list val) (b : bytes) : bool :=
  match a with
  | [] => beqb b []
  | [x] => beqb (cvs W x) b
  | _ => false
  end.

(** mach/json.go:104-115 *)
Definition eqArrayN (W : world) (a : list val) (b : val) : bool :=
  match a with
  | [] => eqNum W b (VFloat f_zero)
  | [x] => eqNum W x b
  | _ => false
  end.

(** mach/json.go:117-133 *)
Definition badNum (W : world) (s : bytes) (fp : bool) : bool :=
  match s with
  | [] => false
  | _ =>
    if negb fp && (match parse_int s with Some _ => true | None => false end) then false
    else match parse_float W s with Some _ => false | None => true end
  end.

(** mach/json.go:186-195 *)
Definition eqArrayB (W : world) (a : val) (b : Z) : bool :=
  match a with
  | VArr [] => b =? 0
  | VArr [x] => cvi W x =? b
  | _ => false
  end.

(** mach/json.go:153-218: the types differ *)
Definition eq_mixed (W : world) (a b : val) : bool :=
  match typeOf a, typeOf b with
  | Null, Undefined | Undefined, Null => true
  | Number, JString => if badNum W (cvs W b) (isFloat a) then false else eqNum W a b
  | JString, Number => if badNum W (cvs W a) (isFloat b) then false else eqNum W a b
  | Boolean, Number | Number, Boolean => eqNum W a b
  | Boolean, JString => if badNum W (cvs W b) true then false else f_eqb (cvf W a) (cvf W b)
  | JString, Boolean => if badNum W (cvs W a) true then false else f_eqb (cvf W a) (cvf W b)
  | Object, Boolean => eqArrayB W a (cvi W b)
  | Boolean, Object => eqArrayB W b (cvi W a)
  | JString, Object | Object, JString =>
    match a, b with
    | VArr l, _ => eqArrayS W l (cvs W b)
    | _, VArr l => eqArrayS W l (cvs W a)
    | _, _ => false
    end
  | Number, Object | Object, Number =>
    match a, b with
    | VArr l, _ => eqArrayN W l b
    | _, VArr l => eqArrayN W l a
    | _, _ => false
    end
  | _, _ => false
  end.

(** mach/json.go:149-259.  The loop over a map has no effect but an early return
    of false, so its order does not matter and needs no order oracle; a missing
    key yields nil, as in Go. *)
Fixpoint eqVal (W : world) (a b : val) {struct a} : bool :=
  if negb (jsType_beq (typeOf a) (typeOf b)) then eq_mixed W a b
  else
    match a with
    | VErr _ | VNil => true
    | VInt _ | VInt64 _ | VFloat _ => eqNum W a b
    | VStr s => match b with VStr t => beqb s t | _ => false end
    | VBool x => match b with VBool y => Bool.eqb x y | _ => false end
    | VArr la =>
      match b with
      | VArr lb =>
        (length la =? length lb)%nat &&
        (fix go (la lb : list val) : bool :=
           match la, lb with
           | x :: la', y :: lb' => eqVal W x y && go la' lb'
           | _, _ => true
           end) la lb
      | _ => false
      end
    | VObj ma =>
      match b with
      | VObj mb =>
        (length ma =? length mb)%nat &&
        (fix go (ma : list (bytes * val)) : bool :=
           match ma with
           | [] => true
           | (k, v) :: ma' =>
             eqVal W v (match lookup k mb with Some w => w | None => VNil end) && go ma'
           end) ma
      | _ => false
      end
    | _ => false
    end.

(** mach/json.go:261-271 *)
Fixpoint searchJSON (W : world) (vals : list val) (v : val) (f : bool) : bool :=
  match vals with
  | [] => negb f
  | el :: r => if eqVal W el v then f else searchJSON W r v f
  end.
