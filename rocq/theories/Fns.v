(** The predefined functions.  Models mach/fns.go and the function call of
    mach/run.go:512-522. *)
From Verif Require Export Value.
Local Open Scope Z_scope.

(** Run-time errors: the error results of Program.Run. mach/run.go:15-23 *)
Inductive rerr : Type :=
| RBadRegexp (pat : bytes)                     (* mach/run.go:449 *)
| RMatchRight (v : val)                        (* mach/run.go:452 *)
| RMatchLeft (v : val)                         (* mach/run.go:458 *)
| RInRight (neg : bool) (v : val)              (* mach/run.go:470 *)
| RNoFunction (id : bytes)                     (* mach/run.go:516 *)
| RArgCount (id : bytes) (need got : Z)        (* mach/run.go:519 *)
| RUnimplemented (n : Z) (pc : Z).             (* mach/run.go:482 *)

(** mach/fns.go:288-300; the fold's index, accumulator and element *)
Fixpoint arith_loop (W : world) (f : nat -> f64 -> f64 -> f64) (i : nat) (acc : f64)
    (a : list val) : val :=
  match a with
  | [] => VFloat acc
  | v :: r => if negb (isArith v) then VErr KType
              else arith_loop W f (S i) (f i acc (cvf W v)) r
  end.
Definition arithArrayOp (W : world) (a : list val) (f : nat -> f64 -> f64 -> f64) : val :=
  match a with
  | [] => VNil
  | _ => arith_loop W f 0%nat f_zero a
  end.

(** mach/fns.go:302-315 *)
Fixpoint string_loop (f : nat -> bytes -> bytes -> bytes) (i : nat) (acc : bytes)
    (a : list val) : val :=
  match a with
  | [] => VStr acc
  | VStr s :: r => string_loop f (S i) (f i acc s) r
  | _ :: _ => VErr KType
  end.
Definition stringArrayOp (a : list val) (f : nat -> bytes -> bytes -> bytes) : val :=
  match a with
  | [] => VNil
  | _ => string_loop f 0%nat [] a
  end.

(** mach/fns.go:317-329 *)
Definition minMaxArray (W : world) (a : list val) (arithf : nat -> f64 -> f64 -> f64)
    (stringf : nat -> bytes -> bytes -> bytes) : val :=
  match a with
  | [] => VNil
  | VInt _ :: _ | VInt64 _ :: _ | VFloat _ :: _ => arithArrayOp W a arithf
  | VStr _ :: _ => stringArrayOp a stringf
  | _ => VErr KType
  end.

(** mach/fns.go:331-357.  maxString tests with "<", as in the source. *)
Definition minArith (i : nat) (m el : f64) : f64 :=
  if (i =? 0)%nat || f_ltb el m then el else m.
Definition maxArith (i : nat) (m el : f64) : f64 :=
  if (i =? 0)%nat || f_ltb m el then el else m.
Definition minString (i : nat) (m el : bytes) : bytes :=
  if (i =? 0)%nat || bltb el m then el else m.
Definition maxString (i : nat) (m el : bytes) : bytes :=
  if (i =? 0)%nat || bltb el m then el else m.

(** args[i]; [None] is the index panic: e.g. mach/fns.go:26 *)
Definition arg (args : list val) (i : nat) : option val := nth_error args i.

(** a function body that begins with args[i], e.g. mach/fns.go:26 *)
Definition with_arg (args : list val) (i : nat) (k : val -> outcome rerr (val * nat))
    : outcome rerr (val * nat) :=
  match arg args i with Some v => k v | None => Panics end.

(** mach/fns.go:268-286 *)
Definition stringArgs (args : list val) : option (bytes * bytes) :=
  match args with
  | [VStr a; VStr b] => Some (a, b)
  | _ => None
  end.

(** -n in int64 arithmetic: mach/fns.go:23-50, mach/run.go:389-399 *)
Definition neg64 (n : Z) : Z := wrap64 (- n).

(** mach/fns.go:23-50 *)
Definition fn_abs (v : val) : val :=
  match v with
  | VInt n => if n <? 0 then VInt64 (neg64 n) else VInt64 n
  | VInt64 n =>
    if n <? 0 then
      let m := neg64 n in if m <? 0 then VErr KOverflow else VInt64 m
    else VInt64 n
  | VFloat f => if f_ltb f f_zero then VFloat (f_neg f) else VFloat f
  | _ => VErr KType
  end.

(** mach/fns.go:51-66 *)
Fixpoint avg_loop (W : world) (sum : f64) (a : list val) : option f64 :=
  match a with
  | [] => Some sum
  | v :: r => if negb (isArith v) then None else avg_loop W (f_add sum (cvf W v)) r
  end.
Definition fn_avg (W : world) (v : val) : val :=
  match v with
  | VArr a =>
    match avg_loop W f_zero a with
    | Some s => VFloat (f_div s (f_of_Z (Z.of_nat (length a))))
    | None => VErr KType
    end
  | _ => VErr KType
  end.

(** mach/fns.go:67-79 and 113-125 *)
Definition fn_ceil (v : val) : val :=
  match v with
  | VInt _ | VInt64 _ => v
  | VFloat f => VFloat (f_ceil f)
  | _ => VErr KType
  end.
Definition fn_floor (v : val) : val :=
  match v with
  | VInt _ | VInt64 _ => v
  | VFloat f => VFloat (f_floor f)
  | _ => VErr KType
  end.

(** mach/fns.go:80-102 *)
Definition fn_contains (W : world) (a b : val) : val :=
  match a with
  | VStr s => match b with VStr p => VBool (contains_sub s p) | _ => VErr KType end
  | VArr l => VBool (existsb (fun v => eqVal W v b) l)
  | _ => VErr KType
  end.

(** mach/fns.go:126-139: the keys in the order of the range *)
Definition fn_keys (W : world) (t : nat) (v : val) : val * nat :=
  match v with
  | VObj m => (VArr (map (fun kv => VStr (fst kv)) (reorder (w_perm W t (length m)) m)), S t)
  | _ => (VErr KType, t)
  end.

(** mach/fns.go:140-154 *)
Definition fn_length (v : val) : val :=
  match v with
  | VStr s => VInt64 (rune_count s)
  | VArr l => VInt64 (Z.of_nat (length l))
  | VObj m => VInt64 (Z.of_nat (length m))
  | _ => VNil
  end.

(** mach/fns.go:155-188 *)
Definition fn_minmax (W : world) (arithf : nat -> f64 -> f64 -> f64)
    (stringf : nat -> bytes -> bytes -> bytes) (args : list val) : val :=
  match args with
  | [] => VNil
  | [v] => match v with VArr a => minMaxArray W a arithf stringf | _ => VErr KType end
  | _ => minMaxArray W args arithf stringf
  end.

(** mach/fns.go:189-205 *)
Definition fn_prod (W : world) (v : val) : val :=
  match v with
  | VArr a =>
    match a with
    | [] => VNil
    | _ => arithArrayOp W a (fun i r el => if (0 <? i)%nat then f_mul r el else el)
    end
  | _ => VErr KType
  end.

(** mach/fns.go:216-229 *)
Definition fn_sum (W : world) (v : val) : val :=
  match v with
  | VArr a =>
    match a with
    | [] => VFloat f_zero
    | _ => arithArrayOp W a (fun _ r el => f_add r el)
    end
  | _ => VErr KType
  end.

(** mach/fns.go:230-246 *)
Definition fn_to_number (W : world) (v : val) : val :=
  match v with
  | VInt _ | VInt64 _ | VFloat _ => v
  | VStr s => match parse_float W s with Some f => VFloat f | None => VErr (KNumber s) end
  | _ => VErr KType
  end.

(** mach/fns.go:247-265 *)
Definition fn_tokenize (W : world) (args : list val) : val :=
  match stringArgs args with
  | None => VErr KType
  | Some (s, re) =>
    if re_ok W re then VArr (map VStr (w_re_split W re s)) else VErr (KRegexp re)
  end.

(** A Function value: the number of arguments ([None] is AnyNumber) and the body,
    mach/fns.go:12-19.  The body takes the next map-iteration number and returns
    the number after it. *)
Record func : Type := mkFunc {
  fn_na : option Z;
  fn_body : world -> nat -> list val -> outcome rerr (val * nat)
}.

(** the entries of mach/fns.go:22-266 with one argument *)
Definition fn1 (f : world -> val -> val) : func :=
  mkFunc (Some 1) (fun W t args => with_arg args 0 (fun v => OK (f W v, t))).

(** mach/fns.go:21-266 *)
Definition functions : list (bytes * func) :=
  [ (b_of "abs", fn1 (fun _ => fn_abs));
    (b_of "avg", fn1 fn_avg);
    (b_of "ceil", fn1 (fun _ => fn_ceil));
    (b_of "contains",
      mkFunc (Some 2) (fun W t args =>
        with_arg args 0 (fun a => with_arg args 1 (fun b => OK (fn_contains W a b, t)))));
    (b_of "ends_with",
      mkFunc (Some 2) (fun W t args =>
        OK (match stringArgs args with
            | None => VErr KFailure
            | Some (a, b) => VBool (has_suffix a b)
            end, t)));
    (b_of "floor", fn1 (fun _ => fn_floor));
    (b_of "keys", mkFunc (Some 1) (fun W t args => with_arg args 0 (fun v => OK (fn_keys W t v))));
    (b_of "length", fn1 (fun _ => fn_length));
    (b_of "max", mkFunc None (fun W t args => OK (fn_minmax W maxArith maxString args, t)));
    (b_of "min", mkFunc None (fun W t args => OK (fn_minmax W minArith minString args, t)));
    (b_of "prod", fn1 fn_prod);
    (b_of "starts_with",
      mkFunc (Some 2) (fun W t args =>
        OK (match stringArgs args with
            | None => VErr KFailure
            | Some (a, b) => VBool (has_prefix a b)
            end, t)));
    (b_of "sum", fn1 fn_sum);
    (b_of "to_number", fn1 fn_to_number);
    (b_of "tokenize", mkFunc (Some 2) (fun W t args => OK (fn_tokenize W args, t))) ].

(** mach/run.go:512-522 *)
Definition call (W : world) (t : nat) (id : bytes) (args : list val) : outcome rerr (val * nat) :=
  match lookup id functions with
  | None => Fail (RNoFunction id)
  | Some fn =>
    match fn_na fn with
    | Some na =>
      if negb (Z.of_nat (length args) =? na)
      then Fail (RArgCount id na (Z.of_nat (length args)))
      else fn_body fn W t args
    | None => fn_body fn W t args
    end
  end.
