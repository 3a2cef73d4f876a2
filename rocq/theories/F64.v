(** IEEE-754 binary64 arithmetic as used by Go's float64, on top of the
    standard library's executable specification [SpecFloat] (no axioms).
    NaN payloads are not modelled: nothing in /repo can observe them. *)
From Verif Require Export Base.
From Coq Require Export SpecFloat.
Local Open Scope Z_scope.

(** the float64 of mach/json.go:330, paths/lex.go:62; spec_float is the standard library's *)
Definition f64 := spec_float.
(** precision and greatest exponent of float64 *)
Definition f_prec : Z := 53.
Definition f_emax : Z := 1024.

(** +, -, *, /, unary - on float64 (round to nearest, ties to even): mach/run.go:353-388,
    mach/fns.go:51-66,189-229 *)
Definition f_add : f64 -> f64 -> f64 := SFadd f_prec f_emax.
Definition f_sub : f64 -> f64 -> f64 := SFsub f_prec f_emax.
Definition f_mul : f64 -> f64 -> f64 := SFmul f_prec f_emax.
Definition f_div : f64 -> f64 -> f64 := SFdiv f_prec f_emax.
Definition f_neg : f64 -> f64 := SFopp.

(** ==, <, <= on float64 (false when either side is NaN): mach/json.go:135-147,377,
    mach/run.go:402-429,630-651 *)
Definition f_eqb : f64 -> f64 -> bool := SFeqb.
Definition f_ltb : f64 -> f64 -> bool := SFltb.
Definition f_leb : f64 -> f64 -> bool := SFleb.

(** 0 and NaN: mach/json.go:330-392 *)
Definition f_zero : f64 := S754_zero false.
Definition f_nan : f64 := S754_nan.
Definition f_is_nan (f : f64) : bool := match f with S754_nan => true | _ => false end.

(** float64(z) for an integer z: correctly rounded: mach/json.go:330-345, mach/fns.go:62 *)
Definition f_of_Z (z : Z) : f64 := binary_normalize f_prec f_emax z 0 false.

(** The integer part (toward zero) of a finite float; [None] for NaN and infinities. The
    conversion int64(f) of mach/json.go:293-327 *)
Definition f_trunc (f : f64) : option Z :=
  match f with
  | S754_zero _ => Some 0
  | S754_finite s m e =>
    let a := if 0 <=? e then Z.pos m * 2 ^ e else Z.pos m / 2 ^ (- e) in
    Some (if s then - a else a)
  | _ => None
  end.

(** math.Floor: mach/fns.go:120 *)
Definition f_floor (f : f64) : f64 :=
  match f with
  | S754_finite s m e =>
    if 0 <=? e then f
    else f_of_Z ((if s then - Z.pos m else Z.pos m) / 2 ^ (- e))
  | _ => f
  end.

(** math.Ceil(x) = -math.Floor(-x): mach/fns.go:74 *)
Definition f_ceil (f : f64) : f64 := f_neg (f_floor (f_neg f)).

(** math.Mod: the exact remainder with the sign of the dividend: mach/run.go:388 *)
Definition f_mod (x y : f64) : f64 :=
  match x, y with
  | S754_nan, _ | _, S754_nan => S754_nan
  | S754_infinity _, _ => S754_nan
  | _, S754_zero _ => S754_nan
  | _, S754_infinity _ => x
  | S754_zero _, _ => x
  | S754_finite sx mx ex, S754_finite _ my ey =>
    let e := Z.min ex ey in
    let a := Z.pos mx * 2 ^ (ex - e) in
    let b := Z.pos my * 2 ^ (ey - e) in
    let r := a mod b in
    binary_normalize f_prec f_emax (if sx then - r else r) e sx
  end.
