(** What operators and functions mean on values.  A specification: it uses none of the
    machine's functions. *)
From Coq Require Import QArith Qabs.
From Verif Require Import Syntax Value SpecTokens SpecGrammar.
Local Open Scope Z_scope.

(** ** Values *)

Definition failure (v : val) : Prop := exists k, v = VErr k.

(** the integer of an integer or Boolean *)
Inductive int_of : val -> Z -> Prop :=
| IoInt : forall z, int_of (VInt z) z
| IoInt64 : forall z, int_of (VInt64 z) z
| IoTrue : int_of (VBool true) 1
| IoFalse : int_of (VBool false) 0.

(** the double nearest to an integer *)
Definition nearest (z : Z) : f64 := binary_normalize 53 1024 z 0 false.

(** the double of a number or Boolean *)
Inductive float_of : val -> f64 -> Prop :=
| FoFloat : forall f, float_of (VFloat f) f
| FoInt : forall v z, int_of v z -> float_of v (nearest z).

(** what a Go value can be: integers have 64 bits and floats are binary64 numbers *)
Definition double (f : f64) : Prop := valid_binary 53 1024 f = true.
Definition proper (v : val) : Prop :=
  match v with
  | VInt z | VInt64 z => -9223372036854775808 <= z <= 9223372036854775807
  | VFloat f => double f
  | _ => True
  end.

Definition numeric (v : val) : Prop := exists f, float_of v f.
Definition is_float (v : val) : Prop := exists f, v = VFloat f.

(** ** Arithmetic *)

(** [z] is [e] reduced modulo 2^64 into the signed range *)
Definition reduces (e z : Z) : Prop :=
  -9223372036854775808 <= z <= 9223372036854775807 /\ exists k, e = z + k * 18446744073709551616.

Definition exact_op (o : op) (x y : Z) : Z :=
  match o with OpAdd => x + y | OpSub => x - y | _ => x * y end.
Definition ieee_op (o : op) (x y : f64) : f64 :=
  match o with OpAdd => SFadd 53 1024 x y | OpSub => SFsub 53 1024 x y | _ => SFmul 53 1024 x y end.

Definition sum_op (o : op) : Prop := o = OpAdd \/ o = OpSub \/ o = OpMul.
Definition div_op (o : op) : Prop := o = OpDiv \/ o = OpMod.

(** [a o b] for +, - and * *)
Inductive sums_to (o : op) (a b : val) : val -> Prop :=
| SmInt : forall x y z, int_of a x -> int_of b y -> reduces (exact_op o x y) z -> sums_to o a b (VInt64 z)
| SmFloat : forall x y, is_float a \/ is_float b -> float_of a x -> float_of b y ->
    sums_to o a b (VFloat (ieee_op o x y))
| SmOther : ~ numeric a \/ ~ numeric b -> sums_to o a b (VErr KFailure).

(** quotient truncated toward zero, and remainder with the dividend's sign *)
Definition divides (x y q r : Z) : Prop :=
  x = y * q + r /\ Z.abs r < Z.abs y /\ (r = 0 \/ Z.sgn r = Z.sgn x).

(** the exact value of a finite double *)
Definition signed (s : bool) (m : positive) : Z := if s then Z.neg m else Z.pos m.
Definition real_of (f : f64) : option Q :=
  match f with
  | S754_zero _ => Some 0%Q
  | S754_finite s m e =>
    Some (if 0 <=? e then inject_Z (signed s m * 2 ^ e) else Qmake (signed s m) (Z.to_pos (2 ^ (- e))))
  | _ => None
  end.

(** the remainder of two finite doubles, exactly, with the dividend's sign (also that of a
    zero) *)
Definition float_rem (x y r : f64) : Prop :=
  double r /\ exists a b c n, real_of x = Some a /\ real_of y = Some b /\ real_of r = Some c /\
    (a == b * inject_Z n + c)%Q /\ (Qabs c < Qabs b)%Q /\
    (match x, r with
     | S754_zero s, S754_zero s' | S754_zero s, S754_finite s' _ _
     | S754_finite s _ _, S754_zero s' | S754_finite s _ _, S754_finite s' _ _ => s = s'
     | _, _ => False
     end).

(** [a o b] for / and % *)
Inductive divided (o : op) (a b : val) : val -> Prop :=
| DvInt : forall x y q r z, int_of a x -> int_of b y -> y <> 0 -> divides x y q r ->
    reduces (match o with OpDiv => q | _ => r end) z -> divided o a b (VInt64 z)
| DvIntZero : forall x, int_of a x -> int_of b 0 -> divided o a b (VErr KFailure)
| DvFloat : forall x y, o = OpDiv -> is_float a \/ is_float b -> float_of a x -> float_of b y ->
    (forall s, y <> S754_zero s) -> divided o a b (VFloat (SFdiv 53 1024 x y))
| DvRem : forall x y r, o = OpMod -> is_float a \/ is_float b -> float_of a x -> float_of b y ->
    float_rem x y r -> divided o a b (VFloat r)
| DvRemInf : forall x s, o = OpMod -> is_float a \/ is_float b -> float_of a x -> float_of b (S754_infinity s) ->
    real_of x <> None -> divided o a b (VFloat x)
| DvRemNan : forall x y, o = OpMod -> is_float a \/ is_float b -> float_of a x -> float_of b y ->
    (x = S754_nan \/ (exists s, x = S754_infinity s) \/ y = S754_nan) -> (forall s, y <> S754_zero s) ->
    divided o a b (VFloat S754_nan)
| DvFloatZero : forall x s, is_float a \/ is_float b -> float_of a x -> float_of b (S754_zero s) ->
    divided o a b (VErr KFailure)
| DvOther : ~ numeric a \/ ~ numeric b -> divided o a b (VErr KFailure).

(** the operators that need both operands *)
Definition strict (o : op) : Prop :=
  In o [OpDot; OpIndex; OpAdd; OpSub; OpMul; OpDiv; OpMod; OpLT; OpLE; OpGE; OpGT; OpMatch; OpIn; OpNin].

(** ** Truth *)

(** A json.Number is a text; it counts as the integer it is the decimal form of, or else as
    the double it is read as *)
Inductive falsy (W : world) : val -> Prop :=
| FaNull : falsy W VNil
| FaFailure : forall v, failure v -> falsy W v
| FaFalse : falsy W (VBool false)
| FaInt : falsy W (VInt 0)
| FaInt64 : falsy W (VInt64 0)
| FaZero : forall s, falsy W (VFloat (S754_zero s))
| FaNan : falsy W (VFloat S754_nan)
| FaStr : falsy W (VStr [])
| FaNumInt : forall s, parse_int s = Some 0 -> falsy W (VNum s)
| FaNumReal : forall s z, parse_int s = None -> o_parse_float (w_text W) s = Some (S754_zero z) -> falsy W (VNum s)
| FaNumEmpty : o_parse_float (w_text W) [] = None -> falsy W (VNum []).

(** [a || b] and [a && b] *)
Inductive or_value (W : world) (a b : val) : val -> Prop :=
| OrLeft : ~ falsy W a -> or_value W a b a
| OrRight : falsy W a -> ~ failure a \/ ~ failure b -> or_value W a b b
| OrNeither : failure a -> failure b -> or_value W a b (VErr KFailure).
Inductive and_value (W : world) (a b : val) : val -> Prop :=
| AndLeft : falsy W a -> and_value W a b a
| AndRight : ~ falsy W a -> and_value W a b b.

(** ** Order *)

(** byte-wise lexicographic order *)
Inductive lex_lt : bytes -> bytes -> Prop :=
| LxNil : forall c s, lex_lt [] (c :: s)
| LxByte : forall c d s t, c < d -> lex_lt (c :: s) (d :: t)
| LxSame : forall c s t, lex_lt s t -> lex_lt (c :: s) (c :: t).

(** the four relations, from "less" and "equal" *)
Definition holds (o : op) (lt eq gt : Prop) : Prop :=
  match o with OpLT => lt | OpLE => lt \/ eq | OpGT => gt | _ => gt \/ eq end.

Definition f_lt (x y : f64) : Prop := SFcompare x y = Some Lt.
Definition f_eq (x y : f64) : Prop := SFcompare x y = Some Eq.

Definition rel_op (o : op) : Prop := In o [OpLT; OpLE; OpGT; OpGE].

(** whether [a o b] holds, for <, <=, > and >= *)
Inductive compares (o : op) (a b : val) : Prop -> Prop :=
| CmStr : forall s t, a = VStr s -> b = VStr t -> compares o a b (holds o (lex_lt s t) (s = t) (lex_lt t s))
| CmInt : forall x y, int_of a x -> int_of b y -> compares o a b (holds o (x < y) (x = y) (y < x))
| CmFloat : forall x y, is_float a \/ is_float b -> float_of a x -> float_of b y ->
    compares o a b (holds o (f_lt x y) (f_eq x y) (f_lt y x))
| CmOther : (~ numeric a /\ (forall s, a <> VStr s)) \/ (~ numeric b /\ (forall s, b <> VStr s)) \/
    ((exists s, a = VStr s) /\ numeric b) \/ (numeric a /\ exists s, b = VStr s) -> compares o a b False.

(** two strings, or two integers or Booleans *)
Definition comparable (a b : val) : Prop :=
  (exists s t, a = VStr s /\ b = VStr t) \/ (exists x y, int_of a x /\ int_of b y).

(** ** Functions *)

(** the functions and their numbers of arguments *)
Definition function_table : list (string * option nat) :=
  [("abs", Some 1); ("avg", Some 1); ("ceil", Some 1); ("contains", Some 2); ("ends_with", Some 2);
   ("floor", Some 1); ("keys", Some 1); ("length", Some 1); ("max", None); ("min", None);
   ("prod", Some 1); ("starts_with", Some 2); ("sum", Some 1); ("to_number", Some 1); ("tokenize", Some 2)]%string%nat.

Definition prefix (p s : bytes) : Prop := exists r, s = p ++ r.
Definition suffix (p s : bytes) : Prop := exists r, s = r ++ p.
Definition substring (p s : bytes) : Prop := exists a b, s = a ++ p ++ b.

(** the number of code points in a string: bytes that are not part of the encoding of a
    code point count as one each *)
Inductive code_points : bytes -> Z -> Prop :=
| CpNil : code_points [] 0
| CpRune : forall c e s n, utf8 c e -> surrogate c = false -> code_points s n -> code_points (e ++ s) (n + 1)
| CpByte : forall b s n, (forall c e r, utf8 c e -> surrogate c = false -> b :: s <> e ++ r) -> code_points s n ->
    code_points (b :: s) (n + 1).

(** [f] is an integer as a double *)
Definition whole (f : f64) (n : Z) : Prop := exists q, real_of f = Some q /\ (q == inject_Z n)%Q.

Definition is_number (v : val) : Prop :=
  match v with VInt _ | VInt64 _ | VFloat _ => True | _ => False end.

(** min and max take one array, or several arguments *)
Inductive passes : list val -> list val -> Prop :=
| PsArray : forall l, passes [VArr l] l
| PsArgs : forall a b l, passes (a :: b :: l) (a :: b :: l).
