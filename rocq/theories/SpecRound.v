(** Floating-point arithmetic in terms of exact values.  A specification. *)
From Coq Require Import QArith Qabs.
From Verif Require Import Syntax Value SpecExpr.
Local Open Scope Z_scope.

Definition even_mantissa (f : f64) : Prop :=
  match f with S754_zero _ => True | S754_finite _ m _ => Z.even (Z.pos m) = true | _ => False end.
Definition sign_of (f : f64) : option bool :=
  match f with S754_zero s | S754_finite s _ _ | S754_infinity s => Some s | S754_nan => None end.

(** [f] is the double closest to [q]; if there are two, the one with the even mantissa *)
Definition closest (q : Q) (f : f64) : Prop :=
  exists r, real_of f = Some r /\
  forall g r', double g -> real_of g = Some r' ->
    (r == r')%Q \/ (Qabs (q - r) < Qabs (q - r'))%Q \/
    ((Qabs (q - r) == Qabs (q - r'))%Q /\ even_mantissa f /\ ~ even_mantissa g).

(** half way between the largest double and 2^1024 *)
Definition overflow : Q := inject_Z (2 ^ 1024 - 2 ^ 970).

(** IEEE 754, roundTiesToEven *)
Inductive rounded (q : Q) : f64 -> Prop :=
| RoFinite : forall f, (Qabs q < overflow)%Q -> double f -> closest q f ->
    ((q < 0)%Q -> sign_of f = Some true) -> ((0 < q)%Q -> sign_of f = Some false) -> rounded q f
| RoOver : forall s : bool, (overflow <= Qabs q)%Q -> (if s then q < 0 else 0 < q)%Q -> rounded q (S754_infinity s).

(** the exact results *)
Definition exact_q (o : op) (p q : Q) : Q :=
  match o with OpAdd => p + q | OpSub => p - q | OpMul => p * q | _ => p / q end%Q.

(** the sign of a zero result: that of both operands of a sum, else positive; of a product or
    quotient, whether the signs of the operands differ *)
Definition zero_sign (o : op) (x y : f64) (s : bool) : Prop :=
  match o with
  | OpAdd => s = true <-> x = S754_zero true /\ y = S754_zero true
  | OpSub => s = true <-> x = S754_zero true /\ y = S754_zero false
  | _ => exists a b, sign_of x = Some a /\ sign_of y = Some b /\ s = xorb a b
  end.

(** the result of an operation on finite doubles *)
Definition ieee (o : op) (x y f : f64) : Prop :=
  exists p q, real_of x = Some p /\ real_of y = Some q /\ (o = OpDiv -> ~ q == 0)%Q /\ rounded (exact_q o p q) f /\
    forall s, f = S754_zero s -> (exact_q o p q == 0)%Q -> zero_sign o x y s.

(** the result of an operation on doubles one of which is infinite or not a number, or of a
    division by zero *)
Inductive ieee_inf : op -> f64 -> f64 -> f64 -> Prop :=
| InNan : forall o x y, x = S754_nan \/ y = S754_nan -> ieee_inf o x y S754_nan
| InAddLeft : forall s y, y <> S754_nan -> y <> S754_infinity (negb s) -> ieee_inf OpAdd (S754_infinity s) y (S754_infinity s)
| InAddRight : forall s x, real_of x <> None -> ieee_inf OpAdd x (S754_infinity s) (S754_infinity s)
| InAddNan : forall s, ieee_inf OpAdd (S754_infinity s) (S754_infinity (negb s)) S754_nan
| InSubLeft : forall s y, y <> S754_nan -> y <> S754_infinity s -> ieee_inf OpSub (S754_infinity s) y (S754_infinity s)
| InSubRight : forall s x, real_of x <> None -> ieee_inf OpSub x (S754_infinity s) (S754_infinity (negb s))
| InSubNan : forall s, ieee_inf OpSub (S754_infinity s) (S754_infinity s) S754_nan
| InMul : forall x y a b, sign_of x = Some a -> sign_of y = Some b -> x = S754_infinity a \/ y = S754_infinity b ->
    (forall s, x <> S754_zero s /\ y <> S754_zero s) -> ieee_inf OpMul x y (S754_infinity (xorb a b))
| InMulNan : forall x y s s', x = S754_infinity s /\ y = S754_zero s' \/ x = S754_zero s' /\ y = S754_infinity s ->
    ieee_inf OpMul x y S754_nan
| InDivLeft : forall a y b, real_of y <> None -> sign_of y = Some b -> ieee_inf OpDiv (S754_infinity a) y (S754_infinity (xorb a b))
| InDivRight : forall x a b, real_of x <> None -> sign_of x = Some a -> ieee_inf OpDiv x (S754_infinity b) (S754_zero (xorb a b))
| InDivNan : forall a b, ieee_inf OpDiv (S754_infinity a) (S754_infinity b) S754_nan
| InDivZero : forall x p a b, real_of x = Some p -> ~ (p == 0)%Q -> sign_of x = Some a -> ieee_inf OpDiv x (S754_zero b) (S754_infinity (xorb a b))
| InDivZeros : forall a b, ieee_inf OpDiv (S754_zero a) (S754_zero b) S754_nan.

Definition double_op (o : op) (x y f : f64) : Prop := ieee o x y f \/ ieee_inf o x y f.

(** a number or Boolean as a double *)
Definition as_double (v : val) (x : f64) : Prop :=
  v = VFloat x \/ exists z, int_of v z /\ rounded (inject_Z z) x /\ (z = 0 -> x = S754_zero false).

(** an operation applied to each in turn *)
Inductive in_turn (o : op) : f64 -> list f64 -> f64 -> Prop :=
| TuNil : forall x, in_turn o x [] x
| TuCons : forall x y z l f, double_op o x y z -> in_turn o z l f -> in_turn o x (y :: l) f.
