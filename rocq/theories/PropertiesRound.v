(** Properties of floating-point arithmetic against exact arithmetic. *)
From Coq Require Import QArith Qabs.
From Verif Require Import Syntax Value Machine SpecOp SpecExpr SpecRound RoundProofs RoundFinal Examples.
Import ListNotations.
Local Open Scope Z_scope.

(** ** C89 *)
(** With a floating-point operand, +, -, * and / (by other than zero) give the double closest to
    the exact sum, difference, product or quotient of the operands, the even one of two equally
    close, with IEEE 754's signs of zeros, infinities and NaNs; and nothing else. *)
Theorem C89_operators : forall W o a b x y, sum_op o \/ o = OpDiv /\ (forall s, y <> S754_zero s) ->
  proper a -> proper b -> is_float a \/ is_float b -> as_double a x -> as_double b y ->
  (exists f, double_op o x y f) /\ forall v, computes W o [a; b] v <-> exists f, v = VFloat f /\ double_op o x y f.
Proof. exact operators_rounded. Qed.
Print Assumptions C89_operators.

(** sum, prod and avg round after each element, in order. *)
Theorem C89_folds : forall W a fs, Forall proper a -> Forall2 as_double a fs ->
  (forall v, calls W "sum" [VArr a] v <-> exists f, v = VFloat f /\ in_turn OpAdd (S754_zero false) fs f) /\
  (forall v, calls W "prod" [VArr a] v <->
     match fs with [] => v = VNil | x :: r => exists f, v = VFloat f /\ in_turn OpMul x r f end) /\
  (forall v, calls W "avg" [VArr a] v <-> exists s n f, v = VFloat f /\ in_turn OpAdd (S754_zero false) fs s /\
     as_double (VInt64 (Z.of_nat (length a))) n /\ double_op OpDiv s n f).
Proof. exact folds_rounded. Qed.
Print Assumptions C89_folds.

(** At most one double fits the description. *)
Theorem C89_determined : forall o x y f g, sum_op o \/ o = OpDiv -> double x -> double y ->
  double_op o x y f -> double_op o x y g -> f = g.
Proof. exact double_op_same. Qed.
Print Assumptions C89_determined.

(** 2^53 + 1 is between two doubles, and becomes 2^53.  0.1 + 0.2 is 0.30000000000000004;
    the double before it, 0.3, is not the result.  2^1023 * 2 overflows, the smallest double halved
    is zero, and its negative halved is negative zero. *)
Definition x_tenth : f64 := S754_finite false 7205759403792794 (-56).
Definition x_fifth : f64 := S754_finite false 7205759403792794 (-55).
Example C89_ex :
  proper (VInt64 9007199254740993) /\ as_double (VInt64 9007199254740993) (S754_finite false 4503599627370496 1) /\
  double x_tenth /\ double x_fifth /\ as_double (VFloat x_tenth) x_tenth /\ is_float (VFloat x_fifth) /\
  double_op OpAdd x_tenth x_fifth (S754_finite false 5404319552844596 (-54)) /\
  ~ double_op OpAdd x_tenth x_fifth (S754_finite false 5404319552844595 (-54)) /\
  double_op OpMul (S754_finite false 4503599627370496 971) (nearest 2) (S754_infinity false) /\
  double_op OpDiv (S754_finite false 1 (-1074)) (nearest 2) (S754_zero false) /\
  double_op OpDiv (S754_finite true 1 (-1074)) (nearest 2) (S754_zero true) /\
  in_turn OpAdd (S754_zero false) [x_tenth; x_tenth; x_tenth] (S754_finite false 5404319552844596 (-54)).
Proof.
  split; [cbn; lia|]. split; [apply as_double_is; change (S754_finite false 4503599627370496 1) with (nearest 9007199254740993); constructor; constructor|].
  split; [reflexivity|]. split; [reflexivity|]. split; [left; reflexivity|]. split; [eexists; reflexivity|].
  split; [apply double_op_is; [left; left; reflexivity|reflexivity..]|].
  split; [intro H; apply double_op_is in H; [discriminate H|left; left; reflexivity|reflexivity..]|].
  split; [apply double_op_is; [left; right; right; reflexivity|reflexivity..]|].
  split; [apply double_op_is; [right; reflexivity|reflexivity..]|].
  split; [apply double_op_is; [right; reflexivity|reflexivity..]|].
  apply in_turn_is; [left; left; reflexivity|reflexivity|repeat constructor|reflexivity].
Qed.
