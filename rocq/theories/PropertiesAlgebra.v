(** Properties of arithmetic: its laws. *)
From Verif Require Import Syntax Value SpecOp SpecExpr SpecIndex OpProofs AlgebraProofs Examples.
Import ListNotations.
Local Open Scope Z_scope.

(** ** C92 *)
(** + and * commute, whatever the operands. *)
Theorem C92_commutes : forall W o a b v, o = OpAdd \/ o = OpMul -> (computes W o [a; b] v <-> computes W o [b; a] v).
Proof. exact sum_commutes. Qed.
Print Assumptions C92_commutes.

(** Of integers and Booleans they are associative, and * distributes over + and -. *)
Theorem C92_associates : forall W o a b c ab bc v, o = OpAdd \/ o = OpMul ->
  (exists x, int_of a x) -> (exists y, int_of b y) -> (exists z, int_of c z) ->
  computes W o [a; b] ab -> computes W o [b; c] bc -> (computes W o [ab; c] v <-> computes W o [a; bc] v).
Proof. exact int_associates. Qed.
Print Assumptions C92_associates.

Theorem C92_distributes : forall W o a b c bc ab ac v, o = OpAdd \/ o = OpSub ->
  (exists x, int_of a x) -> (exists y, int_of b y) -> (exists z, int_of c z) ->
  computes W o [b; c] bc -> computes W OpMul [a; b] ab -> computes W OpMul [a; c] ac ->
  (computes W OpMul [a; bc] v <-> computes W o [ab; ac] v).
Proof. exact int_distributes. Qed.
Print Assumptions C92_distributes.

(** a - b is a + (-b), if both are integers or b is a double. *)
Theorem C92_minus : forall W a b nb v, proper b -> ((exists x, int_of a x) /\ (exists y, int_of b y)) \/ (numeric a /\ is_float b) ->
  computes W OpNeg [b] nb -> (computes W OpSub [a; b] v <-> computes W OpAdd [a; nb] v).
Proof. exact minus_is_plus. Qed.
Print Assumptions C92_minus.

(** (a / b) * b + a % b is a, also where a / b wraps. *)
Theorem C92_divides : forall W a b x y q r m, proper a -> proper b -> int_of a x -> int_of b y -> y <> 0 ->
  computes W OpDiv [a; b] q -> computes W OpMod [a; b] r -> computes W OpMul [q; b] m -> computes W OpAdd [m; r] (VInt64 x).
Proof. exact int_divides. Qed.
Print Assumptions C92_divides.

(** Sums of doubles are not associative: 0.1, 0.2 and 0.3 give different sums, unequal by ==. *)
Theorem C92_refuted : exists a b c ab bc, proper a /\ proper b /\ proper c /\ forall W,
  computes W OpAdd [a; b] ab /\ computes W OpAdd [b; c] bc /\
  forall v w, computes W OpAdd [ab; c] v -> computes W OpAdd [a; bc] w -> computes W OpEQ [v; w] (VBool false).
Proof. exact floats_do_not_associate. Qed.
Print Assumptions C92_refuted.

(** the most negative integer, -1 and 2; -1.5 *)
Example C92_ex : let m := VInt64 (-9223372036854775808) in
  computes x_world OpMul [m; VInt (-1)] m /\ computes x_world OpMul [VInt (-1); VInt64 2] (VInt64 (-2)) /\
  computes x_world OpMul [m; VInt64 2] (VInt64 0) /\ computes x_world OpDiv [m; VInt (-1)] m /\
  computes x_world OpMod [m; VInt (-1)] (VInt64 0) /\ computes x_world OpNeg [m] m /\
  computes x_world OpSub [VInt64 1; m] (VInt64 (-9223372036854775807)) /\
  computes x_world OpNeg [VFloat x_half] (VFloat (S754_finite true 6755399441055744 (-52))) /\ is_float (VFloat x_half) /\ numeric (VBool true).
Proof.
  intro m. unfold m. repeat match goal with |- _ /\ _ => split end; try (apply computes2; [left; reflexivity|reflexivity]);
  [apply computes1; [left; reflexivity|reflexivity]|apply computes1; [left; reflexivity|reflexivity]|eexists; reflexivity|eexists; apply FoInt, IoTrue].
Qed.
