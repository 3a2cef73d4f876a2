(** Properties of integers and their texts. *)
From Verif Require Import Syntax Value SpecOp SpecSelect SpecExpr SpecIndex EqProofs IndexProofs NumTextProofs Examples.
Import ListNotations.
Local Open Scope Z_scope.

(** ** C91 *)
(** The texts read as integers are those of digits with an optional sign whose value has 64 bits;
    the properties of == and of json.Number mention [parse_int]. *)
Theorem C91_reads : forall s z, parse_int s = Some z <-> int_text s z.
Proof. exact parse_int_spec. Qed.
Print Assumptions C91_reads.

(** The decimal form of an integer is one. *)
Theorem C91_decimal : forall z, -9223372036854775808 <= z <= 9223372036854775807 -> int_text (decimal z) z.
Proof. exact int_text_decimal. Qed.
Print Assumptions C91_decimal.

(** An integer equals the texts that are read as it, and no others; but 0 also equals the empty
    text and every text that is read as a number and not as an integer. *)
Theorem C91_equals : forall W v z s, v = VInt z \/ v = VInt64 z ->
  (computes W OpEQ [v; VStr s] (VBool true) <->
     int_text s z \/ (z = 0 /\ (s = [] \/ ((forall n, ~ int_text s n) /\ o_parse_float (w_text W) s <> None)))) /\
  (forall r, computes W OpEQ [v; VStr s] (VBool r) <-> computes W OpEQ [VStr s; v] (VBool r)).
Proof. exact int_against_text. Qed.
Print Assumptions C91_equals.

(** -007 is read as -7 and equals it; 0 == "1.5" holds, 1 == "1.5" does not. *)
Example C91_ex : int_text (b_of "-007") (-7) /\ computes x_world OpEQ [VInt64 (-7); VStr (b_of "-007")] (VBool true) /\
  ~ int_text (b_of "9223372036854775808") 9223372036854775808 /\
  computes x_world OpEQ [VInt64 0; VStr (b_of "1.5")] (VBool true) /\
  computes x_world OpEQ [VInt64 1; VStr (b_of "1.5")] (VBool false).
Proof.
  split; [apply C91_reads; reflexivity|]. split; [apply computes_eq; reflexivity|].
  split; [intro H; apply C91_reads in H; discriminate H|]. split; apply computes_eq; reflexivity.
Qed.
