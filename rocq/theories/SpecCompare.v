(** Numbers that <, <=, ==, >= and > compare.  A specification. *)
From Verif Require Import Syntax Value SpecExpr.
Local Open Scope Z_scope.

(** a number or Boolean other than NaN *)
Definition a_number (v : val) : Prop := proper v /\ numeric v /\ v <> VFloat S754_nan.

(** different integers that both become the double between them *)
Definition blurred (a b c : val) : Prop :=
  exists x z f, int_of a x /\ int_of c z /\ b = VFloat f /\ x <> z /\ f_eq (nearest x) f /\ f_eq f (nearest z).
