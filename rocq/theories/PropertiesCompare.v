(** Properties of comparisons between numbers of both kinds. *)
From Verif Require Import Syntax Value Machine SpecOp SpecExpr SpecCompare OpProofs CompareProofs Examples.
Import ListNotations.
Local Open Scope Z_scope.

(** ** C90 *)
(** < is irreflexive and transitive, whatever the kinds of the values. *)
Theorem C90_transitive : forall W a b c, proper a -> proper b -> proper c ->
  computes W OpLT [a; b] (VBool true) -> computes W OpLT [b; c] (VBool true) -> computes W OpLT [a; c] (VBool true).
Proof. exact less_transitive. Qed.
Print Assumptions C90_transitive.

Theorem C90_irreflexive : forall W a, ~ computes W OpLT [a; a] (VBool true).
Proof. exact less_irreflexive. Qed.
Print Assumptions C90_irreflexive.

(** a < b is b > a, and a <= b is b >= a. *)
Theorem C90_mirror : forall W a b r,
  (computes W OpLT [a; b] (VBool r) <-> computes W OpGT [b; a] (VBool r)) /\
  (computes W OpLE [a; b] (VBool r) <-> computes W OpGE [b; a] (VBool r)).
Proof. exact less_mirror. Qed.
Print Assumptions C90_mirror.

(** Of two numbers other than NaN, integers or doubles, exactly one of <, == and > holds. *)
Theorem C90_trichotomy : forall W a b, a_number a -> a_number b -> exists l e g,
  computes W OpLT [a; b] (VBool l) /\ computes W OpEQ [a; b] (VBool e) /\ computes W OpGT [a; b] (VBool g) /\
  computes W OpLE [a; b] (VBool (negb g)) /\ computes W OpGE [a; b] (VBool (negb l)) /\
  ((l = true /\ e = false /\ g = false) \/ (l = false /\ e = true /\ g = false) \/ (l = false /\ e = false /\ g = true)).
Proof. exact numbers_trichotomy. Qed.
Print Assumptions C90_trichotomy.

(** <= and == are transitive, except from one integer to another by a double that both become. *)
Theorem C90_le : forall W a b c, proper a -> proper b -> proper c ->
  computes W OpLE [a; b] (VBool true) -> computes W OpLE [b; c] (VBool true) ->
  computes W OpLE [a; c] (VBool true) \/ (blurred a b c /\ computes W OpGT [a; c] (VBool true)).
Proof. exact le_chain. Qed.
Print Assumptions C90_le.

Theorem C90_eq : forall W a b c, a_number a -> a_number b -> a_number c ->
  computes W OpEQ [a; b] (VBool true) -> computes W OpEQ [b; c] (VBool true) ->
  computes W OpEQ [a; c] (VBool true) \/ blurred a b c.
Proof. exact eq_chain. Qed.
Print Assumptions C90_eq.

(** 2^53 + 1, the double 2^53 and the integer 2^53 are such. *)
Theorem C90_refuted : exists a b c, a_number a /\ a_number b /\ a_number c /\ forall W,
  computes W OpEQ [a; b] (VBool true) /\ computes W OpEQ [b; c] (VBool true) /\ computes W OpEQ [a; c] (VBool false) /\
  computes W OpLE [a; b] (VBool true) /\ computes W OpLE [b; c] (VBool true) /\ computes W OpLE [a; c] (VBool false).
Proof. exact not_transitive. Qed.
Print Assumptions C90_refuted.

(** true < 1.5 < 2, and -Infinity < -9223372036854775808 *)
Example C90_ex : proper (VBool true) /\ proper (VFloat x_half) /\ proper (VInt 2) /\
  computes x_world OpLT [VBool true; VFloat x_half] (VBool true) /\ computes x_world OpLT [VFloat x_half; VInt 2] (VBool true) /\
  a_number (VFloat (S754_infinity true)) /\ a_number (VInt64 (-9223372036854775808)) /\
  computes x_world OpLT [VFloat (S754_infinity true); VInt64 (-9223372036854775808)] (VBool true) /\
  blurred (y_int 1) y_double (y_int 0).
Proof.
  split; [exact I|]. split; [reflexivity|]. split; [cbn; lia|].
  split; [apply computes2; auto; reflexivity|]. split; [apply computes2; auto; reflexivity|].
  split; [split; [reflexivity|split; [eexists; apply FoFloat|discriminate]]|].
  split; [split; [cbn; lia|split; [eexists; apply FoInt, IoInt64|discriminate]]|].
  split; [apply computes2; auto; reflexivity|].
  exists 9007199254740993, 9007199254740992, (S754_finite false 4503599627370496 1).
  split; [constructor|]. split; [constructor|]. split; [reflexivity|]. split; [lia|]. split; reflexivity.
Qed.
