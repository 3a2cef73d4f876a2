(** Properties of operators (C30-C34, C38, C39) and functions (C41-C46, C55).  [computes W o vs v]:
    an order with the operator [o], in any program and any state of the machine whose stack
    ends with the operands [vs], replaces them by [v] and changes nothing else;
    [raises W o vs e]: it makes the evaluation fail with [e]. *)
From Coq Require Import Permutation QArith Qabs.
From Verif Require Import Syntax Value Program Machine SpecRun SpecOp SpecExpr OpProofs ArithProofs LogicProofs FnProofs
  ExprFinal Examples.
Local Open Scope Z_scope.

(** ** C30 *)
(** + - * on integers and Booleans give the exact result reduced modulo 2^64 into the signed
    range, with a floating-point operand the IEEE double result, and otherwise failure. *)
Theorem C30_arithmetic : forall W o a b, sum_op o ->
  (exists v, sums_to o a b v) /\ forall v, sums_to o a b v <-> computes W o [a; b] v.
Proof. exact sums_exact. Qed.
Print Assumptions C30_arithmetic.

(** 3037000500 * 3037000500 = 9223372037000250000 wraps to -9223372036709301616 *)
Example C30_ex : sum_op OpMul /\ sums_to OpMul (VInt64 3037000500) (VInt 3037000500) (VInt64 (-9223372036709301616)) /\
  sums_to OpAdd (VBool true) (VFloat x_half) (VFloat (S754_finite false 5629499534213120 (-51))) /\
  sums_to OpSub (VStr []) (VInt64 1) (VErr KFailure).
Proof.
  split; [right; right; reflexivity|]. split; [|split].
  - apply SmInt with 3037000500 3037000500; [constructor|constructor|]. split; [lia|]. exists 1. reflexivity.
  - change (S754_finite false 5629499534213120 (-51)) with (ieee_op OpAdd (nearest 1) x_half).
    apply SmFloat; [right; eexists; reflexivity|apply FoInt; constructor|constructor].
  - apply SmOther. left. intros [f H]. inversion H as [|v z K]; inversion K.
Qed.

(** ** C31 *)
(** Integer / truncates toward zero and % has the dividend's sign, modulo 2^64; floating / is
    the IEEE one and % the exact remainder; division by zero is a failure, and so are operands
    that are not numbers.  [proper]: integers have 64 bits and floats are doubles. *)
Theorem C31_division : forall W o a b, div_op o -> proper a -> proper b ->
  (exists v, divided o a b v) /\ forall v, divided o a b v <-> computes W o [a; b] v.
Proof. exact divided_exact. Qed.
Print Assumptions C31_division.

(** The most negative integer divided by -1 wraps. *)
Theorem C31_wrap : forall W b, b = VInt64 (-1) \/ b = VInt (-1) ->
  computes W OpDiv [VInt64 (-9223372036854775808); b] (VInt64 (-9223372036854775808)) /\
  computes W OpMod [VInt64 (-9223372036854775808); b] (VInt64 0).
Proof. exact min_over_minus_one. Qed.
Print Assumptions C31_wrap.

(** -7 / 2 = -3, -7 % 2 = -1, 1.5 % 1 = 0.5, 1 / 0 and 1 % 0.0 fail *)
Example C31_ex : div_op OpMod /\ proper (VInt64 (-7)) /\ proper (VFloat x_half) /\
  divided OpDiv (VInt64 (-7)) (VInt64 2) (VInt64 (-3)) /\ divided OpMod (VInt64 (-7)) (VInt64 2) (VInt64 (-1)) /\
  divided OpMod (VFloat x_half) (VInt64 1) (VFloat (S754_finite false 4503599627370496 (-53))) /\
  divided OpDiv (VInt64 1) (VBool false) (VErr KFailure) /\
  divided OpMod (VInt64 1) (VFloat (S754_zero true)) (VErr KFailure).
Proof.
  split; [right; reflexivity|]. split; [cbn; lia|]. split; [reflexivity|].
  split; [|split; [|split; [|split]]].
  - apply DvInt with (-7) 2 (-3) (-1); [constructor|constructor|discriminate| |].
    + split; [reflexivity|]. split; [reflexivity|]. right. reflexivity.
    + split; [lia|]. exists 0. reflexivity.
  - apply DvInt with (-7) 2 (-3) (-1); [constructor|constructor|discriminate| |].
    + split; [reflexivity|]. split; [reflexivity|]. right. reflexivity.
    + split; [lia|]. exists 0. reflexivity.
  - apply DvRem with x_half (nearest 1); [reflexivity|left; eexists; reflexivity|constructor|apply FoInt; constructor|].
    split; [reflexivity|]. eexists; eexists; eexists; exists 1.
    split; [reflexivity|]. split; [reflexivity|]. split; [reflexivity|]. split; [reflexivity|]. split; reflexivity.
  - apply DvIntZero with 1; constructor.
  - apply DvFloatZero with (nearest 1) true; [right; eexists; reflexivity|apply FoInt; constructor|constructor].
Qed.

(** ** C32 *)
(** A failed operand of an operator that needs both operands makes its result a failure. *)
Theorem C32_failure : forall W o a b, strict o -> failure a \/ failure b -> computes W o [a; b] (VErr KFailure).
Proof. exact strict_failure. Qed.
Print Assumptions C32_failure.

(** So does the failed operand of unary minus. *)
Theorem C32_minus : forall W a, failure a -> computes W OpNeg [a] (VErr KFailure).
Proof. exact neg_failure. Qed.
Print Assumptions C32_minus.

Example C32_ex : strict OpMatch /\ failure (VErr (KNumber (b_of "x"))) /\
  computes x_world OpMatch [VInt64 3; VErr (KNumber (b_of "x"))] (VErr KFailure).
Proof.
  split; [cbn; tauto|]. split; [eexists; reflexivity|]. apply strict_failure; [cbn; tauto|]. right. eexists. reflexivity.
Qed.

(** ** C33 *)
(** a || b is a if a is truthy and b otherwise (a failure if both failed); a && b is a if a is
    falsy and b otherwise; !a is the complement of a's truth.  [falsy] lists the falsy values. *)
Theorem C33_logic : forall W a b v,
  (or_value W a b v <-> computes W OpOr [a; b] v) /\ (and_value W a b v <-> computes W OpAnd [a; b] v) /\
  exists r, computes W OpNot [a] (VBool r) /\ (r = true <-> falsy W a).
Proof. exact logic_exact. Qed.
Print Assumptions C33_logic.

Example C33_ex : or_value x_world (VFloat S754_nan) (VInt64 0) (VInt64 0) /\
  and_value x_world (VArr []) (VStr []) (VStr []) /\ falsy x_world (VFloat (S754_zero true)) /\
  ~ falsy x_world (VObj []) /\ or_value x_world (VErr KType) (VErr KOverflow) (VErr KFailure).
Proof.
  split; [apply OrRight; [apply FaNan|left; intros [k H]; discriminate]|].
  split; [apply AndRight; intro H; inversion H as [|v [k K]| | | | | | | | |]; discriminate|].
  split; [apply FaZero|]. split; [intro H; inversion H as [|v [k K]| | | | | | | | |]; discriminate|].
  apply OrNeither; eexists; reflexivity.
Qed.

(** ** C34 *)
(** Strings compare byte-wise, numbers and Booleans numerically, and any other combination is
    false. *)
Theorem C34_order : forall W o a b, rel_op o -> ~ failure a -> ~ failure b ->
  (exists P, compares o a b P) /\
  forall P, compares o a b P -> exists r, computes W o [a; b] (VBool r) /\ (r = true <-> P).
Proof. exact compares_exact. Qed.
Print Assumptions C34_order.

(** Exactly one of <, == and > holds of two strings and of two integers; <= is the negation
    of > and >= that of <. *)
Theorem C34_trichotomy : forall W a b, comparable a b -> exists l e g,
  computes W OpLT [a; b] (VBool l) /\ computes W OpEQ [a; b] (VBool e) /\ computes W OpGT [a; b] (VBool g) /\
  computes W OpLE [a; b] (VBool (negb g)) /\ computes W OpGE [a; b] (VBool (negb l)) /\
  ((l = true /\ e = false /\ g = false) \/ (l = false /\ e = true /\ g = false) \/ (l = false /\ e = false /\ g = true)).
Proof. exact trichotomy. Qed.
Print Assumptions C34_trichotomy.

(** The order of doubles is that of the numbers they stand for. *)
Theorem C34_floats : forall x y p q, double x -> double y -> real_of x = Some p -> real_of y = Some q ->
  (f_lt x y <-> (p < q)%Q) /\ (f_eq x y <-> (p == q)%Q).
Proof. exact float_order. Qed.
Print Assumptions C34_floats.

Example C34_ex : rel_op OpLE /\ ~ failure (VStr (b_of "B")) /\
  compares OpLE (VStr (b_of "B")) (VStr (b_of "a")) (holds OpLE (lex_lt (b_of "B") (b_of "a")) (b_of "B" = b_of "a") (lex_lt (b_of "a") (b_of "B"))) /\
  lex_lt (b_of "B") (b_of "a") /\
  compares OpGT (VStr (b_of "10")) (VInt64 9) False /\ comparable (VBool true) (VInt64 0) /\
  double x_half /\ real_of x_half = Some (6755399441055744 # 4503599627370496)%Q /\ f_lt (nearest 1) x_half.
Proof.
  split; [cbn; tauto|]. split; [intros [k H]; discriminate|]. split; [apply CmStr; reflexivity|].
  split; [apply LxByte; reflexivity|]. split.
  { apply CmOther. right. right. left. split; [eexists; reflexivity|]. eexists. apply FoInt. constructor. }
  split; [right; exists 1, 0; split; constructor|]. split; [reflexivity|]. split; reflexivity.
Qed.

(** ** C38 *)
(** x in a is true iff some element of the array a equals x (==), and nin is its negation. *)
Theorem C38_member : forall W x l, ~ failure x -> exists r,
  computes W OpIn [x; VArr l] (VBool r) /\ computes W OpNin [x; VArr l] (VBool (negb r)) /\
  (r = true <-> exists el, In el l /\ computes W OpEQ [el; x] (VBool true)).
Proof. exact in_computes. Qed.
Print Assumptions C38_member.

(** Any other right operand is a run-time error. *)
Theorem C38_error : forall W x v, ~ failure x -> ~ failure v -> (forall l, v <> VArr l) ->
  raises W OpIn [x; v] (RInRight false v) /\ raises W OpNin [x; v] (RInRight true v).
Proof. exact in_raises. Qed.
Print Assumptions C38_error.

Example C38_ex : ~ failure (VInt64 2) /\ In (VStr (b_of "2")) [VNil; VStr (b_of "2")] /\
  computes x_world OpEQ [VStr (b_of "2"); VInt64 2] (VBool true) /\
  computes x_world OpIn [VInt64 2; VArr [VNil; VStr (b_of "2")]] (VBool true) /\
  raises x_world OpNin [VInt64 2; VStr []] (RInRight true (VStr [])).
Proof.
  split; [intros [k H]; discriminate|]. split; [right; left; reflexivity|].
  split; [apply eq_computes|]. split.
  - destruct (in_computes x_world (VInt64 2) [VNil; VStr (b_of "2")]) as (r & C & _ & I); [intros [k H]; discriminate|].
    assert (E : r = true); [|subst r; exact C]. apply I. exists (VStr (b_of "2")). split; [right; left; reflexivity|]. apply eq_computes.
  - apply in_raises; try discriminate; intros [k H]; discriminate.
Qed.

(** ** C39 *)
(** s =~ re is the regexp's verdict; the right operand is a regexp literal or a string that
    compiles. *)
Theorem C39_match : forall W s v pat, v = VRegexp pat \/ (v = VStr pat /\ o_re_ok (w_text W) pat = true) ->
  computes W OpMatch [VStr s; v] (VBool (w_re_match W pat s)).
Proof. exact match_computes. Qed.
Print Assumptions C39_match.

(** Patterns that do not compile, other right operands and left operands that are not strings
    are run-time errors (failures are not: C32). *)
Theorem C39_errors : forall W a b, ~ failure a -> ~ failure b ->
  (forall pat, b = VStr pat -> o_re_ok (w_text W) pat = false -> raises W OpMatch [a; b] (RBadRegexp pat)) /\
  ((forall p, b <> VRegexp p) -> (forall p, b <> VStr p) -> raises W OpMatch [a; b] (RMatchRight b)) /\
  (forall pat, (forall s, a <> VStr s) -> b = VRegexp pat \/ (b = VStr pat /\ o_re_ok (w_text W) pat = true) ->
     raises W OpMatch [a; b] (RMatchLeft a)).
Proof. exact match_errors. Qed.
Print Assumptions C39_errors.

Example C39_ex : computes x_world OpMatch [VStr (b_of "x"); VRegexp (b_of "x")] (VBool true) /\
  computes x_world OpMatch [VStr (b_of "x"); VStr (b_of "y")] (VBool false) /\
  raises x_world OpMatch [VInt64 1; VRegexp (b_of "x")] (RMatchLeft (VInt64 1)) /\
  raises x_world OpMatch [VStr []; VNil] (RMatchRight VNil).
Proof.
  split; [apply (match_computes x_world (b_of "x") (VRegexp (b_of "x")) (b_of "x")); left; reflexivity|].
  split; [apply (match_computes x_world (b_of "x") (VStr (b_of "y")) (b_of "y")); right; split; reflexivity|].
  split; [apply match_left with (b_of "x"); [intros [k H]; discriminate|discriminate|left; reflexivity]|].
  apply match_right; try discriminate; intros [k H]; discriminate.
Qed.

(** ** C41 *)
(** starts_with, ends_with and contains on strings. *)
Theorem C41_predicates : forall W s p,
  (exists r, calls W "starts_with" [VStr s; VStr p] (VBool r) /\ (r = true <-> prefix p s)) /\
  (exists r, calls W "ends_with" [VStr s; VStr p] (VBool r) /\ (r = true <-> suffix p s)) /\
  (exists r, calls W "contains" [VStr s; VStr p] (VBool r) /\ (r = true <-> substring p s)).
Proof. intros W s p. exact (conj (starts_computes W s p) (conj (ends_computes W s p) (contains_computes W s p))). Qed.
Print Assumptions C41_predicates.

(** Other arguments are a failure, except that contains also searches arrays. *)
Theorem C41_others : forall W f a b, In f ["starts_with"; "ends_with"; "contains"]%string ->
  ~ (exists s p, a = VStr s /\ b = VStr p) -> (f = "contains"%string -> forall l, a <> VArr l) ->
  exists k, calls W f [a; b] (VErr k).
Proof. exact predicate_failure. Qed.
Print Assumptions C41_others.
Theorem C41_arrays : forall W l x, exists r, calls W "contains" [VArr l; x] (VBool r) /\
  (r = true <-> exists el, In el l /\ computes W OpEQ [el; x] (VBool true)).
Proof. exact contains_array. Qed.
Print Assumptions C41_arrays.

Example C41_ex : substring (b_of "bc") (b_of "abcd") /\ ~ prefix (b_of "bc") (b_of "abcd") /\
  calls x_world "contains" [VStr (b_of "abcd"); VStr (b_of "bc")] (VBool true) /\
  calls x_world "ends_with" [VStr (b_of "abcd"); VInt64 4] (VErr KFailure).
Proof.
  split; [exists (b_of "a"), (b_of "d"); reflexivity|]. split; [intros [r H]; discriminate|]. split; by_call.
Qed.

(** ** C42 *)
(** max (min) of numbers is the double of one of them, and none is greater (less); no NaN. *)
Theorem C42_numbers_partial : forall W args l fs, passes args l -> Forall2 float_of l fs -> Forall (fun x => x <> S754_nan) fs ->
  match l with v :: _ => is_number v | [] => False end ->
  (exists r, calls W "max" args (VFloat r) /\ In r fs /\ forall x, In x fs -> ~ f_lt r x) /\
  (exists r, calls W "min" args (VFloat r) /\ In r fs /\ forall x, In x fs -> ~ f_lt x r).
Proof. exact max_numbers. Qed.
Print Assumptions C42_numbers_partial.

(** min of strings is one of them, and none is less. *)
Theorem C42_min_strings : forall W args l ss, passes args l -> l = map VStr ss -> ss <> [] ->
  exists r, calls W "min" args (VStr r) /\ In r ss /\ forall x, In x ss -> r = x \/ lex_lt r x.
Proof. exact min_strings. Qed.
Print Assumptions C42_min_strings.

(** max of strings is their minimum as well. *)
Theorem C42_max_strings : forall W args l ss, passes args l -> l = map VStr ss -> ss <> [] ->
  exists r, calls W "max" args (VStr r) /\ In r ss /\ forall x, In x ss -> r = x \/ lex_lt r x.
Proof. exact max_strings_min. Qed.
Print Assumptions C42_max_strings.

(** Of nothing, both are null; anything but numbers or Booleans after a number, or strings after
    a string, is a failure. *)
Theorem C42_otherwise : forall W f, In f ["max"; "min"]%string ->
  calls W f [] VNil /\ calls W f [VArr []] VNil /\ (forall v, (forall l, v <> VArr l) -> calls W f [v] (VErr KType)) /\
  (forall args l, passes args l ->
    match l with
    | VStr _ :: a => Exists (fun v => forall s, v <> VStr s) a
    | v :: a => ~ is_number v \/ Exists (fun v => ~ numeric v) a
    | [] => False
    end -> calls W f args (VErr KType)).
Proof. exact minmax_other. Qed.
Print Assumptions C42_otherwise.

(** max("a", "b") is "a". *)
Theorem C42_max_strings_refuted : exists W args l ss r x, passes args l /\ l = map VStr ss /\ calls W "max" args (VStr r) /\
  In x ss /\ lex_lt r x.
Proof. exact max_strings_wrong. Qed.
Print Assumptions C42_max_strings_refuted.

(** The result for integers is a double, which need not be one of them: max([2^53+1]) is 2^53. *)
Theorem C42_integers_refuted : forall W,
  calls W "max" [VArr [VInt64 9007199254740993]] (VFloat (S754_finite false 4503599627370496 1)) /\
  real_of (S754_finite false 4503599627370496 1) = Some (inject_Z 9007199254740992).
Proof. exact max_rounds. Qed.
Print Assumptions C42_integers_refuted.

Example C42_ex : passes [VArr [VInt64 1; VFloat x_half]] [VInt64 1; VFloat x_half] /\
  Forall2 float_of [VInt64 1; VFloat x_half] [nearest 1; x_half] /\ Forall (fun x => x <> S754_nan) [nearest 1; x_half] /\
  calls x_world "max" [VArr [VInt64 1; VFloat x_half]] (VFloat x_half) /\
  calls x_world "min" [VStr (b_of "b"); VStr (b_of "a")] (VStr (b_of "a")).
Proof.
  split; [constructor|]. split; [repeat constructor|]. split; [repeat constructor; discriminate|]. split; by_call.
Qed.

Example C42_otherwise_ex : passes [VStr (b_of "a"); VInt64 1] [VStr (b_of "a"); VInt64 1] /\
  Exists (fun v => forall s, v <> VStr s) [VInt64 1] /\ ~ is_number (VBool true) /\
  calls x_world "max" [VStr (b_of "a"); VStr (b_of "b")] (VStr (b_of "a")) /\
  calls x_world "max" [VStr (b_of "a"); VInt64 1] (VErr KType) /\ calls x_world "min" [VBool true; VInt64 1] (VErr KType).
Proof.
  split; [constructor|]. split; [left; discriminate|]. split; [intros []|]. repeat split; by_call.
Qed.

(** ** C43 *)
(** sum, prod and avg fold IEEE addition and multiplication from the left over the elements;
    sum([]) is 0 and prod([]) is null. *)
Theorem C43_folds : forall W a fs, Forall2 float_of a fs ->
  calls W "sum" [VArr a] (VFloat (fold_left (SFadd 53 1024) fs (S754_zero false))) /\
  calls W "prod" [VArr a] (match fs with [] => VNil | x :: r => VFloat (fold_left (SFmul 53 1024) r x) end) /\
  calls W "avg" [VArr a] (VFloat (SFdiv 53 1024 (fold_left (SFadd 53 1024) fs (S754_zero false)) (nearest (Z.of_nat (length a))))).
Proof. exact folds_exact. Qed.
Print Assumptions C43_folds.

(** Any element that is not a number, or anything but an array, is a failure. *)
Theorem C43_failures : forall W f v, In f ["sum"; "prod"; "avg"]%string ->
  (forall l, v = VArr l -> Exists (fun x => ~ numeric x) l) -> exists k, calls W f [v] (VErr k).
Proof. exact folds_fail. Qed.
Print Assumptions C43_failures.

Example C43_ex : Forall2 float_of [VFloat x_half; VBool true; VInt64 2] [x_half; nearest 1; nearest 2] /\
  calls x_world "prod" [VArr [VFloat x_half; VBool true; VInt64 2]] (VFloat (nearest 3)) /\
  calls x_world "avg" [VArr [VFloat x_half; VBool true; VInt64 2]] (VFloat x_half) /\
  Exists (fun x => ~ numeric x) [VInt64 1; VStr (b_of "2")].
Proof.
  split; [repeat constructor|]. split; [by_call|]. split; [by_call|].
  right. left. intros [f H]. inversion H as [|v z K]; inversion K.
Qed.

(** ** C44 *)
(** length(x) and x.length. *)
Theorem C44_length : forall W,
  (forall s, exists n, code_points s n /\ calls W "length" [VStr s] (VInt64 n) /\ dot_length W (VStr s) (VInt64 n)) /\
  (forall l, calls W "length" [VArr l] (VInt64 (Z.of_nat (length l))) /\ dot_length W (VArr l) (VInt64 (Z.of_nat (length l)))) /\
  (forall m, calls W "length" [VObj m] (VInt64 (Z.of_nat (length m))) /\ dot_length W (VObj m) (VInt64 (Z.of_nat (length m)))) /\
  (forall v, (forall s, v <> VStr s) -> (forall l, v <> VArr l) -> (forall m, v <> VObj m) ->
     calls W "length" [v] VNil /\ dot_length W v (VErr KFailure)).
Proof. exact length_exact. Qed.
Print Assumptions C44_length.

(** the bytes C3 A9 (one code point), 61, and FF (part of none) *)
Example C44_ex : calls x_world "length" [VStr [195; 169; 97; 255]] (VInt64 3) /\
  dot_length x_world (VObj [(b_of "a", VNil)]) (VInt64 1) /\ dot_length x_world (VInt64 3) (VErr KFailure).
Proof.
  split; [by_call|]. split; [apply length_object|]. apply length_other; discriminate.
Qed.

(** ** C45 *)
(** abs, with overflow reported as a failure for int64 and apart from the most negative Go
    int, ceil and floor, and to_number. *)
Theorem C45_abs_partial : forall W v, proper v ->
  (forall z, v = VInt64 z -> calls W "abs" [v] (if z =? -9223372036854775808 then VErr KOverflow else VInt64 (Z.abs z))) /\
  (forall z, v = VInt z -> z <> -9223372036854775808 -> calls W "abs" [v] (VInt64 (Z.abs z))) /\
  (forall f, v = VFloat f -> exists g, calls W "abs" [v] (VFloat g) /\
     (forall q, real_of f = Some q -> exists q', real_of g = Some q' /\ (q' == Qabs q)%Q) /\
     (forall s, f = S754_infinity s -> g = S754_infinity false) /\ (f = S754_nan -> g = S754_nan)) /\
  (~ is_number v -> calls W "abs" [v] (VErr KType)).
Proof. exact abs_exact. Qed.
Print Assumptions C45_abs_partial.

(** abs of the most negative Go int (a document built in Go may hold one) is negative, and
    not a failure. *)
Theorem C45_abs_refuted : forall W, calls W "abs" [VInt (-9223372036854775808)] (VInt64 (-9223372036854775808)).
Proof. exact abs_wrong. Qed.
Print Assumptions C45_abs_refuted.

Theorem C45_rounding : forall W f,  In f ["ceil"; "floor"]%string ->
  (forall z, calls W f [VInt z] (VInt z) /\ calls W f [VInt64 z] (VInt64 z)) /\
  (forall x, real_of x = None -> calls W f [VFloat x] (VFloat x)) /\
  (forall x q, double x -> real_of x = Some q -> exists g n, calls W f [VFloat x] (VFloat g) /\ whole g n /\
     (if String.eqb f "floor" then (inject_Z n <= q)%Q /\ (q < inject_Z (n + 1))%Q
      else (inject_Z (n - 1) < q)%Q /\ (q <= inject_Z n)%Q)) /\
  (forall v, ~ is_number v -> calls W f [v] (VErr KType)).
Proof. exact round_exact_all. Qed.
Print Assumptions C45_rounding.

(** to_number leaves numbers as they are and reads strings as strconv.ParseFloat does. *)
Theorem C45_to_number : forall W v,
  calls W "to_number" [v]
    (match v with
     | VInt _ | VInt64 _ | VFloat _ => v
     | VStr s => match o_parse_float (w_text W) s with Some f => VFloat f | None => VErr (KNumber s) end
     | _ => VErr KType
     end).
Proof. exact to_number_exact. Qed.
Print Assumptions C45_to_number.

Example C45_ex : proper (VFloat x_half) /\ calls x_world "abs" [VInt64 (-5)] (VInt64 5) /\
  calls x_world "abs" [VInt64 (-9223372036854775808)] (VErr KOverflow) /\
  calls x_world "ceil" [VFloat x_half] (VFloat (nearest 2)) /\ calls x_world "floor" [VFloat x_half] (VFloat (nearest 1)) /\
  calls x_world "to_number" [VStr (b_of "1.5")] (VFloat x_half) /\
  calls x_world "to_number" [VStr (b_of "x")] (VErr (KNumber (b_of "x"))).
Proof. split; [reflexivity|]. repeat split; by_call. Qed.

(** ** C46 *)
(** Calling an unknown name, or a function with the wrong number of arguments, is a run-time
    error naming it. *)
Theorem C46_unknown : forall W id args, (forall n a, In (n, a) function_table -> id <> b_of n) ->
  raises W OpCall (VName id :: args) (RNoFunction id).
Proof. exact call_unknown. Qed.
Print Assumptions C46_unknown.
Theorem C46_count : forall W f n args, In (f, Some n) function_table -> length args <> n ->
  raises W OpCall (VName (b_of f) :: args) (RArgCount (b_of f) (Z.of_nat n) (Z.of_nat (length args))).
Proof. exact call_arity. Qed.
Print Assumptions C46_count.

(** Every other call gives a value; only keys ranges over a map. *)
Theorem C46_value : forall W f a args, In (f, a) function_table ->
  match a with Some n => length args = n | None => True end ->
  forall t, exists v t', operates W t OpCall (VName (b_of f) :: args) (OK (v, t')) /\ (f <> "keys"%string -> t' = t).
Proof. exact call_value. Qed.
Print Assumptions C46_value.

Example C46_ex : (forall n a, In (n, a) function_table -> b_of "size" <> b_of n) /\
  In ("contains"%string, Some 2%nat) function_table /\ length [VNil] <> 2%nat /\
  raises x_world OpCall [VName (b_of "contains"); VNil] (RArgCount (b_of "contains") 2 1).
Proof.
  split.
  - intros n a H. cbn [In function_table] in H.
    repeat destruct H as [H|H]; try contradiction; injection H as <- <-; discriminate.
  - split; [cbn; tauto|]. split; [discriminate|]. apply (call_arity x_world "contains" 2 [VNil]); [cbn; tauto|discriminate].
Qed.

(** ** C55 *)
(** keys(o) lists the member names of an object, each once, in the order of a range over it;
    of anything else it is a failure. *)
Theorem C55_keys : forall W t m, orders_ok W -> exists ks,
  operates W t OpCall [VName (b_of "keys"); VObj m] (OK (VArr (map VStr ks), S t)) /\ Permutation ks (map fst m).
Proof. exact keys_computes. Qed.
Print Assumptions C55_keys.
Theorem C55_keys_other : forall W v, (forall m, v <> VObj m) -> calls W "keys" [v] (VErr KType).
Proof. exact keys_other. Qed.
Print Assumptions C55_keys_other.

(** tokenize(s, re) is the regexp's splitting of s, and a failure if re does not compile or
    the arguments are not strings. *)
Theorem C55_tokenize : forall W s p,
  calls W "tokenize" [VStr s; VStr p]
    (if o_re_ok (w_text W) p then VArr (map VStr (w_re_split W p s)) else VErr (KRegexp p)).
Proof. exact tokenize_computes. Qed.
Print Assumptions C55_tokenize.
Theorem C55_tokenize_other : forall W a b, ~ (exists s p, a = VStr s /\ b = VStr p) -> calls W "tokenize" [a; b] (VErr KType).
Proof. exact tokenize_other. Qed.
Print Assumptions C55_tokenize_other.

Example C55_ex : orders_ok x_world_rev /\
  (exists ks, operates x_world_rev 0 OpCall [VName (b_of "keys"); VObj [(b_of "a", VNil); (b_of "b", VInt64 1)]] (OK (VArr (map VStr ks), 1%nat)) /\
     Permutation ks [b_of "a"; b_of "b"]) /\
  calls x_world "tokenize" [VStr (b_of "a b"); VStr (b_of " ")] (VArr [VStr (b_of "a b")]).
Proof.
  split; [apply x_world_rev_ok|]. split; [apply keys_computes; apply x_world_rev_ok|]. by_call.
Qed.
