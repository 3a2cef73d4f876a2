(** Laws of the functions on arrays. *)
From Coq Require Import Permutation QArith Qabs.
From Verif Require Import Syntax Value Program Machine SpecRun SpecOp SpecExpr SpecRound SpecAggregate OpProofs FnProofs AggregateProofs Examples.
Import ListNotations.
Local Open Scope Z_scope.

(** ** C93 *)
(** sum, prod and avg of integers and Booleans are exact as long as no sum (or product) of some of
    them exceeds 2^53; avg is then the double closest to the mean. *)
Theorem C93_sum : forall W a zs, Forall2 int_of a zs -> sums_small zs ->
  exists f, calls W "sum" [VArr a] (VFloat f) /\ whole f (total zs).
Proof. exact sum_exact. Qed.
Print Assumptions C93_sum.
Theorem C93_prod : forall W a zs, Forall2 int_of a zs -> a <> [] -> products_small zs ->
  exists f, calls W "prod" [VArr a] (VFloat f) /\ whole f (product zs).
Proof. exact prod_exact. Qed.
Print Assumptions C93_prod.
Theorem C93_avg : forall W a zs, Forall2 int_of a zs -> a <> [] -> Z.of_nat (length a) <= 2 ^ 53 -> sums_small zs ->
  exists f, calls W "avg" [VArr a] (VFloat f) /\ rounded (inject_Z (total zs) / inject_Z (Z.of_nat (length a))) f.
Proof. exact avg_exact. Qed.
Print Assumptions C93_avg.

(** They then do not depend on the order of the elements. *)
Theorem C93_order : forall W a a' zs, Permutation a a' -> Forall2 int_of a zs ->
  (sums_small zs -> forall v, calls W "sum" [VArr a] v <-> calls W "sum" [VArr a'] v) /\
  (products_small zs -> forall v, calls W "prod" [VArr a] v <-> calls W "prod" [VArr a'] v) /\
  (sums_small zs -> forall v, calls W "avg" [VArr a] v <-> calls W "avg" [VArr a'] v).
Proof. exact order_free. Qed.
Print Assumptions C93_order.

(** Nor do min and max of any numbers, up to the sign of a zero. *)
Theorem C93_extremes : forall W f a a' fs, In f ["min"; "max"]%string -> Permutation a a' -> Forall is_number a -> Forall proper a -> a <> [] ->
  Forall2 float_of a fs -> Forall (fun x => x <> S754_nan) fs ->
  exists r r', calls W f [VArr a] (VFloat r) /\ calls W f [VArr a'] (VFloat r') /\ f_eq r r'.
Proof. exact extremes_order. Qed.
Print Assumptions C93_extremes.

(** The average of such integers is not below min or above max. *)
Theorem C93_between : forall W a zs, Forall2 int_of a zs -> match a with v :: _ => is_number v | [] => False end ->
  Z.of_nat (length a) <= 2 ^ 53 -> sums_small zs ->
  exists lo m hi, calls W "min" [VArr a] (VFloat lo) /\ calls W "avg" [VArr a] (VFloat m) /\ calls W "max" [VArr a] (VFloat hi) /\
    ~ f_lt m lo /\ ~ f_lt hi m.
Proof. exact avg_between. Qed.
Print Assumptions C93_between.

(** Of doubles the order matters for sum, and avg can be above max; max([1, true]) is 1, but
    max([true, 1]) is a failure. *)
Theorem C93_refuted : forall W,
  calls W "sum" [VArr [VFloat y_max; VFloat y_max; VFloat y_min]] (VFloat (S754_infinity false)) /\
  calls W "sum" [VArr [VFloat y_max; VFloat y_min; VFloat y_max]] (VFloat y_max) /\
  calls W "avg" [VArr [VFloat y_max; VFloat y_max]] (VFloat (S754_infinity false)) /\
  calls W "max" [VArr [VFloat y_max; VFloat y_max]] (VFloat y_max) /\
  calls W "max" [VArr [VInt64 1; VBool true]] (VFloat (nearest 1)) /\
  calls W "max" [VArr [VBool true; VInt64 1]] (VErr KType).
Proof. exact order_matters. Qed.
Print Assumptions C93_refuted.

(** An object has as many keys as it is long. *)
Theorem C93_keys : forall W t m, orders_ok W -> exists ks n,
  operates W t OpCall [VName (b_of "keys"); VObj m] (OK (VArr ks, S t)) /\ calls W "length" [VArr ks] n /\ calls W "length" [VObj m] n.
Proof. exact keys_length. Qed.
Print Assumptions C93_keys.

(** contains(a, x) is x in a. *)
Theorem C93_contains : forall W l x, ~ failure x ->
  exists r, calls W "contains" [VArr l; x] (VBool r) /\ computes W OpIn [x; VArr l] (VBool r).
Proof. exact contains_in. Qed.
Print Assumptions C93_contains.

Example C93_ex : let a := [VInt64 7; VInt (-2); VBool true; VInt64 0] in let zs := [7; -2; 1; 0] in
  Forall2 int_of a zs /\ sums_small zs /\ products_small zs /\ total zs = 6 /\ product zs = 0 /\ is_number (VInt64 7) /\
  Permutation a (rev a) /\ Forall is_number [VInt64 7; VFloat x_half] /\ Forall proper [VInt64 7; VFloat x_half] /\
  Forall2 float_of [VInt64 7; VFloat x_half] [nearest 7; x_half] /\ ~ failure (VInt64 7) /\ orders_ok x_world.
Proof.
  cbv zeta. split; [repeat constructor|]. split; [vm_compute; discriminate|]. split; [vm_compute; discriminate|].
  split; [reflexivity|]. split; [reflexivity|]. split; [exact I|]. split; [apply Permutation_rev|].
  split; [repeat constructor|]. split; [repeat constructor; vm_compute; intuition discriminate|]. split; [repeat constructor|].
  split; [intros [k H]; discriminate H|exact x_world_ok].
Qed.
(** prod([7, -2, 1, 0]) is -0; avg([7, -2, 1, 0]) is 1.5. *)
Example C93_run_ex : let a := [VInt64 7; VInt (-2); VBool true; VInt64 0] in
  calls x_world "sum" [VArr a] (VFloat (nearest 6)) /\ calls x_world "prod" [VArr a] (VFloat (S754_zero true)) /\
  calls x_world "avg" [VArr a] (VFloat x_half) /\ calls x_world "min" [VArr a] (VFloat (nearest (-2))) /\
  calls x_world "max" [VArr a] (VFloat (nearest 7)) /\ calls x_world "contains" [VArr a; VInt64 0] (VBool true).
Proof. cbv zeta. do 5 (split; [by_call|]). by_call. Qed.
