(** The operators that occur in compiled programs, and the meaning of the two that do not but
    which the machine has nevertheless.  A specification: it uses none of the machine's
    functions. *)
From Verif Require Import Syntax Value Machine SpecSelect SpecExpr SpecSem SpecIndex.
Local Open Scope Z_scope.

(** operators no path contains *)
Definition unused (o : op) : bool := match o with OpError | OpExp | OpSlice => true | _ => false end.

(** a slice with constant bounds, all of 64 bits *)
Definition small_bound (x : option Z) : Prop :=
  match x with Some z => -9223372036854775808 <= z <= 9223372036854775807 | None => True end.
Definition bounds_are (s : slice) (a b c : option Z) : Prop :=
  bound_is (sl_start s) a /\ bound_is (sl_end s) b /\ bound_is (sl_stride s) c /\
  small_bound a /\ small_bound b /\ small_bound c.

(** a slice with stride 1 that starts after it ends *)
Definition crossing (len : Z) (a b c : option Z) : Prop :=
  or_default 1 c = 1 /\
  clip 0 len (from_end len (or_default len b)) < clip 0 len (from_end len (or_default 0 a)).

(** v[s] in an expression: as in a path, except that a slice that crosses is not empty but
    an index out of range, like one whose positions overflow *)
Inductive sliced (v s : val) : outcome rerr val -> Prop :=
| SdFailure : failure v \/ failure s -> sliced v s (OK (VErr KFailure))
| SdOther : ~ failure v -> ~ failure s -> (forall l, v <> VArr l) \/ (forall sl, s <> VSlice sl) ->
    sliced v s (OK (VArr []))
| SdArray : forall l sl a b c xs, v = VArr l -> s = VSlice sl -> bounds_are sl a b c ->
    ~ overflowing (Z.of_nat (length l)) a b c -> ~ crossing (Z.of_nat (length l)) a b c ->
    picks (SSlice a b c) v xs -> sliced v s (OK (VArr xs))
| SdRange : forall l sl a b c, v = VArr l -> s = VSlice sl -> bounds_are sl a b c ->
    overflowing (Z.of_nat (length l)) a b c \/ crossing (Z.of_nat (length l)) a b c ->
    sliced v s Panics.

(** a value used as an index: strings and integers as they are, the rest as integers *)
Inductive index_value (W : world) (v : val) : val -> Prop :=
| IvFailure : failure v -> index_value W v (VErr KFailure)
| IvStr : forall s, v = VStr s -> index_value W v v
| IvInt : forall z, v = VInt z \/ v = VInt64 z -> index_value W v v
| IvOther : forall n, ~ failure v -> (forall s, v <> VStr s) -> (forall z, v <> VInt z) -> (forall z, v <> VInt64 z) ->
    integral W v n -> index_value W v (VInt64 n).
