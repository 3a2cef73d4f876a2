(** What .name, [index], unary minus and array literals mean in expressions.  A specification:
    it uses none of the machine's functions. *)
From Verif Require Import Syntax Value SpecTokens SpecGrammar SpecSelect SpecExpr SpecSem.
Local Open Scope Z_scope.

(** a text that is an integer of 64 bits: digits, with an optional sign *)
Inductive int_text : bytes -> Z -> Prop :=
| ItPlus : forall sign ds, sign = [] \/ sign = [43] -> ds <> [] -> Forall digit ds ->
    dec_val ds <= 9223372036854775807 -> int_text (sign ++ ds) (dec_val ds)
| ItMinus : forall ds, ds <> [] -> Forall digit ds -> dec_val ds <= 9223372036854775808 ->
    int_text (45 :: ds) (- dec_val ds).

(** the integer a value converts to: 0 if nothing better *)
Inductive integral (W : world) : val -> Z -> Prop :=
| IgInt : forall v n, int_of v n -> integral W v n
| IgFloat : forall f n, truncated W f n -> integral W (VFloat f) n
| IgText : forall v s n, v = VStr s \/ v = VNum s -> int_text s n -> integral W v n
| IgNoText : forall v s, v = VStr s \/ v = VNum s -> (forall n, ~ int_text s n) -> integral W v 0
| IgOther : forall v, ~ numeric v -> (forall s, v <> VStr s) -> (forall s, v <> VNum s) -> integral W v 0.

(** the value of the member [k] of [m], and a failure if there is none *)
Inductive member (m : list (bytes * val)) (k : bytes) : val -> Prop :=
| MbSome : forall v, In (k, v) m -> member m k v
| MbNone : ~ In k (map fst m) -> member m k (VErr KFailure).

(** the element at an index, which may count from the end, and a failure if there is none *)
Inductive element (l : list val) (n : Z) : val -> Prop :=
| ElSome : forall k v, nth_error l k = Some v -> n = Z.of_nat k \/ n = Z.of_nat k - Z.of_nat (length l) -> element l n v
| ElNone : n < - Z.of_nat (length l) \/ Z.of_nat (length l) <= n -> element l n (VErr KFailure).

(** a.k, for k other than "length" *)
Inductive dotted (a : val) (k : bytes) : val -> Prop :=
| DtObj : forall m v, a = VObj m -> member m k v -> dotted a k v
| DtOther : (forall m, a <> VObj m) -> dotted a k (VErr KFailure).

(** a[i], where neither is a failure *)
Inductive indexed (W : world) (a i : val) : val -> Prop :=
| IxArr : forall l n v, a = VArr l -> integral W i n -> element l n v -> indexed W a i v
| IxObj : forall m k v, a = VObj m -> named W i k -> member m k v -> indexed W a i v
| IxOther : (forall l, a <> VArr l) -> (forall m, a <> VObj m) -> indexed W a i (VErr KFailure).

(** -a, where a is not a failure: a change of sign for floats, otherwise the negated integer *)
Inductive negated (W : world) (a : val) : val -> Prop :=
| NgFloat : forall f, a = VFloat f -> negated W a (VFloat (SFopp f))
| NgInt : forall n z, ~ is_float a -> integral W a n -> reduces (- n) z -> negated W a (VInt64 z).

(** what a Go slice or map can be *)
Definition sized (v : val) : Prop :=
  match v with
  | VArr l => Z.of_nat (length l) <= 9223372036854775807
  | VObj m => NoDup (map fst m)
  | _ => True
  end.
