(** Equality.  ECMA-262 (5.1), 11.9.3, the Abstract Equality Comparison, with arrays and
    objects compared by value.  A specification: it uses none of the machine's functions.
    How a float is written and how a text is read as a float are left to the library. *)
From Verif Require Import Syntax Value SpecDoc SpecSelect SpecExpr.
Local Open Scope Z_scope.

(** a number: an integer or a double *)
Inductive enum : Type := NInt (z : Z) | NFloat (f : f64).
Definition as_double (n : enum) : f64 := match n with NInt z => nearest z | NFloat f => f end.
Definition same_number (n n' : enum) : Prop :=
  match n, n' with
  | NInt z, NInt z' => z = z'
  | _, _ => f_eq (as_double n) (as_double n')
  end.

Inductive number_of : val -> enum -> Prop :=
| NoInt : forall z, number_of (VInt z) (NInt z)
| NoInt64 : forall z, number_of (VInt64 z) (NInt z)
| NoFloat : forall f, number_of (VFloat f) (NFloat f).

(** ToNumber of a string: the empty string is 0, and what is not a number is NaN *)
Inductive string_number (W : world) : bytes -> enum -> Prop :=
| SnEmpty : string_number W [] (NInt 0)
| SnInt : forall s z, s <> [] -> parse_int s = Some z -> string_number W s (NInt z)
| SnFloat : forall s f, s <> [] -> parse_int s = None -> o_parse_float (w_text W) s = Some f -> string_number W s (NFloat f)
| SnNaN : forall s, s <> [] -> parse_int s = None -> o_parse_float (w_text W) s = None ->
    string_number W s (NFloat S754_nan).

(** ToString as used for elements by Array.prototype.join *)
Fixpoint element_text (W : world) (v : val) : bytes :=
  match v with
  | VNil | VErr _ => []
  | VStr s => s
  | VBool b => b_of (if b then "true" else "false")
  | VInt z | VInt64 z => decimal z
  | VFloat f => w_sprint_float W f
  | VArr l =>
    (fix join (l : list val) : bytes :=
       match l with
       | [] => []
       | [x] => element_text W x
       | x :: r => element_text W x ++ 44 :: join r
       end) l
  | _ => b_of "[object Object]"
  end.

Definition nullish (v : val) : Prop := v = VNil \/ failure v.
Definition structure (v : val) : Prop := (exists l, v = VArr l) \/ (exists m, v = VObj m).
Definition text_or_number (v : val) : Prop := (exists s, v = VStr s) \/ (exists n, number_of v n).
Definition bit (b : bool) : val := VInt64 (if b then 1 else 0).

Inductive ecma (W : world) : val -> val -> Prop :=
| EqNullish : forall a b, nullish a -> nullish b -> ecma W a b
| EqNumbers : forall a b n n', number_of a n -> number_of b n' -> same_number n n' -> ecma W a b
| EqStrings : forall s, ecma W (VStr s) (VStr s)
| EqBools : forall b, ecma W (VBool b) (VBool b)
| EqArrays : forall l l', Forall2 (ecma W) l l' -> ecma W (VArr l) (VArr l')
| EqObjects : forall m m', (forall k, In k (map fst m) <-> In k (map fst m')) ->
    (forall k v v', In (k, v) m -> In (k, v') m' -> ecma W v v') -> ecma W (VObj m) (VObj m')
| EqNumStr : forall a n s n', number_of a n -> string_number W s n' -> same_number n n' -> ecma W a (VStr s)
| EqStrNum : forall a n s n', number_of a n -> string_number W s n' -> same_number n n' -> ecma W (VStr s) a
| EqBoolLeft : forall x b, (forall y, b <> VBool y) -> ecma W (bit x) b -> ecma W (VBool x) b
| EqBoolRight : forall a y, (forall x, a <> VBool x) -> ecma W a (bit y) -> ecma W a (VBool y)
| EqPrimRight : forall a b, text_or_number a -> structure b -> ecma W a (VStr (element_text W b)) -> ecma W a b
| EqPrimLeft : forall a b, structure a -> text_or_number b -> ecma W (VStr (element_text W a)) b -> ecma W a b.

(** ** Where the code is right *)

(** no member of an object is null *)
Definition no_null_members (v : val) : Prop :=
  forall m k x, v = VObj m -> In (k, x) m -> ~ nullish x.

(** no json.Number and none of the machine's own values *)
Definition plain_node (v : val) : Prop :=
  match v with
  | VNum _ | VName _ | VSlice _ | VRegexp _ => False
  | VObj m => NoDup (map fst m)
  | _ => True
  end.

(** an integer beside a string, an array beside a primitive value, and an object beside a
    string, as far as the code gets them right *)
Definition integer_text (W : world) (a b : val) : Prop :=
  forall z s, a = VInt z \/ a = VInt64 z -> b = VStr s ->
    s = [] \/ parse_int s <> None \/ o_parse_float (w_text W) s = None.
Definition array_text (a b : val) : Prop :=
  forall l, a = VArr l -> text_or_number b \/ (exists y, b = VBool y) ->
    l = [] \/ (exists z, in_int64 z /\ (l = [VInt z] \/ l = [VInt64 z])) \/ exists s t, l = [VStr s] /\ b = VStr t.
Definition object_text (a b : val) : Prop :=
  forall m, a = VObj m -> b <> VStr (b_of "[object Object]").

Definition fair (W : world) (a b : val) : Prop :=
  plain_node a /\ plain_node b /\ no_null_members a /\ no_null_members b /\
  integer_text W a b /\ integer_text W b a /\ array_text a b /\ array_text b a /\
  object_text a b /\ object_text b a.

(** both have no null members *)
Definition distinct_names (v : val) : Prop := forall m, v = VObj m -> NoDup (map fst m).
Definition sym_ok (a b : val) : Prop :=
  distinct_names a /\ distinct_names b /\ no_null_members a /\ no_null_members b.

(** the values at the same place in both *)
Definition at_same_place (P : val -> val -> Prop) (a b : val) : Prop :=
  forall p x y, value_at a p x -> value_at b p y -> P x y.

(** what strconv does: the texts of integers are read as floats close to them, and
    the text of an object is not a number *)
Definition reads_integers (W : world) : Prop :=
  (forall s z, parse_int s = Some z -> exists f, o_parse_float (w_text W) s = Some f /\ f_eq f (nearest z)) /\
  o_parse_float (w_text W) (b_of "[object Object]") = None.

