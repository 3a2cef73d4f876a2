(** What == is, for all values: which conversions are made between values of different kinds.
    A specification: it uses none of the machine's functions.  Compare [SpecEq.ecma], which is
    what == ought to be. *)
From Verif Require Import Syntax Value SpecTokens SpecGrammar SpecSelect SpecExpr SpecSem SpecIndex SpecEq.
Local Open Scope Z_scope.

(** the double a value converts to; other values convert to NaN *)
Inductive real (W : world) : val -> f64 -> Prop :=
| RlNumber : forall v f, float_of v f -> real W v f
| RlEmpty : real W (VStr []) (S754_zero false)
| RlText : forall v s f, (v = VStr s /\ s <> []) \/ v = VNum s -> o_parse_float (w_text W) s = Some f -> real W v f.

(** the text a value converts to, when it is the one element of an array *)
Inductive worded (W : world) : val -> bytes -> Prop :=
| WdFailure : forall k, worded W (VErr k) (b_of "undefined")
| WdNull : worded W VNil (b_of "null")
| WdStr : forall s, worded W (VStr s) s
| WdNum : forall s, worded W (VNum s) s
| WdTrue : worded W (VBool true) (b_of "true")
| WdFalse : worded W (VBool false) (b_of "false")
| WdInt : forall v z, v = VInt z \/ v = VInt64 z -> worded W v (decimal z)
| WdFloat : forall f, worded W (VFloat f) (w_sprint_float W f)
| WdOther : forall v, structure v \/ (exists s, v = VName s) \/ (exists s, v = VSlice s) \/ (exists p, v = VRegexp p) ->
    worded W v (b_of "[object Object]").

(** a text that is not NaN *)
Definition numeral (W : world) (s : bytes) : Prop :=
  s = [] \/ (exists n, int_text s n) \/ exists f, o_parse_float (w_text W) s = Some f.

(** equal as doubles if one of them is a float, and otherwise as integers *)
Inductive same_amount (W : world) (a b : val) : Prop :=
| SaReal : forall x y, is_float a \/ is_float b -> real W a x -> real W b y -> f_eq x y -> same_amount W a b
| SaWhole : forall n, ~ is_float a -> ~ is_float b -> integral W a n -> integral W b n -> same_amount W a b.

Definition one_or_zero (x : bool) : Z := if x then 1 else 0.

(** values of different kinds *)
Inductive mixed (W : world) : val -> val -> Prop :=
| MxNumText : forall a s, is_number a -> numeral W s -> same_amount W a (VStr s) -> mixed W a (VStr s)
| MxBoolNum : forall x b, is_number b -> same_amount W (VBool x) b -> mixed W (VBool x) b
| MxBoolText : forall x s f, real W (VStr s) f -> f_eq f (nearest (one_or_zero x)) -> mixed W (VBool x) (VStr s)
| MxEmptyBool : mixed W (VArr []) (VBool false)
| MxOneBool : forall v x, integral W v (one_or_zero x) -> mixed W (VArr [v]) (VBool x)
| MxEmptyText : mixed W (VArr []) (VStr [])
| MxOneText : forall v s, worded W v s -> mixed W (VArr [v]) (VStr s)
| MxEmptyNum : forall b f, is_number b -> float_of b f -> f_eq f (S754_zero false) -> mixed W (VArr []) b
| MxOneNum : forall v b, is_number b -> same_amount W v b -> mixed W (VArr [v]) b.

Inductive loose (W : world) : val -> val -> Prop :=
| LsNullish : forall a b, nullish a -> nullish b -> loose W a b
| LsNumbers : forall a b, is_number a -> is_number b -> same_amount W a b -> loose W a b
| LsStrings : forall s, loose W (VStr s) (VStr s)
| LsBools : forall x, loose W (VBool x) (VBool x)
| LsMixed : forall a b, mixed W a b -> loose W a b
| LsMixedBack : forall a b, mixed W b a -> loose W a b
| LsArrays : forall l l', Forall2 (loose W) l l' -> loose W (VArr l) (VArr l')
| LsObjects : forall m m', length m = length m' ->
    (forall k v, In (k, v) m -> (forall w, In (k, w) m' -> loose W v w) /\ (~ In k (map fst m') -> nullish v)) ->
    loose W (VObj m) (VObj m').
