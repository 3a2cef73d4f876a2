(** What a syntax error says about the text.  A specification: it uses the errors of the
    lexer and parser but none of their functions. *)
From Verif Require Import Syntax SpecGrammar Lexer.
Local Open Scope Z_scope.

(** the texts of a token *)
Inductive spelled : token -> bytes -> Prop :=
| SpChar : forall c, spelled (TChar c) [c]
| SpEnd : spelled TEOF []
| SpName : forall c w, letter c -> Forall (name_char true) w -> spelled TID (c :: w)
| SpString : forall q w, q = 34 \/ q = 39 -> spelled TString (q :: w ++ [q])
| SpInt : forall ds, ds <> [] -> Forall digit ds -> spelled TInt ds
| SpNegInt : forall w ds, Forall space w -> ds <> [] -> Forall digit ds -> spelled TInt (45 :: w ++ ds)
| SpReal : forall ds fs ex, ds <> [] -> Forall digit ds -> Forall digit fs -> ex = [] \/ exponent ex ->
    spelled TReal (ds ++ 46 :: fs ++ ex)
| SpTwo : forall t x, In (t, x) [(TNest, ".."); (TLE, "<="); (TGE, ">="); (TEQ, "=="); (TNE, "!="); (TFilter, "?(");
      (TAnd, "&&"); (TOr, "||"); (TMatch, "=~"); (TIn, "in"); (TNin, "nin")]%string -> spelled t (b_of x).

(** [ends s k t]: a token [t] of the text [s] ends after [k] bytes, the end of the text being
    the last token *)
Definition ends (s : bytes) (k : nat) (t : token) : Prop :=
  exists a w b, s = a ++ w ++ b /\ spelled t w /\ k = length (a ++ w) /\ (t = TEOF -> b = []).

(** the value of a token: of a name the name, of a string the text it stands for, of a word
    that is an operator the word *)
Inductive valued (TX : textoracles) : token -> bytes -> lexval -> Prop :=
| VlName : forall w, valued TX TID w (LStr w)
| VlString : forall q w v, q = 34 \/ q = 39 -> str_body q w v -> valued TX TString (q :: w ++ [q]) (LStr v)
| VlOpen : forall q w v, q = 34 \/ q = 39 -> str_open q w v -> valued TX TString (q :: w) (LStr v)
| VlInt : forall ds, Forall digit ds -> valued TX TInt ds (LInt (dec_val ds))
| VlNegInt : forall w ds, Forall space w -> Forall digit ds -> valued TX TInt (45 :: w ++ ds) (LInt (- dec_val ds))
| VlReal : forall w f, o_parse_float TX w = Some f -> valued TX TReal w (LFloat f)
| VlWord : forall t w, t = TIn \/ t = TNin -> valued TX t w (LStr w)
| VlNone : forall t w, ~ In t [TID; TString; TInt; TReal; TRE; TIn; TNin] -> valued TX t w LNone.

(** the same with the value of the token *)
Definition ends_with (TX : textoracles) (s : bytes) (k : nat) (t : token) (v : lexval) : Prop :=
  exists a w b, s = a ++ w ++ b /\ spelled t w /\ valued TX t w v /\ k = length (a ++ w) /\ (t = TEOF -> b = []).

(** the offset reported for a place: the number of the byte before it *)
Definition last_byte (k : nat) : Z := Z.max 0 (Z.of_nat k - 1).

(** the byte after [k] bytes, -1 at the end *)
Definition byte_after (s : bytes) (k : nat) : Z := nth k s (-1).

(** the operators of steps, as opposed to those of scripts *)
Definition step_op (o : op) : Prop :=
  In o [OpBounds; OpSelect; OpMember; OpSlice; OpUnion; OpWild; OpFilter; OpExp; OpFor; OpRep; OpNest; OpNestMember;
    OpNestSelect; OpNestUnion; OpNestWild; OpNestFilter].

(** the offset in an error; that of an invalid regular expression says where it starts *)
Definition offset_of (e : perr) : option Z :=
  match e with
  | ECharAfter _ _ o | EChar _ o | EExpectedErr _ o _ | EExpectedTok _ o _ | EUnexpectedTok _ o | ESliceTok _ o | EMissingOp o _ => Some o
  | _ => None
  end.

Section reasons.
Variable TX : textoracles.
Variable s : bytes.

(** [reason e]: the text contains what the error is about *)
Inductive reason : perr -> Prop :=
| ReUnclosed : forall a q b, s = a ++ q :: b -> q = 34 \/ q = 39 ->
    (forall u v r, b = u ++ q :: r -> ~ str_body q u v) -> reason EUnclosedString
| ReEscape : forall a q c b, s = a ++ 92 :: c :: b -> q = 34 \/ q = 39 -> c <> q ->
    ~ In c [92; 47; 116; 102; 110; 114; 98; 117] -> reason EBadEscape
| ReShort : forall a hs c b, s = a ++ 92 :: 117 :: hs ++ c :: b -> (length hs < 4)%nat -> Forall hexdigit hs ->
    ~ hexdigit c -> reason EShortEscape
| ReControl : forall a c b, s = a ++ c :: b -> c < 32 -> reason ECtrlChar
| ReMinus : forall a w ds b, s = a ++ 45 :: w ++ ds ++ b -> Forall space w -> Forall digit ds -> not_next digit b ->
    dec_val ds = 9223372036854775807 -> reason EIntOverflow
| ReExponent : forall a ds fs e sg b, s = a ++ ds ++ 46 :: fs ++ e :: sg ++ b -> ds <> [] -> Forall digit ds ->
    Forall digit fs -> e = 101 \/ e = 69 -> sg = [] \/ sg = [43] \/ sg = [45] -> not_next digit b -> reason EBadReal
| ReOpenRegexp : forall a b, s = a ++ 47 :: b -> (forall u v r, b = u ++ 47 :: r -> ~ re_body u v) -> reason EUnclosedRE
| ReBigInt : forall a ds b, s = a ++ ds ++ b -> Forall digit ds -> not_next digit b ->
    9223372036854775808 <= dec_val ds -> reason (EParseInt ds)
| ReBadReal : forall a ds fs ex b, s = a ++ (ds ++ 46 :: fs ++ ex) ++ b -> ds <> [] -> Forall digit ds ->
    Forall digit fs -> ex = [] \/ exponent ex -> o_parse_float TX (ds ++ 46 :: fs ++ ex) = None ->
    reason (EParseFloat (ds ++ 46 :: fs ++ ex))
| ReFilter : forall a b, s = a ++ 63 :: b -> not_next (eq 40) b ->
    reason (ECharAfter (byte_after b 0) 40 (Z.of_nat (length a)))
| ReChar : forall a c b, s = a ++ c :: b -> ~ letter c -> ~ digit c -> ~ space c ->
    ~ In c [40; 41; 91; 93; 42; 36; 44; 46; 34; 39; 45] -> reason (EChar c (Z.of_nat (length a)))
| ReSign : forall a w b, s = a ++ 45 :: w ++ b -> Forall space w -> not_next space b -> not_next digit b ->
    reason (EChar (byte_after b 0) (Z.of_nat (length (a ++ w))))
| ReSignEnd : forall a w, s = a ++ 45 :: w -> Forall space w ->
    reason (EChar (last (45 :: w) 0) (last_byte (length (a ++ w))))
| ReBigNeg : forall a w ds b, s = a ++ 45 :: w ++ ds ++ b -> Forall space w -> Forall digit ds -> not_next digit b ->
    9223372036854775808 <= dec_val ds -> reason (EChar 45 (Z.of_nat (length (a ++ w ++ ds))))
| ReExpectedErr : forall c k e, c = 36 \/ c = 41 \/ c = 93 -> reason e ->
    (k <= length s)%nat -> (forall o, offset_of e = Some o -> o = last_byte k) ->
    reason (EExpectedErr (TChar c) (last_byte k) e)
| ReExpected : forall c k t, c = 36 \/ c = 41 \/ c = 93 -> t <> TChar c -> ends s k t ->
    reason (EExpectedTok (TChar c) (last_byte k) t)
| ReUnexpected : forall k t, ends s k t -> reason (EUnexpectedTok t (last_byte k))
| ReUnexpectedErr : forall k e, reason e -> (k <= length s)%nat -> (forall o, offset_of e = Some o -> o = last_byte k) ->
    reason (EUnexpectedTok TError (last_byte k))
| ReSlice : forall k t, ends s k t -> ~ In t [TChar 58; TChar 44; TChar 93] -> In 58 s -> reason (ESliceTok t (last_byte k))
| ReSliceErr : forall k e, reason e -> (k <= length s)%nat -> (forall o, offset_of e = Some o -> o = last_byte k) ->
    In 58 s -> reason (ESliceTok TError (last_byte k))
| ReStep : forall k t v, ends_with TX s k t v -> ~ In t [TEOF; TNest; TChar 46; TChar 91] -> reason (EUnexpectedLex t v)
| ReUnion : forall o x, In (o, x) [(OpWild, 42); (OpExp, 40); (OpFilter, 40)] -> In x s -> In 44 s -> reason (EInUnion o)
| ReOperator : forall k t, t <> TEOF -> ends s k t -> reason (EMissingOp (last_byte k) t)
| ReOperatorErr : forall k e, reason e -> (k <= length s)%nat -> (forall o, offset_of e = Some o -> o = last_byte k) ->
    reason (EMissingOp (last_byte k) TError)
| ReCall : forall o, o <> OpID -> ~ step_op o -> In 40 s -> reason (ENotCallable o)
| ReField : In 46 s -> reason ENoSelId
| ReTerm : forall k t, ends s k t ->
    ~ In t [TID; TString; TInt; TReal; TChar 45; TChar 33; TChar 47; TChar 64; TChar 36; TChar 40; TChar 91] -> reason (ETerm t)
| ReRegexp : forall a t p b, s = a ++ 47 :: t ++ 47 :: b -> re_body t p -> o_re_ok TX p = false ->
    reason (ERegexpSyntax p (Z.of_nat (length a))).
End reasons.

(** two texts that are the same up to their [n]-th byte, or altogether if the first is no longer
    than that *)
Definition same_start (n : nat) (s s' : bytes) : Prop :=
  firstn n s' = firstn n s /\ ((length s <= n)%nat -> s' = s).
