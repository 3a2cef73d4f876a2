(** The texts of errors.  Models the Error methods of the errors of packages paths and mach,
    the String methods their formats call, and the panic of MustCompile. *)
From Verif Require Export Listing Api.
Local Open Scope Z_scope.

(** The formatting of packages fmt, strconv and regexp that is not modelled, besides
    [printers]. *)
Record messages : Type := mkMessages {
  (** the text of the error of regexp.Compile: paths/parseexpr.go:222-226, mach/run.go:447-450 *)
  mg_regexp : bytes -> bytes;
  (** %#v of a value: mach/run.go:452 *)
  mg_value : val -> bytes;
  (** %s of a value: mach/run.go:458,470 *)
  mg_string : val -> bytes;
  (** strconv.CanBackquote: jsonpath.go:67-72 *)
  mg_backquote : bytes -> bool
}.

(** paths/tokens.go:73-92 tokText, 94-100 (token).String; a token that is a character is
    converted from an integer to a string *)
Definition token_String (t : token) : bytes :=
  match t with
  | TError => b_of "(invalid token)"
  | TEOF => b_of "end of expression"
  | TID => b_of "identifier"
  | TString => b_of "string literal"
  | TInt => b_of "integer literal"
  | TNest => b_of ".."
  | TReal => b_of "floating-point literal"
  | TRE => b_of "regular expression"
  | TLE => b_of "<="
  | TGE => b_of ">="
  | TEQ => b_of "=="
  | TNE => b_of "!="
  | TFilter => b_of "?("
  | TAnd => b_of "&&"
  | TOr => b_of "||"
  | TMatch => b_of "=~"
  | TIn => b_of "in"
  | TNin => b_of "nin"
  | TChar c => utf8_encode c
  end.

(** paths/ops.go:127-176 opText, 183-186 (Op).String *)
Definition op_String (o : op) : bytes :=
  match o with
  | OpError => b_of "(error)"
  | OpID => b_of "identifier"
  | OpString => b_of "string"
  | OpInt => b_of "integer"
  | OpBool => b_of "bool"
  | OpReal => b_of "real number"
  | OpRE => b_of "regular expression"
  | OpNull => b_of "null"
  | OpBounds => b_of "[lb:ub:stride]"
  | OpRoot => b_of "$"
  | OpCurrent => b_of "@"
  | OpDot => b_of "."
  | OpSelect => b_of "[]selection"
  | OpMember => b_of ". selection"
  | OpIndex => b_of "[]index"
  | OpSlice => b_of "[]slice"
  | OpUnion => b_of "[]union"
  | OpWild => b_of "*"
  | OpFilter => b_of "?(filter)"
  | OpExp => b_of "(exp)"
  | OpFor => b_of "loop start"
  | OpRep => b_of "loop end"
  | OpNest => b_of ".."
  | OpNestMember => b_of "..member"
  | OpNestSelect => b_of "..[]selection"
  | OpNestUnion => b_of "..[]union"
  | OpNestWild => b_of "..*"
  | OpNestFilter => b_of "..$(filter)"
  | OpLT => b_of "<"
  | OpLE => b_of "<="
  | OpEQ => b_of "=="
  | OpNE => b_of "!="
  | OpGE => b_of ">="
  | OpGT => b_of ">"
  | OpAnd => b_of "&&"
  | OpOr => b_of "||"
  | OpMul => b_of "*"
  | OpDiv => b_of "/"
  | OpMod => b_of "%"
  | OpNeg => b_of "unary -"
  | OpAdd => b_of "+"
  | OpSub => b_of "-"
  | OpCall => b_of "function call"
  | OpArray => b_of "array value"
  | OpIn => b_of "in"
  | OpNin => b_of "nin"
  | OpMatch => b_of "~"
  | OpNot => b_of "!"
  end.

(** paths/rd.go:58-64 *)
Definition offset_String (o : Z) : bytes := b_of "offset " ++ sprint_int o.

(** [%q] of a token, for the texts of tokens that need no escapes: paths/parser.go:20,23 *)
Definition token_quoted (t : token) : bytes := b_of """" ++ token_String t ++ b_of """".

(** the digits of %02x and %04x *)
Definition hex_digit (d : Z) : Z := if d <? 10 then 48 + d else 87 + d.

(** strconv.AppendQuoteRune: [%q] of a character of the input, or of -1, its end:
    paths/lex.go:277,284.  Runes above 255 other than U+FFFD do not occur. *)
Definition rune_quoted (c : Z) : bytes :=
  let r := if (c <? 0) || (1114111 <? c) then rune_error else c in
  b_of "'" ++
  (if (r =? 39) || (r =? 92) then [92; r]
   else if ((32 <=? r) && (r <? 127)) || ((161 <=? r) && negb (r =? 173)) then utf8_encode r
   else if r =? 7 then b_of "\a"
   else if r =? 8 then b_of "\b"
   else if r =? 12 then b_of "\f"
   else if r =? 10 then b_of "\n"
   else if r =? 13 then b_of "\r"
   else if r =? 9 then b_of "\t"
   else if r =? 11 then b_of "\v"
   else if (r <? 32) || (r =? 127) then b_of "\x" ++ [hex_digit (r / 16); hex_digit (r mod 16)]
   else b_of "\u00" ++ [hex_digit (r / 16); hex_digit (r mod 16)]) ++
  b_of "'".

Section texts.
Variable F : printers.
Variable G : messages.

(** [%v] of the value of a token: paths/lex.go:35 *)
Definition lexval_String (v : lexval) : bytes :=
  match v with
  | LNone => b_of "<nil>"
  | LStr s => s
  | LInt z => sprint_int z
  | LFloat f => pr_float F f
  end.

(** paths/tokens.go:34-42 *)
Definition hasVal (t : token) : bool :=
  match t with TID | TString | TInt | TReal | TRE => true | _ => false end.

(** paths/lex.go:29-38 of a lexeme without an error *)
Definition lexeme_String (t : token) (v : lexval) : bytes :=
  if hasVal t then token_String t ++ b_of "(" ++ lexval_String v ++ b_of ")" else token_String t.

(** strconv.NumError of a literal that is out of range: paths/lex.go:104-163.  The literals
    passed to ParseInt and ParseFloat are well formed. *)
Definition range_error (fn : bytes) (s : bytes) : bytes :=
  b_of "strconv." ++ fn ++ b_of ": parsing """ ++ s ++ b_of """: value out of range".

(** The errors of paths/lex.go:12-19, paths/lexexpr.go:8-10 and of the calls of fmt.Errorf in
    package paths. *)
Fixpoint perr_Error (e : perr) : bytes :=
  match e with
  | EFuel => []
  | EUnclosedString => b_of "unclosed string literal"
  | EBadEscape => b_of "unknown character escape sequence"
  | EShortEscape => b_of "unicode escape needs 4 hex digits"
  | EIntOverflow => b_of "overflow of negative integer literal"
  | EBadReal => b_of "invalid floating-point literal syntax"
  | ECtrlChar => b_of "must use escape to encode ctrl character"
  | EUnclosedRE => b_of "unclosed regular expression literal"
  | EParseInt s => range_error (b_of "ParseInt") s
  | EParseFloat s => range_error (b_of "ParseFloat") s
  | ECharAfter c a o =>                                     (* paths/lex.go:277 *)
    b_of "unexpected char " ++ rune_quoted c ++ b_of " after " ++ rune_quoted a ++ b_of " at " ++ offset_String o
  | EChar c o =>                                            (* paths/lex.go:284 *)
    b_of "unexpected character " ++ rune_quoted c ++ b_of " at " ++ offset_String o
  | EExpectedErr nt o er =>                                 (* paths/parser.go:20 *)
    b_of "expected " ++ token_quoted nt ++ b_of " at " ++ offset_String o ++ b_of ", got " ++ perr_Error er
  | EExpectedTok nt o t =>                                  (* paths/parser.go:23 *)
    b_of "expected " ++ token_quoted nt ++ b_of " at " ++ offset_String o ++ b_of ", got " ++ token_String t
  | EUnexpectedLex t v =>                                   (* paths/parsepath.go:99 *)
    b_of "unexpected token " ++ lexeme_String t v
  | EUnexpectedTok t o =>                                   (* paths/parsepath.go:240,299,327 *)
    b_of "unexpected " ++ token_String t ++ b_of " at " ++ offset_String o
  | ESliceTok t o =>                                        (* paths/parsepath.go:283 *)
    b_of "unexpected token " ++ token_String t ++ b_of " at " ++ offset_String o
  | EInUnion o =>                                           (* paths/parsepath.go:135 *)
    op_String o ++ b_of " cannot be in a union element list"
  | EMissingOp o t =>                                       (* paths/parseexpr.go:22 *)
    b_of "missing operator at " ++ offset_String o ++ b_of ", before " ++ token_String t
  | ENotCallable o =>                                       (* paths/parseexpr.go:115 *)
    b_of "expected identifier before '(', not " ++ op_String o
  | ENoSelId => b_of "expected identifier in '.' selection"  (* paths/parseexpr.go:142 *)
  | ETerm t =>                                              (* paths/parseexpr.go:246 *)
    b_of "unexpected token " ++ token_String t ++ b_of " in expression term"
  | ERegexpSyntax s o =>                                    (* paths/parseexpr.go:225 *)
    mg_regexp G s ++ b_of " at " ++ offset_String o
  end.

(** mach/coder.go:10-12 *)
Definition cerr_Error (e : cerr) : bytes :=
  match e with ErrTooManyVals => b_of "program has too many values" end.

(** the error of Compile, jsonpath.go:43-56 *)
Definition api_Error (e : api_err) : bytes :=
  match e with AParse e => perr_Error e | ACompile e => cerr_Error e end.

(** jsonpath.go:67-72 *)
Definition quote (s : bytes) : bytes :=
  if mg_backquote G s then b_of "`" ++ s ++ b_of "`" else pr_quote F s.

(** the value of the panic of MustCompile, jsonpath.go:58-65; [None] when it does not panic *)
Definition MustCompile_panic (TX : textoracles) (expr : bytes) : option bytes :=
  match JP_Compile TX expr with
  | Fail e => Some (b_of "jsonpath: Compile(" ++ quote expr ++ b_of "): " ++ api_Error e)
  | _ => None
  end.

(** the errors of Run: mach/run.go:449,452,458,470,482,516,519 *)
Definition rerr_Error (e : rerr) : bytes :=
  match e with
  | RBadRegexp p => mg_regexp G p
  | RMatchRight v => op_String OpMatch ++ b_of " requires string or /re/ right operand, not " ++ mg_value G v
  | RMatchLeft v => op_String OpMatch ++ b_of " requires string left operand, not " ++ mg_string G v
  | RInRight neg v =>
    op_String (if neg then OpNin else OpIn) ++ b_of " requires array right operand, not " ++ mg_string G v
  | RNoFunction id => b_of "call of unknown function: " ++ id
  | RArgCount id need got =>
    id ++ b_of ": wrong argument count: need " ++ sprint_int need ++ b_of ", got " ++ sprint_int got
  | RUnimplemented n pc => b_of "unimplemented " ++ num_GoString n ++ b_of " at pc " ++ sprint_int pc
  end.
End texts.
