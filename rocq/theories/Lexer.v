(** The lexical analyser.  Models paths/rd.go, paths/lex.go, paths/lexpath.go and
    paths/lexexpr.go. *)
From Verif Require Export Syntax.
Local Open Scope Z_scope.

(** The external functions the lexer and parser call. Strconv.ParseFloat paths/lex.go:147,
    regexp.Compile paths/parseexpr.go:187-248 *)
Record textoracles : Type := mkText {
  (** strconv.ParseFloat(s, 64); [None] is an error (syntax or range) *)
  o_parse_float : bytes -> option f64;
  (** whether regexp.Compile(s) succeeds *)
  o_re_ok : bytes -> bool
}.

(** paths/rd.go:5 *)
Definition eof : Z := -1.

(** paths/rd.go:7-19.  The input string together with a position is kept as
    the bytes before the position (reversed) and those after it; pos is
    [length rd_before].  The line counter is not modelled: nothing reads it. *)
Record rd : Type := mkRd { rd_before : bytes; rd_after : bytes }.

(** paths/parser.go:12-15: the reader at the start of its text *)
Definition rd_of (s : bytes) : rd := mkRd [] s.

(** paths/rd.go:21-32 *)
Definition rd_get (r : rd) : Z * rd :=
  match rd_after r with
  | [] => (eof, r)
  | c :: a => (c, mkRd (c :: rd_before r) a)
  end.

(** paths/rd.go:34-42 *)
Definition rd_unget (r : rd) : rd :=
  match rd_before r with
  | [] => r
  | c :: b => mkRd b (c :: rd_after r)
  end.

(** paths/rd.go:44-51: get followed by unget, which leaves the position as it was *)
Definition rd_look (r : rd) : Z := fst (rd_get r).

(** paths/rd.go:58-64, the number in "offset %d" *)
Definition rd_offset (r : rd) : Z :=
  let o := Z.of_nat (length (rd_before r)) in
  if o =? 0 then 0 else o - 1.

(** paths/lex.go:22-27: val is nil, string, int64 or float64 *)
Inductive lexval : Type :=
| LNone | LStr (s : bytes) | LInt (z : Z) | LFloat (f : f64).

(** Errors of the lexer and parser, with the parameters of their messages.
    paths/lex.go:12-19, paths/lexexpr.go:8-10 and the fmt.Errorf calls of the
    package.  [EFuel] is not a Go error: it reports that the model's fuel ran
    out, which is proved impossible. *)
Inductive perr : Type :=
| EFuel
| EUnclosedString | EBadEscape | EShortEscape | EIntOverflow | EBadReal | ECtrlChar
| EUnclosedRE
| EParseInt (s : bytes)
| EParseFloat (s : bytes)
| ECharAfter (got after : Z) (off : Z)
| EChar (c : Z) (off : Z)
| EExpectedErr (nt : token) (off : Z) (e : perr)
| EExpectedTok (nt : token) (off : Z) (t : token)
| EUnexpectedLex (t : token) (v : lexval)
| EUnexpectedTok (t : token) (off : Z)
| ESliceTok (t : token) (off : Z)
| EInUnion (o : op)
| EMissingOp (off : Z) (t : token)
| ENotCallable (o : op)
| ENoSelId
| ETerm (t : token)
| ERegexpSyntax (s : bytes) (off : Z).

Record lexeme : Type := mkLex { lx_tok : token; lx_val : lexval; lx_err : option perr }.

(** paths/lex.go:100-103 *)
Definition lex_err (e : perr) : lexeme := mkLex TError LNone (Some e).
(** a lexeme without a value, e.g. paths/lexpath.go:12-53 *)
Definition lex_tok (t : token) : lexeme := mkLex t LNone None.

(** paths/lex.go:66-71: peek and lex are combined in one option *)
Record lexer : Type := mkLexer { l_rd : rd; l_peek : option lexeme }.

(** Characters, paths/lex.go:287-314 *)
Definition isDigit (c : Z) : bool := (48 <=? c) && (c <=? 57).
Definition isHexDigit (c : Z) : bool :=
  isDigit c || ((97 <=? c) && (c <=? 102)) || ((65 <=? c) && (c <=? 70)).
Definition isLetter (c : Z) : bool :=
  ((97 <=? c) && (c <=? 122)) || ((65 <=? c) && (c <=? 90)) || (c =? 95) || (128 <=? c).
Definition isAlphanumeric (c : Z) : bool := isLetter c || isDigit c.
Definition isAlphanumericDash (c : Z) : bool := isLetter c || isDigit c || (c =? 45).
Definition isSpace (c : Z) : bool :=
  (c =? 32) || (c =? 9) || (c =? 10) || (c =? 13) || (c =? 12) || (c =? 11).

(** The loop [for pred(r.look()) { sb.WriteByte(byte(r.get())) }] of
    paths/lex.go:107-109,119-121,131-133,143-145,159-161: the bytes consumed and
    the reader afterwards. *)
Fixpoint span_aux (pred : Z -> bool) (b a : bytes) : bytes * rd :=
  match a with
  | [] => ([], mkRd b [])
  | c :: a' =>
    if pred c then let (w, r) := span_aux pred (c :: b) a' in (c :: w, r)
    else ([], mkRd b a)
  end.
(** see span_aux: paths/lex.go:107-109,119-121,131-133,143-145,159-161 *)
Definition rd_span (pred : Z -> bool) (r : rd) : bytes * rd :=
  span_aux pred (rd_before r) (rd_after r).

(** paths/lex.go:105-111 *)
Definition ws (r : rd) : rd := snd (rd_span isSpace r).

(** paths/lex.go:113-152.  [real] admits a fraction and exponent. *)
Definition lexNumber (O : textoracles) (real : bool) (r0 : rd) : lexeme * rd :=
  let r := rd_unget r0 in
  let (ip, r) := rd_span isDigit r in
  if negb real || negb (rd_look r =? 46) then
    match parse_int ip with
    | None => (lex_err (EParseInt ip), r)
    | Some v => (mkLex TInt (LInt v) None, r)
    end
  else
    let (_, r) := rd_get r in
    let (fp, r) := rd_span isDigit r in
    let finish (s : bytes) (r : rd) :=
      match o_parse_float O s with
      | None => (lex_err (EParseFloat s), r)
      | Some f => (mkLex TReal (LFloat f) None, r)
      end in
    if (rd_look r =? 101) || (rd_look r =? 69) then
      let (ec, r) := rd_get r in
      let c := rd_look r in
      let (sg, r) :=
        if (c =? 43) || (c =? 45) then let (s, r') := rd_get r in ([s], r') else ([], r) in
      if negb (isDigit (rd_look r)) then (lex_err EBadReal, r)
      else
        let (xp, r) := rd_span isDigit r in
        finish (ip ++ 46 :: fp ++ ec :: sg ++ xp) r
    else finish (ip ++ 46 :: fp) r.

(** paths/lex.go:154-163 *)
Definition lexID (isAlpha : Z -> bool) (r0 : rd) : lexeme * rd :=
  let r := rd_unget r0 in
  let (s, r) := rd_span isAlpha r in
  (mkLex TID (LStr s) None, r).

(** The loop of paths/lex.go:242-256 collecting four hexadecimal digits *)
Fixpoint hex_loop (i : nat) (acc : bytes) (r : rd) : (bytes + perr) * rd :=
  match i with
  | O => (inl acc, r)
  | S i' =>
    let (c, r') := rd_get r in
    if c =? eof then (inr EUnclosedString, r')
    else if negb (isHexDigit c) then (inr EShortEscape, rd_unget r')
    else hex_loop i' (acc ++ [c]) r'
  end.

(** paths/lex.go:219-267: a rune or an error *)
Definition escaped (cq : Z) (r0 : rd) : (Z + perr) * rd :=
  let (c, r) := rd_get r0 in
  if c =? eof then (inr EUnclosedString, r)
  else if (c =? 92) || (c =? 47) then (inl c, r)
  else if c =? 116 then (inl 9, r)
  else if c =? 102 then (inl 12, r)
  else if c =? 110 then (inl 10, r)
  else if c =? 114 then (inl 13, r)
  else if c =? 98 then (inl 8, r)
  else if c =? 117 then
    match hex_loop 4 [] r with
    | (inl ds, r') => (inl (hex_acc 0 ds), r')
    | (inr e, r') => (inr e, r')
    end
  else if negb (c =? cq) then (inr EBadEscape, rd_unget r)
  else (inl cq, r).

(** The inner loop of paths/lex.go:178-207: the backslash has been read; [surr]
    is a pending surrogate (0 if none); returns the accumulated string.  On
    exit the loop's last r.get() is undone by r.unget() (line 203), also at the
    end of the input, where get had not advanced. *)
Fixpoint esc_loop (fuel : nat) (cq surr : Z) (acc : bytes) (r : rd) : (bytes + perr) * rd :=
  match fuel with
  | O => (inr EFuel, r)
  | S n =>
    match escaped cq r with
    | (inr e, r1) => (inr e, r1)
    | (inl rv, r1) =>
      let next (acc : bytes) (surr : Z) :=
        let (c, r2) := rd_get r1 in
        if c =? 92 then esc_loop n cq surr acc r2
        else
          (inl (if negb (surr =? 0) then acc ++ utf8_encode rune_error else acc),
           rd_unget r2) in
      if negb (surr =? 0) then
        let paired := utf16_decode surr rv in
        let acc1 := acc ++ utf8_encode paired in
        if negb (paired =? rune_error) then next acc1 0
        else next (acc1 ++ utf8_encode rv) 0
      else if is_surrogate rv then next acc rv
      else next (acc ++ utf8_encode rv) 0
    end
  end.

(** paths/lex.go:165-217 *)
Fixpoint lexString_loop (fuel : nat) (cq : Z) (acc : bytes) (r : rd) : (bytes + perr) * rd :=
  match fuel with
  | O => (inr EFuel, r)
  | S n =>
    let (c, r1) := rd_get r in
    if c =? eof then (inr EUnclosedString, r1)
    else if c =? cq then (inl acc, r1)
    else if c =? 92 then
      match esc_loop (S (length (rd_after r1))) cq 0 acc r1 with
      | (inr e, r2) => (inr e, r2)
      | (inl acc', r2) => lexString_loop n cq acc' r2
      end
    else if c <? 32 then (inr ECtrlChar, r1)
    else lexString_loop n cq (acc ++ [c]) r1
  end.
(** paths/lex.go:165-217: the loop, with fuel for the rest of the text *)
Definition lexString (cq : Z) (r : rd) : (bytes + perr) * rd :=
  lexString_loop (S (S (length (rd_after r)))) cq [] r.

(** paths/lex.go:269-280.  [f = TError] gives the diagnostic of line 277. *)
Definition isNext (c : Z) (t f : token) (r : rd) : lexeme * rd :=
  if rd_look r =? c then let (_, r') := rd_get r in (lex_tok t, r')
  else match f with
       | TError => (lex_err (ECharAfter (rd_look r) c (rd_offset r)), r)
       | _ => (lex_tok f, r)
       end.

(** paths/lex.go:282-285 *)
Definition tokenErr (c : Z) (r : rd) : lexeme := lex_err (EChar c (rd_offset r)).

(** the case of a quote in paths/lexpath.go:12-53 and paths/lexexpr.go:19-58 *)
Definition lex_string_tok (c : Z) (r : rd) : lexeme * rd :=
  match lexString c r with
  | (inr e, r') => (lex_err e, r')
  | (inl s, r') => (mkLex TString (LStr s) None, r')
  end.

(** the lists of characters in the cases of paths/lexpath.go:12-53 and paths/lexexpr.go:19-58 *)
Definition mem_Z (c : Z) (l : list Z) : bool := existsb (Z.eqb c) l.

(** paths/lexpath.go:12-53, the part of lexPath that reads from the input *)
Definition lexPath_rd (O : textoracles) (r0 : rd) : lexeme * rd :=
  let (c, r) := rd_get (ws r0) in
  if c =? eof then (lex_tok TEOF, r)
  else if mem_Z c [40; 41; 91; 93; 42; 36; 58; 44] then (lex_tok (TChar c), r)
  else if c =? 46 then isNext 46 TNest (TChar 46) r
  else if c =? 63 then isNext 40 TFilter TError r
  else if (c =? 34) || (c =? 39) then lex_string_tok c r
  else if c =? 45 then
    let r := ws r in
    let (d, r1) := rd_get r in
    if negb (isDigit d) then
      let r2 := rd_unget r1 in (tokenErr (rd_look r2) r2, r2)
    else
      let (fol, r2) := lexNumber O false r1 in
      match lx_tok fol, lx_val fol with
      | TInt, LInt n =>
        if n =? max_int64 then (lex_err EIntOverflow, r2)
        else (mkLex TInt (LInt (- n)) (lx_err fol), r2)
      | _, _ => (tokenErr c r2, r2)
      end
  else if isDigit c then lexNumber O false r
  else if isLetter c then lexID isAlphanumericDash r
  else (tokenErr c r, r).

(** paths/lexexpr.go:19-58, the part of lexExpr that reads from the input *)
Definition lexExpr_rd (O : textoracles) (r0 : rd) : lexeme * rd :=
  let (c, r) := rd_get (ws r0) in
  if c =? eof then (lex_tok TEOF, r)
  else if mem_Z c [40; 41; 91; 93; 64; 36; 46; 44; 126; 42; 37; 43; 45] then (lex_tok (TChar c), r)
  else if c =? 47 then (lex_tok (TChar c), r)
  else if c =? 38 then isNext 38 TAnd (TChar 38) r
  else if c =? 124 then isNext 124 TOr (TChar 124) r
  else if c =? 60 then isNext 61 TLE (TChar 60) r
  else if c =? 62 then isNext 61 TGE (TChar 62) r
  else if c =? 61 then
    let (lx, r1) := isNext 61 TEQ (TChar 61) r in
    if negb (tok_eqb (lx_tok lx) (TChar 61)) then (lx, r1)
    else isNext 126 TMatch (TChar 61) r1
  else if c =? 33 then isNext 61 TNE (TChar 33) r
  else if (c =? 34) || (c =? 39) then lex_string_tok c r
  else if isDigit c then lexNumber O true r
  else if isLetter c then lexID isAlphanumeric r
  else (tokenErr c r, r).

(** paths/lexpath.go:5-11 and paths/lexexpr.go:12-18: a pushed-back lexeme is
    returned first, whichever lexical syntax asks for it *)
Definition lexPath (O : textoracles) (l : lexer) : lexeme * lexer :=
  match l_peek l with
  | Some lx => (lx, mkLexer (l_rd l) None)
  | None => let (lx, r) := lexPath_rd O (l_rd l) in (lx, mkLexer r None)
  end.

Definition lexExpr (O : textoracles) (l : lexer) : lexeme * lexer :=
  match l_peek l with
  | Some lx => (lx, mkLexer (l_rd l) None)
  | None => let (lx, r) := lexExpr_rd O (l_rd l) in (lx, mkLexer r None)
  end.

(** The loop of paths/lexexpr.go:61-80 *)
Fixpoint lexRegexp_loop (ec : Z) (acc : bytes) (b a : bytes) : lexeme * rd :=
  match a with
  | [] => (mkLex TRE (LStr acc) (Some EUnclosedRE), mkRd b [])
  | c :: a' =>
    if c =? ec then (mkLex TRE (LStr acc) None, mkRd (c :: b) a')
    else
      match a' with
      | d :: a'' =>
        if (c =? 92) && (d =? ec) then lexRegexp_loop ec (acc ++ [ec]) (d :: c :: b) a''
        else lexRegexp_loop ec (acc ++ [c]) (c :: b) a'
      | [] => lexRegexp_loop ec (acc ++ [c]) (c :: b) a'
      end
  end.

(** paths/lexexpr.go:61-80: reads the input directly, past any pushed-back lexeme *)
Definition lexRegexp (ec : Z) (l : lexer) : lexeme * lexer :=
  let (lx, r) := lexRegexp_loop ec [] (rd_before (l_rd l)) (rd_after (l_rd l)) in
  (lx, mkLexer r (l_peek l)).

(** paths/lex.go:77-84; [None] is the panic "too much lookahead" *)
Definition unget (lx : lexeme) (l : lexer) : option lexer :=
  match l_peek l with
  | Some _ => None
  | None => Some (mkLexer (l_rd l) (Some lx))
  end.
