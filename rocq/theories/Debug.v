(** What %#v prints of a token and a lexeme.  Models (token).GoString and (lexeme).GoString. *)
From Verif Require Export Messages.
Local Open Scope Z_scope.

(** paths/tokens.go:44-63 tokNames, 66-71 (token).GoString; a token that is a character is
    converted from an integer to a string *)
Definition token_GoString (t : token) : bytes :=
  match t with
  | TError => b_of "tokError"
  | TEOF => b_of "tokEOF"
  | TID => b_of "tokID"
  | TString => b_of "tokString"
  | TInt => b_of "tokInt"
  | TNest => b_of "tokNest"
  | TReal => b_of "tokReal"
  | TRE => b_of "tokRE"
  | TLE => b_of "tokLE"
  | TGE => b_of "tokGE"
  | TEQ => b_of "tokEQ"
  | TNE => b_of "tokNE"
  | TFilter => b_of "tokFilter"
  | TAnd => b_of "tokAnd"
  | TOr => b_of "tokOr"
  | TMatch => b_of "tokMatch"
  | TIn => b_of "tokIn"
  | TNin => b_of "tokNin"
  | TChar c => utf8_encode c
  end.

Section texts.
Variable F : printers.
Variable G : messages.
(** %#v of a float64, which is not always what fmt.Sprint prints; it is not modelled *)
Variable sharp : f64 -> bytes.

(** [%#v] of the value of a token: paths/lex.go:46.  Of a string it is what %q prints, of an
    int64 its decimal digits. *)
Definition lexval_GoString (v : lexval) : bytes :=
  match v with
  | LNone => b_of "<nil>"
  | LStr s => pr_quote F s
  | LInt z => sprint_int z
  | LFloat f => sharp f
  end.

(** paths/lex.go:41-49 *)
Definition lexeme_GoString (lx : lexeme) : bytes :=
  match lx_err lx with
  | Some e => b_of "!" ++ perr_Error F G e
  | None =>
    if hasVal (lx_tok lx)
    then token_GoString (lx_tok lx) ++ b_of "(" ++ lexval_GoString (lx_val lx) ++ b_of ")"
    else token_GoString (lx_tok lx)
  end.
End texts.
