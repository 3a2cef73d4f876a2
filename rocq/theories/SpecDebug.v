(** The lexemes that are read from a text.  A specification. *)
From Verif Require Import Syntax Lexer Messages SpecMessages SpecDescribe.
Local Open Scope Z_scope.

(** [read TX s lx]: somewhere in the text [s] one of the three analysers reads [lx] *)
Inductive read (TX : textoracles) (s : bytes) : lexeme -> Prop :=
| RdPath : forall u v, s = rev u ++ v -> read TX s (fst (lexPath TX (mkLexer (mkRd u v) None)))
| RdExpr : forall u v, s = rev u ++ v -> read TX s (fst (lexExpr TX (mkLexer (mkRd u v) None)))
| RdRegexp : forall u v ec p, s = rev u ++ v -> read TX s (fst (lexRegexp ec (mkLexer (mkRd u v) p))).

(** the same lexeme, or the same error *)
Definition same_lexeme (a b : lexeme) : Prop :=
  a = b \/ exists e, lx_err a = Some e /\ lx_err b = Some e.

(** what is assumed of %#v of a float64: it tells the values of literals apart *)
Definition sharp_floats (TX : textoracles) (sharp : f64 -> bytes) : Prop :=
  forall a b f g, o_parse_float TX a = Some f -> o_parse_float TX b = Some g -> sharp f = sharp g -> f = g.
