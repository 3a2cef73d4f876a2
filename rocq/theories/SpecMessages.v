(** What the text of an error says.  A specification. *)
From Verif Require Import Syntax Lexer Messages.
Local Open Scope Z_scope.

(** the same error, but for the pattern of an invalid regular expression, whose error's text is
    package regexp's *)
Inductive same_cause : perr -> perr -> Prop :=
| ScSame : forall e, same_cause e e
| ScRegexp : forall p p' o, same_cause (ERegexpSyntax p o) (ERegexpSyntax p' o)
| ScExpected : forall t o e e', same_cause e e' -> same_cause (EExpectedErr t o e) (EExpectedErr t o e').
(** what is assumed of the texts that are not modelled *)
Definition plain_texts (F : printers) (G : messages) (TX : textoracles) : Prop :=
  (forall a b f g, o_parse_float TX a = Some f -> o_parse_float TX b = Some g -> pr_float F f = pr_float F g -> f = g) /\
  (forall p, exists x, mg_regexp G p = b_of "error parsing regexp: " ++ x).
(** the same run-time error, but for what is printed of a value or by package regexp *)
Inductive same_failure (G : messages) : rerr -> rerr -> Prop :=
| SfSame : forall e, same_failure G e e
| SfRegexp : forall p p', mg_regexp G p = mg_regexp G p' -> same_failure G (RBadRegexp p) (RBadRegexp p')
| SfRight : forall v v', mg_value G v = mg_value G v' -> same_failure G (RMatchRight v) (RMatchRight v')
| SfLeft : forall v v', mg_string G v = mg_string G v' -> same_failure G (RMatchLeft v) (RMatchLeft v')
| SfIn : forall neg v v', mg_string G v = mg_string G v' -> same_failure G (RInRight neg v) (RInRight neg v').
(** what is assumed of strconv.CanBackquote and strconv.Quote: a string that can be backquoted has
    no backquote; a quoted string starts with a double quote, and where it ends is told by it *)
Definition quotes (F : printers) (G : messages) : Prop :=
  (forall s, mg_backquote G s = true -> ~ In 96 s) /\ (forall s, exists x, pr_quote F s = 34 :: x) /\
  (forall s s' x x', pr_quote F s ++ x = pr_quote F s' ++ x' -> s = s').
