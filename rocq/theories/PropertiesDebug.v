(** What %#v prints of a lexeme (C88). *)
From Coq Require Import String.
From Verif Require Import Syntax Lexer Listing Messages Debug SpecMessages SpecDescribe SpecDebug DebugProofs PropertiesDescribe CliTextProofs Examples Tests.
Local Open Scope Z_scope.
Local Open Scope string_scope.
Local Open Scope list_scope.

(** Lexemes that are read from two texts and print the same with %#v are the same, or are the
    same error. *)
Theorem C88_same : forall F G sharp TX s s' lx lx', plain_texts F G TX -> sharp_floats TX sharp -> quoting F ->
  is_bytes s -> is_bytes s' -> read TX s lx -> read TX s' lx' ->
  lexeme_GoString F G sharp lx = lexeme_GoString F G sharp lx' -> same_lexeme lx lx'.
Proof. exact read_same. Qed.
Print Assumptions C88_same.

(** What is printed is an exclamation mark and more exactly if there was an error. *)
Theorem C88_error : forall F G sharp TX s lx, is_bytes s -> read TX s lx ->
  ((exists c x, lexeme_GoString F G sharp lx = 33 :: c :: x) <-> lx_err lx <> None).
Proof. exact read_error. Qed.
Print Assumptions C88_error.

(** the lexemes of a text, read as paths or as expressions *)
Fixpoint x_lexemes (n : nat) (expr : bool) (l : lexer) : list lexeme :=
  match n with
  | O => []
  | S n => let (lx, l) := (if expr then lexExpr else lexPath) x_text l in lx :: x_lexemes n expr l
  end.
Definition x_shown (n : nat) (expr : bool) (s : string) : list bytes :=
  map (lexeme_GoString x_plain tt_messages (fun _ => b_of "1.5")) (x_lexemes n expr (mkLexer (rd_of (b_of s)) None)).

(** A text and what is printed of its lexemes; the same error in two texts; an operator that
    starts with an exclamation mark and is not an error. *)
Example C88_ex :
  x_shown 13 false "$..a['b c', -5, *]?(:)" =
    map b_of ["$"; "tokNest"; "tokID(""a"")"; "["; "tokString(""b c"")"; ","; "tokInt(-5)"; ","; "*"; "]"; "tokFilter"; ":"; ")"] /\
  x_shown 16 true "<= >= == != && || =~ ! < a 'b' 1.5 @ & #" =
    map b_of ["tokLE"; "tokGE"; "tokEQ"; "tokNE"; "tokAnd"; "tokOr"; "tokMatch"; "!"; "<"; "tokID(""a"")"; "tokString(""b"")"; "tokReal(1.5)"; "@"; "&";
      "!unexpected character '#' at offset 39"; "tokEOF"] /\
  map (fun s => lexeme_GoString x_plain tt_messages (fun _ => []) (fst (lexRegexp 47 (mkLexer (rd_of (b_of s)) None)))) ["a\/b+/i"; "a"; "b"] =
    map b_of ["tokRE(""a/b+"")"; "!unclosed regular expression literal"; "!unclosed regular expression literal"] /\
  map token_GoString [TError; TIn; TNin; TChar 126] = map b_of ["tokError"; "tokIn"; "tokNin"; "~"] /\
  plain_texts x_quotes tt_messages x_text /\ sharp_floats x_text (fun _ => b_of "1.5") /\ quoting x_quotes /\
  is_bytes (b_of "$a") /\ is_bytes (b_of " a'") /\
  let lx := mkLex TID (LStr (b_of "a")) None in
  read x_text (b_of "$a") lx /\ read x_text (b_of " a'") lx.
Proof.
  assert (Q : forall a b f g, o_parse_float x_text a = Some f -> o_parse_float x_text b = Some g -> f = g).
  { intros a b f g Ha Hb. unfold x_text in *. cbn [o_parse_float] in Ha, Hb.
    destruct (beqb a (b_of "1.5")), (beqb b (b_of "1.5")); congruence. }
  split; [vm_compute; reflexivity|]. split; [vm_compute; reflexivity|]. split; [vm_compute; reflexivity|]. split; [vm_compute; reflexivity|].
  split; [split; [eauto|]|].
  { intro p. unfold tt_messages. cbn [mg_regexp]. eexists.
    change (b_of "error parsing regexp: unexpected ): `") with (b_of "error parsing regexp: " ++ b_of "unexpected ): `").
    rewrite <- app_assoc. reflexivity. }
  split; [intros a b f g Ha Hb _; eauto|]. split; [exact x_quoting|].
  split; [apply bytesb_ok; vm_compute; reflexivity|]. split; [apply bytesb_ok; vm_compute; reflexivity|].
  intro lx. split.
  - exact (RdPath x_text (b_of "$a") [36] [97] eq_refl).
  - exact (RdExpr x_text (b_of " a'") [] [32; 97; 39] eq_refl).
Qed.
