(** Properties of the parser (C01-C09).  The hypothesis [is_bytes s] says that [s] is a
    sequence of bytes; [TX] stands for strconv.ParseFloat and regexp.Compile. *)
From Verif Require Import Base Syntax SpecGrammar SpecSyntax SpecTokens SpecPrint Lexer Parser LexProofs2 ParserExact
  LiteralProofs TokenProofs.
Local Open Scope Z_scope.

(** oracles for the examples: 1.5 is the only floating-point literal *)
Definition ex_half : f64 := S754_finite false 3 (-1).
Definition ex_tx : textoracles :=
  mkText (fun t => if beqb t (b_of "1.5") then Some ex_half else None) (fun _ => true).
Definition ex_ft (f : f64) : bytes := b_of "1.5".

(** ** C01 *)
(** [clean e]: the error is one that Go can report, not the end of the model's fuel *)
Theorem C01_path : forall TX s, is_bytes s ->
  (exists p, ParsePath TX s = OK p) \/ (exists e, ParsePath TX s = Fail e /\ clean e).
Proof. exact path_total. Qed.
Print Assumptions C01_path.

Theorem C01_script : forall TX s, is_bytes s ->
  (exists e, ParseScriptExpression TX s = OK e) \/
  (exists e, ParseScriptExpression TX s = Fail e /\ clean e).
Proof. exact script_total. Qed.
Print Assumptions C01_script.

Example C01_ex_ok : ParsePath ex_tx (b_of "$..a[1:-2,'x'][?(@.b > 1.5)]") =
  OK [mkStep OpNestMember [PName (b_of "a")];
      mkStep OpUnion [PSlice (mkSlice (Some (BInt 1)) (Some (BInt (-2))) None); PStr (b_of "x")];
      mkStep OpFilter [PExpr (EInner OpGT [EInner OpDot [ECurrent; EName (b_of "b")]; EFloat ex_half])]].
Proof. vm_compute. reflexivity. Qed.
Example C01_ex_fail : exists e, ParsePath ex_tx (b_of "$..a[1:-2" ++ [255; 0]) = Fail e /\ clean e.
Proof. eexists. split; [vm_compute; reflexivity|exact I]. Qed.

(** ** C02 *)
Theorem C02_path_grammar : forall TX s, is_bytes s ->
  (forall p, ParsePath TX s = OK p <-> g_path (o_parse_float TX) (o_re_ok TX) false s p) /\
  ((forall p, ~ g_path (o_parse_float TX) (o_re_ok TX) false s p) <-> exists e, ParsePath TX s = Fail e).
Proof. exact path_exact. Qed.
Print Assumptions C02_path_grammar.

Example C02_ex : g_path (o_parse_float ex_tx) (o_re_ok ex_tx) false (b_of "$ . a [ 0 , 'k' ]")
  [mkStep OpMember [PName (b_of "a")]; mkStep OpUnion [PInt 0; PStr (b_of "k")]].
Proof.
  apply (proj1 (C02_path_grammar ex_tx (b_of "$ . a [ 0 , 'k' ]") ltac:(repeat (constructor; [vm_compute; intuition discriminate|]); constructor))).
  vm_compute. reflexivity.
Qed.

(** ** C03 *)
(** the accepted texts are exactly those of the grammar in which the last literal may be
    left unclosed after an escaped quote *)
Theorem C03_script_grammar : forall TX s, is_bytes s -> forall e,
  ParseScriptExpression TX s = OK e <-> g_script (o_parse_float TX) (o_re_ok TX) true s e.
Proof. exact script_exact. Qed.
Print Assumptions C03_script_grammar.

(** every text of the documented grammar is accepted, with the documented tree *)
Theorem C03_documented_accepted : forall TX s e, is_bytes s ->
  g_script (o_parse_float TX) (o_re_ok TX) false s e -> ParseScriptExpression TX s = OK e.
Proof. exact script_documented_sound. Qed.
Print Assumptions C03_documented_accepted.

(** Missing: texts ending in an escaped quote, for which the statement is false, see
    C03_refuted. *)
Theorem C03_documented_partial : forall TX s, is_bytes s -> ~ ends_in_escaped_quote s ->
  (forall e, ParseScriptExpression TX s = OK e <-> g_script (o_parse_float TX) (o_re_ok TX) false s e) /\
  ((forall e, ~ g_script (o_parse_float TX) (o_re_ok TX) false s e) <->
   exists e, ParseScriptExpression TX s = Fail e).
Proof. exact script_documented. Qed.
Print Assumptions C03_documented_partial.

Theorem C03_refuted : exists s, is_bytes s /\ forall TX,
  (exists e, ParseScriptExpression TX s = OK e) /\
  forall e, ~ g_script (o_parse_float TX) (o_re_ok TX) false s e.
Proof. exact script_more_accepted. Qed.
Print Assumptions C03_refuted.

Example C03_ex : ParseScriptExpression ex_tx (b_of "1 - 2 - 3 * -a.b in c && d || !e == f") =
  OK (EInner OpOr [EInner OpAnd [EInner OpIn [EInner OpSub [EInner OpSub [EInt 1; EInt 2];
        EInner OpMul [EInt 3; EInner OpNeg [EInner OpDot [EName (b_of "a"); EName (b_of "b")]]]];
        EName (b_of "c")]; EName (b_of "d")];
      EInner OpEQ [EInner OpNot [EName (b_of "e")]; EName (b_of "f")]]).
Proof. vm_compute. reflexivity. Qed.

(** ** C04 *)
Theorem C04_path : forall TX ft p, writable_path ft (o_parse_float TX) (o_re_ok TX) p ->
  ParsePath TX (print_path ft p) = OK p.
Proof. exact path_round_trip. Qed.
Print Assumptions C04_path.

Theorem C04_script : forall TX ft e, writable ft (o_parse_float TX) (o_re_ok TX) e ->
  ParseScriptExpression TX (print_expr ft e) = OK e.
Proof. exact script_round_trip. Qed.
Print Assumptions C04_script.

(** whatever is parsed can be printed, and the print is parsed to the same tree *)
Theorem C04_path_reprint : forall TX ft, prints_literals ft (o_parse_float TX) ->
  forall s p, is_bytes s -> ParsePath TX s = OK p ->
  writable_path ft (o_parse_float TX) (o_re_ok TX) p /\ ParsePath TX (print_path ft p) = OK p.
Proof. exact path_reprint. Qed.
Print Assumptions C04_path_reprint.

Theorem C04_script_reprint : forall TX ft, prints_literals ft (o_parse_float TX) ->
  forall s e, is_bytes s -> ParseScriptExpression TX s = OK e ->
  writable ft (o_parse_float TX) (o_re_ok TX) e /\ ParseScriptExpression TX (print_expr ft e) = OK e.
Proof. exact script_reprint. Qed.
Print Assumptions C04_script_reprint.

Lemma ex_prints : prints_literals ex_ft (o_parse_float ex_tx).
Proof.
  intros t f Ht H. simpl in H. destruct (beqb t (b_of "1.5")); [|discriminate]. injection H as <-.
  split; [|reflexivity]. apply (RealPlain [49] [53]); [discriminate| |]; repeat constructor; discriminate.
Qed.
Example C04_ex : exists p, ParsePath ex_tx (b_of "$..a[?(@.x+1.5>f(1,'\n'))][1:,2]") = OK p /\
  print_path ex_ft p =
    b_of "$ .. a [ ?( ( ( ( @ . x ) + 1.5 ) > ( f ( 1 , '\u000a' ) ) ) ) ] [ 1 : , 2 ]".
Proof. eexists. split; vm_compute; reflexivity. Qed.

(** ** C05 *)
Theorem C05_any_key : forall TX q k, q = 34 \/ q = 39 -> is_bytes k ->
  ParsePath TX (36 :: 91 :: print_str q k ++ [93]) = OK [mkStep OpSelect [PStr k]].
Proof. exact key_text. Qed.
Print Assumptions C05_any_key.

Example C05_ex : print_str 39 [0; 39; 92; 34; 200; 10] = b_of "'\u0000\'\\""" ++ [200] ++ b_of "\u000a'" /\
  ParsePath ex_tx (36 :: 91 :: print_str 39 [0; 39; 92; 34; 200; 10] ++ [93]) =
  OK [mkStep OpSelect [PStr [0; 39; 92; 34; 200; 10]]].
Proof. split; vm_compute; reflexivity. Qed.

(** ** C06 *)
(** an escape that is not a surrogate, between any two parts of a literal *)
Theorem C06_code_point : forall TX q x r t1 v1 t2 v2, q = 34 \/ q = 39 -> esc_item q x r ->
  surrogate r = false -> is_bytes t1 -> is_bytes t2 -> str_body q t1 v1 -> str_body q t2 v2 ->
  exists bs, utf8 r bs /\
    ParsePath TX (36 :: 91 :: (q :: (t1 ++ 92 :: x ++ t2) ++ [q]) ++ [93]) =
      OK [mkStep OpSelect [PStr (v1 ++ bs ++ v2)]] /\
    ParseScriptExpression TX (q :: (t1 ++ 92 :: x ++ t2) ++ [q]) = OK (EStr (v1 ++ bs ++ v2)).
Proof. exact escape_text. Qed.
Print Assumptions C06_code_point.

(** Missing: literals in which a surrogate that is not half of a pair stands directly
    before a pair; for these the statement is false, see C06_refuted. *)
Theorem C06_json_partial : forall TX q t v, q = 34 \/ q = 39 -> is_bytes t ->
  json_body (fun rs => lone_before_pair None rs = false) q t v ->
  ParsePath TX (36 :: 91 :: (q :: t ++ [q]) ++ [93]) = OK [mkStep OpSelect [PStr v]] /\
  ParseScriptExpression TX (q :: t ++ [q]) = OK (EStr v).
Proof. exact json_text. Qed.
Print Assumptions C06_json_partial.

(** the encoding used in [json_body] *)
Theorem C06_utf8 : forall r, 0 <= r <= 1114111 -> surrogate r = false -> utf8 r (utf8_encode r).
Proof. exact utf8_encode_ok. Qed.
Print Assumptions C06_utf8.

Theorem C06_refuted : exists t v, json_body (fun _ => True) 39 t v /\
  forall TX, ParseScriptExpression TX (39 :: t ++ [39]) <> OK (EStr v).
Proof. exact surrogates_lost. Qed.
Print Assumptions C06_refuted.

Example C06_ex_pair : json_body (fun rs => lone_before_pair None rs = false) 39
  (b_of "a\ud83d\ude00\udc00z") (97 :: [240; 159; 152; 128] ++ [239; 191; 189] ++ [122]).
Proof. exact smile. Qed.
Example C06_ex_code_point : ParseScriptExpression ex_tx (b_of "'\ud83d\u00e9\ude00'") =
  OK (EStr ([239; 191; 189] ++ [195; 169] ++ [239; 191; 189])).
Proof. vm_compute. reflexivity. Qed.

(** ** C07 *)
(** a path whose tokens, read from the left, lead to a literal that is not closed *)
Theorem C07_path : forall TX s m r, is_bytes s -> toks (o_parse_float TX) false InPath s m r -> unclosed r ->
  exists e, ParsePath TX s = Fail e.
Proof. exact path_unclosed_bytes. Qed.
Print Assumptions C07_path.

(** Missing: scripts ending in an escaped quote, for which the statement is false, see
    C07_refuted. *)
Theorem C07_script_partial : forall TX s m r, is_bytes s -> ~ ends_in_escaped_quote s ->
  toks (o_parse_float TX) false (InExpr 0 true) s m r -> unclosed r ->
  exists e, ParseScriptExpression TX s = Fail e.
Proof. exact script_unclosed_bytes. Qed.
Print Assumptions C07_script_partial.

Theorem C07_refuted : exists s, is_bytes s /\ unclosed s /\
  forall TX, exists e, ParseScriptExpression TX s = OK e.
Proof. exact script_unclosed_accepted. Qed.
Print Assumptions C07_refuted.

Example C07_ex : toks (o_parse_float ex_tx) false InPath (b_of "$[?(@.a=~/'/ &&'x\") (InExpr 0 true) (b_of "'x\") /\
  unclosed (b_of "'x\").
Proof. exact (unclosed_example _). Qed.

(** ** C08 *)
Theorem C08_value : forall TX ds, ds <> [] -> Forall digit ds -> dec_val ds < 2 ^ 63 ->
  ParsePath TX (36 :: 91 :: ds ++ [93]) = OK [mkStep OpSelect [PInt (dec_val ds)]] /\
  ParseScriptExpression TX ds = OK (EInt (dec_val ds)).
Proof. exact int_text. Qed.
Print Assumptions C08_value.

Theorem C08_negative : forall TX w ds, Forall space w -> ds <> [] -> Forall digit ds ->
  dec_val ds < 2 ^ 63 - 1 ->
  ParsePath TX (36 :: 91 :: (45 :: w ++ ds) ++ [93]) = OK [mkStep OpSelect [PInt (- dec_val ds)]].
Proof. exact neg_text. Qed.
Print Assumptions C08_negative.

(** a literal out of range, wherever a token can stand; the magnitudes 2^63-1 and 2^63
    are out of range after a sign *)
Theorem C08_path_range : forall TX s m r, is_bytes s -> toks (o_parse_float TX) true InPath s m r ->
  big_int m r -> exists e, ParsePath TX s = Fail e.
Proof. exact path_big_bytes. Qed.
Print Assumptions C08_path_range.

Theorem C08_script_range : forall TX s m r, is_bytes s -> toks (o_parse_float TX) true (InExpr 0 true) s m r ->
  big_int m r -> exists e, ParseScriptExpression TX s = Fail e.
Proof. exact script_big_bytes. Qed.
Print Assumptions C08_script_range.

Example C08_ex_value : ParsePath ex_tx (b_of "$[0009223372036854775807]") =
  OK [mkStep OpSelect [PInt 9223372036854775807]] /\
  ParsePath ex_tx (b_of "$[- 9223372036854775806]") = OK [mkStep OpSelect [PInt (-9223372036854775806)]].
Proof. split; vm_compute; reflexivity. Qed.
Example C08_ex_range : toks (o_parse_float ex_tx) true InPath (b_of "$.a[-9223372036854775807]") InPath
    (b_of "-9223372036854775807]") /\
  big_int InPath (b_of "-9223372036854775807]") /\ big_int (InExpr 0 true) (b_of "9223372036854775808 + 1").
Proof. exact (range_example _). Qed.

(** ** C09 *)
Theorem C09_path_wf : forall TX, literal_floats (o_parse_float TX) ->
  forall s p, is_bytes s -> ParsePath TX s = OK p -> wf_path p.
Proof. exact path_wf. Qed.
Print Assumptions C09_path_wf.

Theorem C09_script_wf : forall TX, literal_floats (o_parse_float TX) ->
  forall s e, is_bytes s -> ParseScriptExpression TX s = OK e -> wf_expr e.
Proof. exact script_wf. Qed.
Print Assumptions C09_script_wf.

Example C09_ex : literal_floats (o_parse_float ex_tx) /\
  exists p, ParsePath ex_tx (b_of "$[1,'a',2:3]..[?(f(@.x,1.5))]") = OK p /\ length p = 2%nat.
Proof.
  split.
  - intros c t f _ H. cbn [o_parse_float ex_tx] in H. destruct (beqb (c :: t) _); [|discriminate]. injection H as <-. unfold lit_float, ex_half. split; discriminate.
  - eexists. split; [vm_compute; reflexivity|reflexivity].
Qed.
