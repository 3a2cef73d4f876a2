(** The text of a syntax error determines the error: what was wrong, and where. *)
From Verif Require Import SpecMessages Messages MessageProofs SpecDoc SpecRun SpecText CliTextProofs Examples Tests.
Local Open Scope Z_scope.

(** Texts whose parses fail with the same message have the same error, but for the pattern of an
    invalid regular expression. *)
Theorem C67_parse : forall F G TX s s' e e', plain_texts F G TX -> is_bytes s -> is_bytes s' ->
  ParsePath TX s = Fail e \/ ParseScriptExpression TX s = Fail e ->
  ParsePath TX s' = Fail e' \/ ParseScriptExpression TX s' = Fail e' ->
  perr_Error F G e = perr_Error F G e' -> same_cause e e'.
Proof. exact parse_cause. Qed.
Print Assumptions C67_parse.

(** The same of Compile. *)
Theorem C67_compile : forall F G TX s s' e e', plain_texts F G TX -> is_bytes s -> is_bytes s' ->
  JP_Compile TX s = Fail e -> JP_Compile TX s' = Fail e' -> api_Error F G e = api_Error F G e' ->
  match e, e' with AParse a, AParse b => same_cause a b | ACompile a, ACompile b => a = b | _, _ => False end.
Proof. exact compile_cause. Qed.
Print Assumptions C67_compile.

(** Two texts with the same message, and one with another that differs only in the offset. *)
Example C67_ex : let F := mkPrinters (fun s => s) (fun _ => []) in let m s := match JP_Compile x_text (b_of s) with Fail e => api_Error F tt_messages e | _ => [] end in
  plain_texts F tt_messages x_text /\ is_bytes (b_of "$.a[b+1]") /\ is_bytes (b_of "$.c['d'+") /\
  m "$.a[b+1]"%string = b_of "expected ""]"" at offset 5, got unexpected character '+' at offset 5" /\
  m "$.c[d+2]"%string = m "$.a[b+1]"%string /\
  m "$.c['d'+"%string = b_of "expected ""]"" at offset 7, got unexpected character '+' at offset 7".
Proof.
  cbv zeta. split; [split|].
  - intros a b f g Ha Hb _. unfold x_text in *. cbn [o_parse_float] in Ha, Hb.
    destruct (beqb a (b_of "1.5")), (beqb b (b_of "1.5")); congruence.
  - intro p. unfold tt_messages. cbn [mg_regexp]. eexists.
    change (b_of "error parsing regexp: unexpected ): `") with (b_of "error parsing regexp: " ++ b_of "unexpected ): `").
    rewrite <- app_assoc. reflexivity.
  - split; [apply bytesb_ok; vm_compute; reflexivity|]. split; [apply bytesb_ok; vm_compute; reflexivity|].
    repeat split; vm_compute; reflexivity.
Qed.

(** The words of messages. *)
Example C67_ex_texts : let F := mkPrinters (fun s => s) (fun _ => []) in
  let m s := match JP_Compile x_text (b_of s) with Fail e => api_Error F tt_messages e | _ => [] end in
  map m ["$['a"; "$['a\q']"; "$['\u12']"; "$[-9223372036854775807]"; "$[9223372036854775808]"; "$[?(1.0e)]"; "$[?(@=~/a"; "$[?(1.5e999)]"]%string =
  map b_of ["unclosed string literal"; "unknown character escape sequence"; "unicode escape needs 4 hex digits"; "overflow of negative integer literal";
    "strconv.ParseInt: parsing ""9223372036854775808"": value out of range"; "invalid floating-point literal syntax";
    "unclosed regular expression literal"; "strconv.ParseFloat: parsing ""1.5e999"": value out of range"]%string /\
  map m ["$.a#"; "x"; "$a"; "$.."; "$[1:2 3]"; "$[1:x]"; "$[1,..a]"; "$[1,(2),?(3)]"; "$[1,2:3,*,'a'"; ""]%string =
  map b_of ["unexpected character '#' at offset 3"; "expected ""$"" at offset 0, got identifier"; "unexpected token identifier(a)";
    "unexpected end of expression at offset 2"; "unexpected token integer literal at offset 6"; "unexpected identifier at offset 4"; "unexpected .. at offset 5";
    "(exp) cannot be in a union element list"; "* cannot be in a union element list"; "expected ""$"" at offset 0, got end of expression"]%string /\
  map m ["$[?(1 2)]"; "$[?((1)(2))]"; "$[?(@.1)]"; "$[?(+)]"; "$[?(@ & 1)]"; "$[?x"]%string =
  map b_of ["expected "")"" at offset 6, got integer literal"; "expected identifier before '(', not integer"; "expected identifier in '.' selection";
    "unexpected token + in expression term"; "expected "")"" at offset 6, got &"; "unexpected char 'x' after '(' at offset 2"]%string /\
  m "$[?"%string = b_of "unexpected char '" ++ [239; 191; 189] ++ b_of "' after '(' at offset 2" /\
  map (fun c => match JP_Compile x_text (b_of "$[?" ++ [c]) with Fail e => api_Error F tt_messages e | _ => [] end) [39; 92; 7; 8; 9; 10; 11; 12; 13; 31; 127; 160; 173; 233] =
  map (fun q => b_of "unexpected char '" ++ q ++ b_of "' after '(' at offset 2")
    [b_of "\'"; b_of "\\"; b_of "\a"; b_of "\b"; b_of "\t"; b_of "\n"; b_of "\v"; b_of "\f"; b_of "\r"; b_of "\x1f"; b_of "\x7f"; b_of "\u00a0"; b_of "\u00ad"; [195; 169]].
Proof. cbv zeta. repeat split; vm_compute; reflexivity. Qed.

(** Evaluations that fail with the same message have the same error, but for what is printed of a
    value or by package regexp. *)
Theorem C67_eval : forall F G TX s ss jp s' ss' jp' W W' t t' root root' e e', plain_texts F G TX ->
  accepted TX s ss jp -> fits jp -> orders_ok W -> doc root -> JP_Eval W t jp root (Fail e) ->
  accepted TX s' ss' jp' -> fits jp' -> orders_ok W' -> doc root' -> JP_Eval W' t' jp' root' (Fail e') ->
  rerr_Error G e = rerr_Error G e' -> same_failure G e e'.
Proof. exact eval_cause. Qed.
Print Assumptions C67_eval.

(** Two paths and documents with the same message. *)
Example C67_ex_eval : let s := b_of "$[?(contains(1))]" in let s' := b_of "$.a[(contains(@))]" in
  let root := VArr [VNil] in let root' := VObj [(b_of "a", VArr [VNil])] in let e := RArgCount (b_of "contains") 2 1 in
  accepted x_text s (steps_of s) (jp_of s) /\ fits (jp_of s) /\ orders_ok x_world /\ doc root /\ JP_Eval x_world 0 (jp_of s) root (Fail e) /\
  accepted x_text s' (steps_of s') (jp_of s') /\ fits (jp_of s') /\ doc root' /\ JP_Eval x_world 0 (jp_of s') root' (Fail e) /\
  rerr_Error tt_messages e = b_of "contains: wrong argument count: need 2, got 1".
Proof.
  cbv zeta. repeat (split; [first [apply acceptedb_ok; vm_compute; reflexivity | exact x_world_ok | apply docb_doc; vm_compute; reflexivity
    | split; [discriminate|]; exists 200%nat; vm_compute; reflexivity | vm_compute; reflexivity]|]). vm_compute. reflexivity.
Qed.
