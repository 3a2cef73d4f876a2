(** Properties of syntax errors: their reasons and their offsets (C60, C61). *)
From Verif Require Import Syntax SpecGrammar Lexer Parser SpecErrors DetermProofs Examples.
Local Open Scope Z_scope.

(** ** C60 *)
(** Whatever a syntax error says about the text is so. *)
Theorem C60_path : forall TX s e, is_bytes s -> ParsePath TX s = Fail e -> reason TX s e.
Proof. exact path_why. Qed.
Print Assumptions C60_path.

Theorem C60_script : forall TX s e, is_bytes s -> ParseScriptExpression TX s = Fail e -> reason TX s e.
Proof. exact script_why. Qed.
Print Assumptions C60_script.

(** The offset of an error is that of a byte of the text, or 0 if the text is empty. *)
Theorem C60_offset : forall TX s e o, is_bytes s ->
  ParsePath TX s = Fail e \/ ParseScriptExpression TX s = Fail e ->
  offset_of e = Some o -> 0 <= o <= last_byte (length s).
Proof. exact offset_range. Qed.
Print Assumptions C60_offset.

Definition x_err (t : string) (e : perr) : Prop := is_bytes (b_of t) /\ ParsePath x_text (b_of t) = Fail e.
Ltac x_errs := repeat split; try (vm_compute; reflexivity); apply bytesb_ok; vm_compute; reflexivity.

(** every kind of error occurs *)
Example C60_ex_path :
  x_err "$['a" EUnclosedString /\ x_err "$['\q']" EBadEscape /\ x_err "$['\u12g']" EShortEscape /\
  x_err "$[-9223372036854775807]" EIntOverflow /\
  x_err "$[9223372036854775808]" (EParseInt (b_of "9223372036854775808")) /\
  x_err "$[?@]" (ECharAfter 64 40 2) /\ x_err "$.%" (EChar 37 2) /\ x_err "$[- x]" (EChar 120 3) /\
  x_err "$[-" (EChar 45 1) /\ x_err "$[-9223372036854775808]" (EChar 45 21) /\
  x_err "%" (EExpectedErr (TChar 36) 0 (EChar 37 0)) /\ x_err "" (EExpectedTok (TChar 36) 0 TEOF) /\
  x_err "$[1" (EExpectedTok (TChar 93) 2 TEOF) /\ x_err "$a" (EUnexpectedLex TID (LStr (b_of "a"))) /\
  x_err "$..]" (EUnexpectedTok (TChar 93) 3) /\ x_err "$[1:%]" (EUnexpectedTok TError 4) /\ x_err "$[*,1]" (EInUnion OpWild) /\
  x_err "$[(1(2))]" (ENotCallable OpInt) /\ x_err "$[(@.1)]" ENoSelId /\ x_err "$[(1 + * 2)]" (ETerm (TChar 42)) /\
  x_err "$[(@ =~ /a)]" EUnclosedRE /\ x_err "$[(1.5e)]" EBadReal /\ x_err "$[(2.5)]" (EParseFloat (b_of "2.5")).
Proof. x_errs. Qed.
Example C60_ex_script : let s := b_of "@.a b" in is_bytes s /\ ParseScriptExpression x_text s = Fail (EMissingOp 4 TID).
Proof. split; [apply bytesb_ok; vm_compute; reflexivity|vm_compute; reflexivity]. Qed.
Example C60_ex_re : let TX := mkText (fun _ => None) (fun _ => false) in let s := b_of "$[?(@ =~ /[a/)]" in
  is_bytes s /\ ParsePath TX s = Fail (ERegexpSyntax (b_of "[a") 9).
Proof. split; [apply bytesb_ok; vm_compute; reflexivity|vm_compute; reflexivity]. Qed.
Example C60_ex_ctrl : let s := b_of "$['" ++ [10] ++ b_of "']" in is_bytes s /\ ParsePath x_text s = Fail ECtrlChar.
Proof. split; [repeat constructor; lia|vm_compute; reflexivity]. Qed.

(** ** C61 *)
(** An error with an offset is about the text up to that byte and the next: any text that is the
    same up to there gives the same error. *)
Theorem C61_path : forall TX s s' e o, is_bytes s -> is_bytes s' -> ParsePath TX s = Fail e -> offset_of e = Some o ->
  same_start (Z.to_nat (o + 2)) s s' -> ParsePath TX s' = Fail e.
Proof. exact path_upto. Qed.
Print Assumptions C61_path.

Theorem C61_script : forall TX s s' e o, is_bytes s -> is_bytes s' -> ParseScriptExpression TX s = Fail e -> offset_of e = Some o ->
  same_start (Z.to_nat (o + 2)) s s' -> ParseScriptExpression TX s' = Fail e.
Proof. exact script_upto. Qed.
Print Assumptions C61_script.

Example C61_ex : let s := b_of "$.a[b+1].c" in let s' := b_of "$.a[b+1]..d['" in let e := EExpectedErr (TChar 93) 5 (EChar 43 5) in
  is_bytes s /\ is_bytes s' /\ ParsePath x_text s = Fail e /\ offset_of e = Some 5 /\ same_start (Z.to_nat (5 + 2)) s s'.
Proof.
  split; [apply bytesb_ok; vm_compute; reflexivity|]. split; [apply bytesb_ok; vm_compute; reflexivity|].
  split; [vm_compute; reflexivity|]. split; [reflexivity|]. split; [vm_compute; reflexivity|vm_compute; lia].
Qed.
(** the byte after the offset matters: a minus at the end of the text *)
Example C61_ex_next : ParsePath x_text (b_of "$[-") = Fail (EChar 45 1) /\ exists ss, ParsePath x_text (b_of "$[-5]") = OK ss.
Proof. split; [vm_compute; reflexivity|eexists; vm_compute; reflexivity]. Qed.
