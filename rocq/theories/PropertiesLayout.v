(** Properties of the notation of paths: white space and literals; dots, brackets and quotes (C62, C63). *)
From Verif Require Import Base Syntax SpecSyntax SpecGrammar SpecTokens SpecLayout Lexer Parser Value Machine SpecDoc SpecRun SpecSelect
  Api SpecText ParserExact LayoutProofs NotationProofs Examples.
Local Open Scope Z_scope.

(** ** C62 *)
(** Texts with the same tokens are parsed alike. *)
Theorem C62_path : forall TX s s', is_bytes s -> is_bytes s' -> same_tokens (o_parse_float TX) false InPath s s' ->
  forall p, ParsePath TX s = OK p <-> ParsePath TX s' = OK p.
Proof. exact path_tokens. Qed.
Print Assumptions C62_path.

(** The same for script expressions.  (Here a literal left unclosed after an escaped quote at the
    end of the text counts as a token, see C07_refuted.) *)
Theorem C62_script : forall TX s s', is_bytes s -> is_bytes s' -> same_tokens (o_parse_float TX) true (InExpr 0 true) s s' ->
  forall e, ParseScriptExpression TX s = OK e <-> ParseScriptExpression TX s' = OK e.
Proof. exact script_tokens. Qed.
Print Assumptions C62_script.

(** They compile to the same program. *)
Theorem C62_compile : forall TX s s' ss jp, accepted TX s ss jp -> is_bytes s' ->
  same_tokens (o_parse_float TX) false InPath s s' ->
  exists jp', accepted TX s' ss jp' /\ jp_prog jp' = jp_prog jp.
Proof. exact compile_tokens. Qed.
Print Assumptions C62_compile.

Ltac x_ptok := eapply (ptok_run x_text); [nnc|simpl; tauto|vm_compute; reflexivity|reflexivity].
Ltac x_etok := eapply (etok_run x_text); [nnc|simpl; tauto|vm_compute; reflexivity|reflexivity].
Ltac x_pt t := eapply (StPath _ _ _ _ t); [x_ptok|x_ptok|reflexivity|].
Ltac x_et t := eapply (StExpr _ _ _ _ _ _ t); [x_etok|x_etok|reflexivity|].
Ltac x_ch := apply StrChar; [vm_compute; discriminate|vm_compute; discriminate|vm_compute; discriminate|].

(** A string literal written in two ways. *)
Example C62_ex_str : forall r, ptok false (b_of "'b\/c'" ++ r) (GStr (b_of "b/c")) r /\ ptok false (b_of " ""b/c""" ++ r) (GStr (b_of "b/c")) r.
Proof.
  intro r. split.
  - refine (PTok1 false [] (b_of "'b\/c'" ++ r) _ _ (Forall_nil _) _).
    refine (TokStr _ _ 39 (b_of "b\/c") (b_of "b/c") r (or_intror eq_refl) _). x_ch.
    refine (StrEsc 39 (b_of "\/") [47] (b_of "c") (b_of "c") _ _ _).
    + exact (RunOne 39 [47] 47 (EscSlash 39)).
    + vm_compute. discriminate.
    + x_ch. constructor.
  - refine (PTok1 false (b_of " ") (b_of """b/c""" ++ r) _ _ _ _); [constructor; [left; reflexivity|constructor]|].
    refine (TokStr _ _ 34 (b_of "b/c") (b_of "b/c") r (or_introl eq_refl) _). x_ch. x_ch. x_ch. constructor.
Qed.

Example C62_ex : let s := b_of "$.a['b\/c'][?(@.d=~/x\/y/&&1)]" in
  let s' := b_of "$ .a [ ""b/c""][?( @.d =~ /x\/y/ && 001 )] " in
  is_bytes s /\ is_bytes s' /\ s <> s' /\ same_tokens (o_parse_float x_text) false InPath s s' /\
  accepted x_text s (steps_of s) (jp_of s).
Proof.
  split; [apply bytesb_ok; vm_compute; reflexivity|]. split; [apply bytesb_ok; vm_compute; reflexivity|].
  split; [vm_compute; discriminate|]. split; [|apply acceptedb_ok; vm_compute; reflexivity].
  x_pt (GPunct (b_of "$")). x_pt (GPunct (b_of ".")). x_pt (GName (b_of "a")). x_pt (GPunct (b_of "[")). 
  eapply (StPath _ _ _ _ (GStr (b_of "b/c"))); [exact (proj1 (C62_ex_str (b_of "][?(@.d=~/x\/y/&&1)]")))|exact (proj2 (C62_ex_str (b_of "][?( @.d =~ /x\/y/ && 001 )] ")))|reflexivity|].
  x_pt (GPunct (b_of "]")). x_pt (GPunct (b_of "[")). x_pt (GPunct (b_of "?(")). x_et (GPunct (b_of "@")). x_et (GPunct (b_of ".")).
  x_et (GName (b_of "d")). x_et (GPunct (b_of "=~")).
  apply (StRegexp _ _ _ _ _ (b_of "x\/y") (b_of "x\/y") (b_of "x/y") (b_of "&&1)]") (b_of " && 001 )] ")).
  - x_etok.
  - apply ReChar; [vm_compute; lia|vm_compute; lia|]. apply ReSlash. apply ReChar; [vm_compute; lia|vm_compute; lia|constructor].
  - x_etok.
  - apply ReChar; [vm_compute; lia|vm_compute; lia|]. apply ReSlash. apply ReChar; [vm_compute; lia|vm_compute; lia|constructor].
  - x_et (GPunct (b_of "&&")). x_et (GInt 1). x_et (GPunct (b_of ")")). x_pt (GPunct (b_of "]")).
    apply StEndPath; [exact (PTok1 false [] [] _ _ (Forall_nil _) (TokEnd _ _))|].
    refine (PTok1 false (b_of " ") [] _ _ _ (TokEnd _ _)). constructor; [left; reflexivity|constructor].
Qed.

(** White space between tokens has no effect. *)
Theorem C62_blanks_path : forall TX u w r m p, is_bytes (u ++ r) -> Forall space w ->
  toks (o_parse_float TX) false InPath (u ++ r) m r ->
  ParsePath TX (u ++ r) = OK p -> ParsePath TX (u ++ w ++ r) = OK p.
Proof. exact path_blanks. Qed.
Print Assumptions C62_blanks_path.

Theorem C62_blanks_script : forall TX u w r m e, is_bytes (u ++ r) -> ~ ends_in_escaped_quote (u ++ r) -> Forall space w ->
  toks (o_parse_float TX) false (InExpr 0 true) (u ++ r) m r ->
  ParseScriptExpression TX (u ++ r) = OK e -> ParseScriptExpression TX (u ++ w ++ r) = OK e.
Proof. exact script_blanks. Qed.
Print Assumptions C62_blanks_script.

Example C62_ex_blanks : let r := b_of "]" in let u' := b_of "@" in let r' := b_of ".a*2" in
  toks (o_parse_float x_text) false InPath (b_of "$[-1" ++ r) InPath r /\
  (exists p, ParsePath x_text (b_of "$[-1" ++ r) = OK p) /\
  toks (o_parse_float x_text) false (InExpr 0 true) (u' ++ r') (InExpr 0 false) r' /\
  (exists e, ParseScriptExpression x_text (u' ++ r') = OK e) /\ ~ ends_in_escaped_quote (u' ++ r').
Proof.
  split.
  { eapply TkCons; [eapply (TSPath _ _ _ (GPunct (b_of "$"))); [x_ptok|reflexivity]|].
    eapply TkCons; [eapply (TSPath _ _ _ (GPunct (b_of "["))); [x_ptok|reflexivity]|].
    eapply TkCons; [eapply (TSPath _ _ _ (GInt (-1))); [x_ptok|reflexivity]|]. constructor. }
  split; [eexists; vm_compute; reflexivity|].
  split. { eapply TkCons; [eapply (TSExpr _ _ _ _ _ (GPunct (b_of "@"))); [x_etok|reflexivity]|]. constructor. }
  split; [eexists; vm_compute; reflexivity|].
  intros (u & q & Hq & E). apply (f_equal (@rev Z)) in E. rewrite (rev_app_distr u) in E.
  vm_compute in E. destruct Hq as [-> | ->]; discriminate E.
Qed.

(** ** C63 *)
(** Paths that differ only in notation (a member name after a dot, in brackets, quoted,
    parenthesised; a non-negative index after a dot, in brackets, parenthesised; the defaults of
    slices) give the same results, in the same order, and the same errors. *)
Theorem C63_notation : forall TX s ss jp TX' s' ss' jp' W t root r,
  accepted TX s ss jp -> fits jp -> accepted TX' s' ss' jp' -> fits jp' -> orders_ok W -> doc root ->
  Forall2 same_step ss ss' -> (JP_Eval W t jp root r <-> JP_Eval W t jp' root r).
Proof. exact eval_notation. Qed.
Print Assumptions C63_notation.

Ltac x_arg := first [eapply SaName; simpl; eauto 8; fail | eapply SaIndex; [simpl; eauto 8|simpl; eauto 8|right; lia]
  | apply SaSlice; vm_compute; auto; fail].
Ltac x_step := first [apply SsSame | apply SsNotation; [unfold same_kind; simpl; tauto|simpl; repeat (apply Forall2_cons; [x_arg|]); apply Forall2_nil]].

Example C63_ex : let s := b_of "$.a..b[1:3].0.(d)[e,0]" in let s' := b_of "$['a']..[('b')][1:3:1][0][d]['e',0]" in
  accepted x_text s (steps_of s) (jp_of s) /\ fits (jp_of s) /\ accepted x_text s' (steps_of s') (jp_of s') /\ fits (jp_of s') /\
  orders_ok x_world /\ doc x_doc /\ Forall2 same_step (steps_of s) (steps_of s').
Proof.
  split; [apply acceptedb_ok; vm_compute; reflexivity|]. split; [vm_compute; reflexivity|].
  split; [apply acceptedb_ok; vm_compute; reflexivity|]. split; [vm_compute; reflexivity|].
  split; [apply x_world_ok|]. split; [apply x_doc_ok|].
  vm_compute. repeat (apply Forall2_cons; [x_step|]). apply Forall2_nil.
Qed.
(** A negative index counts from the end in brackets but not after a dot. *)
Example C63_ex_negative : let s := b_of "$.-1" in let s' := b_of "$[-1]" in let root := VArr [VInt64 5] in
  JP_Eval x_world 0 (jp_of s) root (OK []) /\ JP_Eval x_world 0 (jp_of s') root (OK [VInt64 5]).
Proof. split; (split; [discriminate|]); exists 100%nat; vm_compute; reflexivity. Qed.
