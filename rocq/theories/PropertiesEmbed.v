(** Theorems about script expressions alone and in paths (C84). *)
From Verif Require Import Base Syntax SpecGrammar SpecSyntax SpecEmbed Parser EmbedProofs Examples.
Local Open Scope Z_scope.

(** ** C84 *)
(** A script expression is parsed alone as it is in $[?( )], $[( )] and $.( ). *)
Theorem C84_alone : forall TX s e u st, is_bytes s -> framed s e u st ->
  ParsePath TX u = OK [st] -> ParseScriptExpression TX s = OK e.
Proof. exact embed_from. Qed.
Print Assumptions C84_alone.

(** The other way it holds unless the text ends in an escaped quote; *)
Theorem C84_in_path_partial : forall TX s e u st, is_bytes s -> ~ ends_in_escaped_quote s -> framed s e u st ->
  ParseScriptExpression TX s = OK e -> ParsePath TX u = OK [st].
Proof. exact embed_to. Qed.
Print Assumptions C84_in_path_partial.

(** such a text can be accepted alone, and in no path. *)
Theorem C84_refuted : exists s e, is_bytes s /\ forall TX, ParseScriptExpression TX s = OK e /\
  forall u st, framed s e u st -> exists err, ParsePath TX u = Fail err.
Proof. exact embed_refuted. Qed.
Print Assumptions C84_refuted.

Example C84_ex : let s := b_of " @.a > f(1) && 'x)]' " in
  let e := EInner OpAnd [EInner OpGT [EInner OpDot [ECurrent; EName (b_of "a")]; EInner OpCall [EName (b_of "f"); EInt 1]]; EStr (b_of "x)]")] in
  is_bytes s /\ ~ ends_in_escaped_quote s /\ ParseScriptExpression x_text s = OK e /\
  framed s e (b_of "$[?( @.a > f(1) && 'x)]' )]") (mkStep OpFilter [PExpr e]) /\
  ParsePath x_text (b_of "$[?( @.a > f(1) && 'x)]' )]") = OK [mkStep OpFilter [PExpr e]] /\
  framed s e (b_of "$.( @.a > f(1) && 'x)]' )") (mkStep OpMember [PExpr e]) /\
  ParsePath x_text (b_of "$.( @.a > f(1) && 'x)]' )") = OK [mkStep OpMember [PExpr e]] /\
  (* a text that is not an expression may still make a path of more steps *)
  (exists err, ParseScriptExpression x_text (b_of "1)][?(2") = Fail err) /\
  ParsePath x_text (b_of "$[?(1)][?(2)]") = OK [mkStep OpFilter [PExpr (EInt 1)]; mkStep OpFilter [PExpr (EInt 2)]].
Proof.
  cbn zeta. split; [apply bytesb_ok; vm_compute; reflexivity|]. split.
  { intros (u & q & Hq & E). change (b_of " @.a > f(1) && 'x)]' ") with (b_of " @.a > f(1) && 'x)]'" ++ [32]) in E.
    change [92; q] with ([92] ++ [q]) in E. rewrite app_assoc in E. apply app_inj_tail in E as [_ <-]. destruct Hq; discriminate. }
  split; [vm_compute; reflexivity|]. split; [apply FrFilter|]. split; [vm_compute; reflexivity|]. split; [apply FrMember|].
  split; [vm_compute; reflexivity|]. split; [eexists; vm_compute; reflexivity|vm_compute; reflexivity].
Qed.
