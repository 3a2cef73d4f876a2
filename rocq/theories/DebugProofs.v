(** What %#v prints of a lexeme determines the lexeme. *)
From Verif Require Import SpecGrammar SpecErrors SpecMessages SpecDescribe SpecDebug Messages Debug LexProofs LexProofs2 LexReason MessageProofs CoderProofs.
Local Open Scope Z_scope.

(** ** The errors of the analysers *)
Definition lexical (e : perr) : Prop :=
  match e with
  | EUnclosedString | EBadEscape | EShortEscape | EIntOverflow | EBadReal | ECtrlChar | EUnclosedRE
  | EParseInt _ | EParseFloat _ | ECharAfter _ _ _ | EChar _ _ | EFuel => True
  | _ => False
  end.
Definition lexical_lx (lx : lexeme) : Prop := match lx_err lx with Some e => lexical e | None => True end.

Lemma hex_lexical : forall i acc r e r', hex_loop i acc r = (inr e, r') -> lexical e.
Proof.
  induction i as [|i IH]; intros acc r e r' H; cbn [hex_loop] in H; [discriminate H|].
  destruct (rd_get r) as [c r1]. destruct (c =? eof); [injection H as <- _; exact I|].
  destruct (negb (isHexDigit c)); [injection H as <- _; exact I|]. eapply IH, H.
Qed.

Lemma escaped_lexical : forall q r e r', escaped q r = (inr e, r') -> lexical e.
Proof.
  intros q r e r' H. unfold escaped in H. destruct (rd_get r) as [c r1].
  repeat match type of H with
  | (if ?b then _ else _) = _ => destruct b; try discriminate; try (injection H as <- _; exact I)
  end.
  destruct (hex_loop 4 [] r1) as [[ds|er] r2] eqn:E; [discriminate H|]. injection H as <- _. eapply hex_lexical, E.
Qed.

Lemma esc_lexical : forall n q surr acc r e r', esc_loop n q surr acc r = (inr e, r') -> lexical e.
Proof.
  induction n as [|n IH]; intros q surr acc r e r' H; cbn [esc_loop] in H; [injection H as <- _; exact I|].
  destruct (escaped q r) as [[rv|er] r1] eqn:E; [|injection H as <- _; eapply escaped_lexical, E].
  repeat match type of H with
  | (if ?b then _ else _) = _ => destruct b
  | (let (_, _) := ?p in _) = _ => destruct p
  end; try discriminate H; eapply IH, H.
Qed.

Lemma string_lexical : forall n q acc r e r', lexString_loop n q acc r = (inr e, r') -> lexical e.
Proof.
  induction n as [|n IH]; intros q acc r e r' H; cbn [lexString_loop] in H; [injection H as <- _; exact I|].
  destruct (rd_get r) as [c r1].
  destruct (c =? eof); [injection H as <- _; exact I|]. destruct (c =? q); [discriminate H|].
  destruct (c =? 92).
  - destruct (esc_loop _ _ _ _ _) as [[a|er] r2] eqn:E; [eapply IH, H|injection H as <- _; eapply esc_lexical, E].
  - destruct (c <? 32); [injection H as <- _; exact I|]. eapply IH, H.
Qed.

Lemma string_tok_lexical : forall c r, lexical_lx (fst (lex_string_tok c r)).
Proof.
  intros c r. unfold lex_string_tok, lexString. destruct (lexString_loop _ _ _ _) as [[s|e] r'] eqn:E; [exact I|].
  eapply string_lexical, E.
Qed.

Lemma number_lexical : forall TX real r, lexical_lx (fst (lexNumber TX real r)).
Proof.
  intros TX real r. unfold lexNumber.
  repeat (match goal with
  | |- lexical_lx (fst (if ?b then _ else _)) => destruct b
  | |- lexical_lx (fst (let (_, _) := ?p in _)) => destruct p
  | |- lexical_lx (fst (match ?p with Some _ => _ | None => _ end)) => destruct p
  end; cbv zeta); exact I.
Qed.

Lemma next_lexical : forall c t f r, lexical_lx (fst (isNext c t f r)).
Proof.
  intros c t f r. unfold isNext. destruct (rd_look r =? c); [destruct (rd_get r); exact I|]. destruct f; exact I.
Qed.

Lemma id_lexical : forall p r, lexical_lx (fst (lexID p r)).
Proof. intros p r. unfold lexID. destruct (rd_span p (rd_unget r)). exact I. Qed.

Lemma path_lexical : forall TX r, lexical_lx (fst (lexPath_rd TX r)).
Proof.
  intros TX r. unfold lexPath_rd. destruct (rd_get (ws r)) as [c r1].
  repeat match goal with |- lexical_lx (fst (if ?b then _ else _)) => destruct b end; try exact I;
    try apply next_lexical; try apply string_tok_lexical; try apply number_lexical; try apply id_lexical.
  cbv zeta. destruct (rd_get (ws r1)) as [d r2]. destruct (negb (isDigit d)); [exact I|].
  pose proof (number_lexical TX false r2) as H. destruct (lexNumber TX false r2) as [fol r3].
  destruct (lx_tok fol); try exact I. destruct (lx_val fol); try exact I. destruct (z =? max_int64); [exact I|]. exact H.
Qed.

Lemma expr_lexical : forall TX r, lexical_lx (fst (lexExpr_rd TX r)).
Proof.
  intros TX r. unfold lexExpr_rd. destruct (rd_get (ws r)) as [c r1].
  repeat match goal with |- lexical_lx (fst (if ?b then _ else _)) => destruct b end; try exact I;
    try apply next_lexical; try apply string_tok_lexical; try apply number_lexical; try apply id_lexical.
  pose proof (next_lexical 61 TEQ (TChar 61) r1) as H. destruct (isNext 61 TEQ (TChar 61) r1) as [lx r2].
  destruct (negb _); [exact H|apply next_lexical].
Qed.

Lemma regexp_form : forall ec v acc b, exists p,
  fst (lexRegexp_loop ec acc b v) = mkLex TRE (LStr p) None \/ fst (lexRegexp_loop ec acc b v) = mkLex TRE (LStr p) (Some EUnclosedRE).
Proof.
  intros ec v. remember (length v) as n eqn:En. assert (Hn : (length v <= n)%nat) by lia. clear En. revert v Hn.
  induction n as [|n IH]; intros v Hn acc b.
  - destruct v; [|cbn in Hn; lia]. cbn. eauto.
  - destruct v as [|c v]; [cbn; eauto|]. cbn [length] in Hn. cbn [lexRegexp_loop].
    destruct (c =? ec); [cbn; eauto|]. destruct v as [|d v]; [apply IH; cbn; lia|]. cbn [length] in Hn.
    destruct ((c =? 92) && (d =? ec)); apply IH; cbn [length]; lia.
Qed.

(** ** The lexemes that are read *)
Section read.
Variable TX : textoracles.

Definition told (lx : lexeme) : Prop :=
  match lx_err lx with
  | Some e => lexical e /\ sayable TX e /\ (lx = lex_err e \/ e = EUnclosedRE)
  | None => tok_ok (lx_tok lx) /\
    ((exists p, lx = mkLex TRE (LStr p) None) \/ val_ok TX (lx_tok lx) (lx_val lx))
  end.

Lemma good_told : forall s k lx, is_bytes s -> lexical_lx lx -> lexok TX s k lx -> (forall e, lx_err lx = Some e -> lx = lex_err e) -> told lx.
Proof.
  intros s k lx Hs Hl H Hv. unfold told, lexical_lx, lexok in *. destruct (lx_err lx) as [e|].
  - destruct H as (H & _). split; [exact Hl|]. split; [eapply reason_sayable; eassumption|]. left. apply Hv. reflexivity.
  - split; [|right; eapply ends_val, H]. destruct H as (a & w & b & E & Hw & _ & Hk). eapply ends_ok; [exact Hs|]. exists a, w, b. eauto.
Qed.

Definition plain_err (lx : lexeme) : Prop := forall e, lx_err lx = Some e -> lx = lex_err e.

Lemma plain_lex_err : forall e, plain_err (lex_err e).
Proof. intros e e' H. injection H as <-. reflexivity. Qed.
Lemma plain_none : forall t v, plain_err (mkLex t v None).
Proof. intros t v e H. discriminate H. Qed.
Hint Resolve plain_lex_err plain_none : core.

Lemma string_plain : forall c r, plain_err (fst (lex_string_tok c r)).
Proof. intros c r. unfold lex_string_tok. destruct (lexString c r) as [[s|e] r']; cbn; auto. Qed.

Lemma number_plain : forall real r, plain_err (fst (lexNumber TX real r)).
Proof.
  intros real r. unfold lexNumber.
  repeat (match goal with
  | |- plain_err (fst (if ?b then _ else _)) => destruct b
  | |- plain_err (fst (let (_, _) := ?p in _)) => destruct p
  | |- plain_err (fst (match ?p with Some _ => _ | None => _ end)) => destruct p
  end; cbv zeta); cbn; auto.
Qed.

Lemma next_plain : forall c t f r, plain_err (fst (isNext c t f r)).
Proof.
  intros c t f r. unfold isNext, lex_tok. destruct (rd_look r =? c); [destruct (rd_get r); cbn; auto|]. destruct f; cbn; auto.
Qed.

Lemma path_plain : forall r, plain_err (fst (lexPath_rd TX r)).
Proof.
  intros r. unfold lexPath_rd, tokenErr, lexID, lex_tok. destruct (rd_get (ws r)) as [c r1].
  repeat match goal with |- plain_err (fst (if ?b then _ else _)) => destruct b end; try (cbn; auto; fail);
    try apply next_plain; try apply string_plain; try apply number_plain.
  - cbv zeta. destruct (rd_get (ws r1)) as [d r2]. destruct (negb (isDigit d)); [cbn; auto|].
    pose proof (number_plain false r2) as H. destruct (lexNumber TX false r2) as [fol r3]. cbn [fst] in H.
    destruct fol as [t v er]. cbn [lx_tok lx_val lx_err].
    destruct t; try (cbn; auto; fail). destruct v; try (cbn; auto; fail). destruct (z =? max_int64); [cbn; auto|].
    destruct er as [e|]; [|cbn; auto]. specialize (H e eq_refl). discriminate H.
  - destruct (rd_span isAlphanumericDash (rd_unget r1)). cbn; auto.
Qed.

Lemma expr_plain : forall r, plain_err (fst (lexExpr_rd TX r)).
Proof.
  intros r. unfold lexExpr_rd, tokenErr, lexID, lex_tok. destruct (rd_get (ws r)) as [c r1].
  repeat match goal with |- plain_err (fst (if ?b then _ else _)) => destruct b end; try (cbn; auto; fail);
    try apply next_plain; try apply string_plain; try apply number_plain.
  - pose proof (next_plain 61 TEQ (TChar 61) r1) as H. destruct (isNext 61 TEQ (TChar 61) r1) as [lx r2].
    destruct (negb _); [exact H|apply next_plain].
  - destruct (rd_span isAlphanumeric (rd_unget r1)). cbn; auto.
Qed.

Lemma bytes_nonneg : forall s, is_bytes s -> nonneg s.
Proof. intros s H. eapply Forall_impl; [|exact H]. cbn. intros. lia. Qed.

Lemma read_told : forall s lx, is_bytes s -> read TX s lx -> told lx.
Proof.
  intros s lx Hs H. destruct H as [u v E|u v E|u v ec p E].
  - unfold lexPath. cbn [l_peek l_rd].
    pose proof (lexPath_good TX (mkRd u v)) as K. rewrite text_mk, <- E in K. specialize (K (bytes_nonneg _ Hs)).
    pose proof (path_lexical TX (mkRd u v)) as L. pose proof (path_plain (mkRd u v)) as P.
    destruct (lexPath_rd TX (mkRd u v)) as [lx r]. cbn [fst] in *. destruct K as (_ & _ & K). cbn [fst snd] in K.
    rewrite text_mk, <- E in K. eapply good_told; eassumption.
  - unfold lexExpr. cbn [l_peek l_rd].
    pose proof (lexExpr_good TX (mkRd u v)) as K. rewrite text_mk, <- E in K. specialize (K (bytes_nonneg _ Hs)).
    pose proof (expr_lexical TX (mkRd u v)) as L. pose proof (expr_plain (mkRd u v)) as P.
    destruct (lexExpr_rd TX (mkRd u v)) as [lx r]. cbn [fst] in *. destruct K as (_ & _ & K). cbn [fst snd] in K.
    rewrite text_mk, <- E in K. eapply good_told; eassumption.
  - unfold lexRegexp. cbn [l_peek l_rd rd_before rd_after].
    destruct (regexp_form ec v [] u) as (q & K). destruct (lexRegexp_loop ec [] u v) as [lx r]. cbn [fst] in *.
    destruct K as [-> | ->]; unfold told; cbn; eauto.
Qed.
End read.

(** ** Their texts *)
Lemma gotok_apart : forall t u, In t tokens -> In u tokens ->
  tok_eqb t u || (negb (beqb (token_GoString t) (token_GoString u)) &&
    (negb (hasVal t) || negb (prefb (token_GoString t ++ lp) (token_GoString u)) &&
      (negb (hasVal u) || apart (token_GoString t ++ lp) (token_GoString u ++ lp)))) = true.
Proof. apply all2. vm_compute. reflexivity. Qed.

Lemma gotok_bang : forall t, In t tokens -> match token_GoString t with c :: _ :: _ => negb (c =? 33) | _ => true end = true.
Proof. intros t H. revert t H. apply forallb_forall. vm_compute. reflexivity. Qed.

Lemma gotok_long : forall t, hasVal t = true -> exists c d x, token_GoString t = c :: d :: x /\ c <> 33.
Proof. intros t H. destruct t; try discriminate H; cbn; do 3 eexists; (split; [reflexivity|discriminate]). Qed.

Section text.
Variable F : printers.
Variable G : messages.
Variable sharp : f64 -> bytes.
Variable TX : textoracles.
Hypothesis floats : sharp_floats TX sharp.
Hypothesis plain : plain_texts F G TX.
Hypothesis quotes : quoting F.

Notation gs := (lexeme_GoString F G sharp).

Lemma lexical_text : forall e, lexical e -> sayable TX e -> exists c x, perr_Error F G e = c :: x.
Proof.
  intros e H K. destruct e; try (exfalso; exact H); try (exfalso; exact K); cbn; eauto.
Qed.

Lemma lexical_same : forall e e', lexical e -> same_cause e e' -> e = e'.
Proof. intros e e' H K. destruct K; [reflexivity|destruct H|destruct H]. Qed.

Lemma error_bang : forall lx, told TX lx -> ((exists c x, gs lx = 33 :: c :: x) <-> lx_err lx <> None).
Proof.
  intros lx H. unfold told in H. unfold lexeme_GoString. destruct (lx_err lx) as [e|].
  - destruct H as (H & K & _). destruct (lexical_text e H K) as (c & x & ->). split; [discriminate|]. cbn. eauto.
  - split; [|congruence]. intros (c & x & E). exfalso. destruct H as (H & _).
    destruct (hasVal (lx_tok lx)) eqn:Eh.
    + destruct (gotok_long _ Eh) as (a & b & y & Ey & Hn). rewrite Ey in E. injection E as E _. congruence.
    + pose proof (gotok_bang _ (in_tokens _ H)) as K. rewrite E in K. discriminate K.
Qed.

Lemma val_same : forall t v w, hasVal t = true ->
  (exists p, mkLex t v None = mkLex TRE (LStr p) None) \/ val_ok TX t v ->
  (exists p, mkLex t w None = mkLex TRE (LStr p) None) \/ val_ok TX t w ->
  lexval_GoString F sharp v ++ b_of ")" = lexval_GoString F sharp w ++ b_of ")" -> v = w.
Proof.
  intros t v w Ht Hv Hw H.
  assert (Q : forall a b, v = LStr a -> w = LStr b -> v = w).
  { intros a b -> ->. cbn [lexval_GoString] in H. apply quotes in H as [-> _]. reflexivity. }
  destruct t; try discriminate Ht.
  - destruct Hv as [(p & Hv)|(a & Hv)]; [discriminate Hv|]. destruct Hw as [(q & Hw)|(b & Hw)]; [discriminate Hw|]. eauto.
  - destruct Hv as [(p & Hv)|(a & Hv)]; [discriminate Hv|]. destruct Hw as [(q & Hw)|(b & Hw)]; [discriminate Hw|]. eauto.
  - destruct Hv as [(p & Hv)|(a & ->)]; [discriminate Hv|]. destruct Hw as [(q & Hw)|(b & ->)]; [discriminate Hw|].
    cbn [lexval_GoString] in H. apply app_inv_tail in H. apply sprint_int_inj in H as ->. reflexivity.
  - destruct Hv as [(p & Hv)|(a & f & Hf & ->)]; [discriminate Hv|]. destruct Hw as [(q & Hw)|(b & g & Hg & ->)]; [discriminate Hw|].
    cbn [lexval_GoString] in H. apply app_inv_tail in H. f_equal. eapply floats; eassumption.
  - destruct Hv as [(p & Hv)|[]]; destruct Hw as [(q & Hw)|[]]. injection Hv as Hv. injection Hw as Hw. eauto.
Qed.

Lemma told_same : forall lx lx', told TX lx -> told TX lx' -> gs lx = gs lx' -> same_lexeme lx lx'.
Proof.
  intros lx lx' H H' E.
  pose proof (error_bang lx H) as B. pose proof (error_bang lx' H') as B'.
  destruct (lx_err lx) as [e|] eqn:Ee, (lx_err lx') as [e'|] eqn:Ee'.
  - right. exists e. split; [exact Ee|]. rewrite Ee'. f_equal. symmetry.
    unfold told in H, H'. rewrite Ee in H. rewrite Ee' in H'. destruct H as (L & S & _), H' as (L' & S' & _).
    apply lexical_same; [exact L|]. unfold lexeme_GoString in E. rewrite Ee, Ee' in E. apply app_inv_head in E.
    destruct plain as [P1 P2]. eapply texts_apart; eassumption.
  - exfalso. destruct B as [_ B]. destruct B as (c & x & B); [discriminate|]. rewrite E in B. apply (proj1 B'); eauto.
  - exfalso. destruct B' as [_ B']. destruct B' as (c & x & B'); [discriminate|]. rewrite <- E in B'. apply (proj1 B); eauto.
  - left. clear B B'. unfold told in H, H'. rewrite Ee in H. rewrite Ee' in H'.
    unfold lexeme_GoString in E. rewrite Ee, Ee' in E.
    destruct lx as [t v er], lx' as [u w er']. cbn [lx_tok lx_val lx_err] in *. subst er er'.
    destruct H as (Ht & Hv), H' as (Hu & Hw).
    pose proof (gotok_apart t u (in_tokens t Ht) (in_tokens u Hu)) as K1.
    pose proof (gotok_apart u t (in_tokens u Hu) (in_tokens t Ht)) as K2.
    destruct (tok_eqb t u) eqn:Eq.
    + apply tok_eqb_eq in Eq as <-. f_equal. destruct (hasVal t) eqn:Eh.
      * apply app_inv_head, app_inv_head in E. eapply val_same; eassumption.
      * destruct t; try discriminate Eh; (destruct Hv as [(p & Hv)|Hv]; [discriminate Hv|]); (destruct Hw as [(q & Hw)|Hw]; [discriminate Hw|]);
          cbn in Hv, Hw; congruence.
    + exfalso. assert (Eq' : tok_eqb u t = false).
      { destruct (tok_eqb u t) eqn:X; [|reflexivity]. apply tok_eqb_eq in X as ->. destruct t; cbn in Eq; try discriminate Eq. rewrite Z.eqb_refl in Eq. discriminate Eq. }
      rewrite Eq' in K2. cbn [orb] in K1, K2. apply andb_prop in K1 as [K1 L1]. apply andb_prop in K2 as [K2 L2].
      destruct (hasVal t) eqn:Et, (hasVal u) eqn:Eu; cbn [negb orb] in L1, L2.
      * apply andb_prop in L1 as [_ L1]. eapply apart_ne; [exact L1|]. rewrite <- !app_assoc. exact E.
      * apply andb_prop in L1 as [L1 _]. rewrite <- E, app_assoc, prefb_app in L1. discriminate L1.
      * apply andb_prop in L2 as [L2 _]. rewrite E, app_assoc, prefb_app in L2. discriminate L2.
      * rewrite E in K1. assert (beqb (token_GoString u) (token_GoString u) = true) as X by apply beqb_refl.
        rewrite X in K1. discriminate K1.
Qed.
End text.

Lemma read_same : forall F G sharp TX s s' lx lx', plain_texts F G TX -> sharp_floats TX sharp -> quoting F ->
  is_bytes s -> is_bytes s' -> read TX s lx -> read TX s' lx' ->
  lexeme_GoString F G sharp lx = lexeme_GoString F G sharp lx' -> same_lexeme lx lx'.
Proof.
  intros F G sharp TX s s' lx lx' P S Q Hs Hs' H H' E. exact (told_same F G sharp TX S P Q lx lx' (read_told TX s lx Hs H) (read_told TX s' lx' Hs' H') E).
Qed.

Lemma read_error : forall F G sharp TX s lx, is_bytes s -> read TX s lx ->
  ((exists c x, lexeme_GoString F G sharp lx = 33 :: c :: x) <-> lx_err lx <> None).
Proof. intros F G sharp TX s lx Hs H. exact (error_bang F G sharp TX lx (read_told TX s lx Hs H)). Qed.
