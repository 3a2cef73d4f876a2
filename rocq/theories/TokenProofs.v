(** Texts that cannot be divided into tokens are rejected; values of literals. *)
From Verif Require Import Base Syntax SpecGrammar SpecSyntax SpecTokens Lexer Parser LexProofs LexProofs2 LexProofs3
  LexProofs4 ParserProofs ParserSound ParserComplete ParserPath GrammarProofs.
Local Open Scope Z_scope.

(** ** Tokens are determined by the text *)
Lemma puncts_inj : forall ps, ps = expr_puncts \/ ps = path_puncts -> forall p p', In p ps -> In p' ps ->
  tok_of p = tok_of p' -> p = p'.
Proof.
  intros ps Hps p p' H H' E.
  destruct Hps as [-> | ->]; simpl in H, H';
  repeat (destruct H as [<-|H]; [repeat (destruct H' as [<-|H']; [first [reflexivity|discriminate E]|]); destruct H'|]);
  destruct H.
Qed.

Lemma ptok_punct_in' : forall lax s p r, ptok lax s (GPunct p) r -> In p path_puncts.
Proof.
  intros lax s p r H. inversion H; subst.
  match goal with K : tok1 _ _ _ _ _ |- _ => inversion K; subst end.
  match goal with K : longest _ _ _ |- _ => destruct K; assumption end.
Qed.

Section det.
Variable TX : textoracles.
Variable lax : bool.
Notation tf := (o_parse_float TX).

Lemma no_eof_punct : forall p, In p expr_puncts \/ In p path_puncts -> tok_of p <> TEOF.
Proof.
  intros p H E. destruct H as [H|H]; simpl in H;
    repeat (destruct H as [<-|H]; [discriminate E|]); destruct H.
Qed.

Lemma lexeme_inj : forall ps, ps = expr_puncts \/ ps = path_puncts -> forall t t',
  (forall p, t = GPunct p -> In p ps) -> (forall p, t' = GPunct p -> In p ps) ->
  lexeme_of t = lexeme_of t' -> t = t'.
Proof.
  intros ps Hps t t' H H' E.
  destruct t, t'; simpl in E; try discriminate E; try congruence.
  - injection E as E. f_equal. eapply puncts_inj; eauto.
  - exfalso. injection E as E. apply (no_eof_punct p); auto.
    destruct Hps as [-> | ->]; [left|right]; apply H; reflexivity.
  - exfalso. injection E as E. apply (no_eof_punct p); auto.
    destruct Hps as [-> | ->]; [left|right]; apply H'; reflexivity.
Qed.

Lemma etok_det : forall s t r t' r', etok tf lax s t r -> etok tf lax s t' r' -> t = t' /\ r = r'.
Proof.
  intros s t r t' r' H H'.
  apply (etok_keep tf lax true) in H; [|left; left; reflexivity].
  apply (etok_keep tf lax true) in H'; [|left; left; reflexivity].
  destruct (lexExpr_rd_app TX _ _ _ H (mkRd [] s) eq_refl) as (r1 & E1 & R1).
  destruct (lexExpr_rd_app TX _ _ _ H' (mkRd [] s) eq_refl) as (r2 & E2 & R2).
  rewrite E1 in E2. injection E2 as E2 ->. split; [|congruence].
  eapply lexeme_inj; [left; reflexivity| | |exact E2].
  - intros p ->. eapply etok_punct_in; eauto.
  - intros p ->. eapply etok_punct_in; eauto.
Qed.
Lemma ptok_det : forall s t r t' r', ptok lax s t r -> ptok lax s t' r' -> t = t' /\ r = r'.
Proof.
  intros s t r t' r' H H'.
  apply (ptok_keep lax true) in H; [|left; left; reflexivity].
  apply (ptok_keep lax true) in H'; [|left; left; reflexivity].
  destruct (lexPath_rd_app TX _ _ _ H (mkRd [] s) eq_refl) as (r1 & E1 & R1).
  destruct (lexPath_rd_app TX _ _ _ H' (mkRd [] s) eq_refl) as (r2 & E2 & R2).
  rewrite E1 in E2. injection E2 as E2 ->. split; [|congruence].
  eapply lexeme_inj; [right; reflexivity| | |exact E2].
  - intros p ->. eapply ptok_punct_in'; eauto.
  - intros p ->. eapply ptok_punct_in'; eauto.
Qed.
Lemma re_det : forall t v r t' v' r', re_body t v -> re_body t' v' -> t ++ 47 :: r = t' ++ 47 :: r' -> r = r'.
Proof.
  intros t v r t' v' r' H H' E.
  destruct (lexRegexp_loop_app _ _ H [] [] r) as [b1 E1].
  destruct (lexRegexp_loop_app _ _ H' [] [] r') as [b2 E2].
  rewrite E, E2 in E1. injection E1 as _ _ E1. congruence.
Qed.

Notation tst := (tstep tf lax).
Notation tks := (toks tf lax).

Lemma slash_next : forall d, expr_next d true (GPunct (b_of "/")) = None.
Proof. reflexivity. Qed.

Lemma tstep_det : forall m s m1 r1 m2 r2, tst m s m1 r1 -> tst m s m2 r2 -> m1 = m2 /\ r1 = r2.
Proof.
  intros m s m1 r1 m2 r2 H H'. inversion H; subst; inversion H'; subst.
  - match goal with K : ptok _ s _ _, K' : ptok _ s _ _ |- _ => destruct (ptok_det _ _ _ _ _ K K') as [-> ->] end.
    split; congruence.
  - match goal with K : etok _ _ s _ _, K' : etok _ _ s _ _ |- _ => destruct (etok_det _ _ _ _ _ K K') as [-> ->] end.
    split; congruence.
  - unfold punct in *.
    match goal with K : etok _ _ s _ _, K' : etok _ _ s _ _ |- _ => destruct (etok_det _ _ _ _ _ K K') as [-> _] end.
    rewrite slash_next in *. discriminate.
  - unfold punct in *.
    match goal with K : etok _ _ s _ _, K' : etok _ _ s _ _ |- _ => destruct (etok_det _ _ _ _ _ K K') as [<- _] end.
    rewrite slash_next in *. discriminate.
  - unfold punct in *. split; [reflexivity|].
    match goal with K : etok _ _ s _ _, K' : etok _ _ s _ _ |- _ => destruct (etok_det _ _ _ _ _ K K') as [_ E] end.
    match goal with K1 : re_body ?t ?v, K2 : re_body ?t' ?v', E : ?t ++ _ = ?t' ++ _ |- _ =>
      pose proof (re_det _ _ _ _ _ _ K1 K2 E) end. congruence.
Qed.

Lemma toks_one : forall m s m1 r, tst m s m1 r -> tks m s m1 r.
Proof. intros. econstructor; [eassumption|constructor]. Qed.
Lemma toks_app : forall m s m1 s1 m2 r, tks m s m1 s1 -> tks m1 s1 m2 r -> tks m s m2 r.
Proof. intros m s m1 s1 m2 r H H'. induction H; auto. econstructor; eauto. Qed.

(** two runs from one place: one is the beginning of the other *)
Lemma toks_cmp : forall m s m1 r1 m2 r2, tks m s m1 r1 -> tks m s m2 r2 ->
  tks m1 r1 m2 r2 \/ tks m2 r2 m1 r1.
Proof.
  intros m s m1 r1 m2 r2 H. revert m2 r2. induction H as [m s|m s ma sa mb r Hs Ht IH]; intros m2 r2 H'.
  - left. assumption.
  - inversion H' as [|? ? mc sc ? ? Hs' Ht']; subst.
    + right. econstructor; eauto.
    + destruct (tstep_det _ _ _ _ _ _ Hs Hs') as [-> ->]. auto.
Qed.

(** ** Derivations are divisions into tokens *)
Variable re : bytes -> bool.
Ltac one := apply toks_one; eapply TSExpr; [eassumption|reflexivity].

Lemma bin_toks : forall s o k r d, binary_op tf lax s o k r -> tks (InExpr d false) s (InExpr d true) r.
Proof.
  intros s o k r d [s0 p0 o0 k0 r0 Hin H|? ? H|? ? H]; apply toks_one; eapply TSExpr; eauto.
  simpl in Hin. repeat (destruct Hin as [Hin|Hin]; [injection Hin as <- <- <-; reflexivity|]). destruct Hin.
Qed.

Lemma g_toks : (forall k s e r, g_expr tf re lax k s e r -> forall d, tks (InExpr d true) s (InExpr d false) r) /\
  (forall s e r, g_unary tf re lax s e r -> forall d, tks (InExpr d true) s (InExpr d false) r) /\
  (forall s e r, g_postfix tf re lax s e r -> forall d, tks (InExpr d true) s (InExpr d false) r) /\
  (forall s e r, g_atom tf re lax s e r -> forall d, tks (InExpr d true) s (InExpr d false) r) /\
  (forall c s l r, g_list tf re lax c s l r -> c = ")"%string \/ c = "]"%string ->
     forall d, tks (InExpr (S d) true) s (InExpr d false) r) /\
  (forall s l r, g_items tf re lax s l r -> forall d, tks (InExpr d true) s (InExpr d false) r).
Proof.
  apply g_expr_mutind; unfold punct; auto.
  - intros k s a m o m' b r _ IHa Hb _ IHb d. eapply toks_app; [apply IHa|]. eapply toks_app; [eapply bin_toks; eauto|]. auto.
  - intros s m e r H _ IH d. eapply toks_app; [one|auto].
  - intros s m e r H _ IH d. eapply toks_app; [one|auto].
  - intros s f m m' l r _ IH H _ IHl d. eapply toks_app; [apply IH|]. eapply toks_app; [one|]. apply IHl. auto.
  - intros s a m m' e m'' r _ IHa H _ IHe H' d. eapply toks_app; [apply IHa|]. eapply toks_app; [one|].
    eapply toks_app; [apply IHe|]. one.
  - intros s a m m' n r _ IHa H H' d. eapply toks_app; [apply IHa|]. eapply toks_app; [one|]. one.
  - intros s m t v r H -> Hb _ d. apply toks_one. eapply TSRegexp; eauto.
  - intros s r H d. one.
  - intros s r H d. one.
  - intros s m e m' r H _ IH H' d. eapply toks_app; [one|]. eapply toks_app; [apply IH|]. one.
  - intros s m l r H _ IH d. eapply toks_app; [one|]. apply IH. auto.
  - intros s n r H d. one.
  - intros s n r H d. one.
  - intros s n r H d. one.
  - intros s n r H d. one.
  - intros c s r H Hc d. destruct Hc as [-> | ->]; one.
  - intros c s l m r _ IH H Hc d. eapply toks_app; [apply IH|]. destruct Hc as [-> | ->]; one.
  - intros s e m m' l r _ IH H _ IHl d. eapply toks_app; [apply IH|]. eapply toks_app; [one|]. apply IHl.
Qed.

Ltac pone := apply toks_one; eapply TSPath; [eassumption|reflexivity].

Lemma expr_toks : forall s e r, g_expr tf re lax 0 s e r -> tks (InExpr 0 true) s (InExpr 0 false) r.
Proof. intros s e r H. apply (proj1 g_toks _ _ _ _ H). Qed.
Lemma close_toks : forall s r, ppunct lax s ")" r -> tks (InExpr 0 false) s InPath r.
Proof.
  intros s r H. apply toks_one. eapply TSExpr; [apply close_both; exact H|reflexivity].
Qed.
Lemma paren_toks : forall s e r, g_paren tf re lax s e r -> tks InPath s InPath r.
Proof.
  intros s e r [? m e' m' r' H1 H2 H3]. eapply toks_app; [pone|].
  eapply toks_app; [eapply expr_toks; eauto|]. apply close_toks. assumption.
Qed.
Lemma obound_toks : forall s b r, g_obound tf re lax s b r -> tks InPath s InPath r.
Proof. intros s b r [|? ? ? [? ? ? H|? ? ? H]]; [constructor|pone|eapply paren_toks; eauto]. Qed.
Lemma slice_toks : forall s b r, g_slice tf re lax s b r -> tks InPath s InPath r.
Proof.
  intros s b r [? a m m' b' r' H1 H2 H3|? a m m' b' n n' c r' H1 H2 H3 H4 H5].
  - eapply toks_app; [eapply obound_toks; eauto|]. eapply toks_app; [pone|]. eapply obound_toks; eauto.
  - eapply toks_app; [eapply obound_toks; eauto|]. eapply toks_app; [pone|].
    eapply toks_app; [eapply obound_toks; eauto|]. eapply toks_app; [pone|]. eapply obound_toks; eauto.
Qed.
Lemma elem_toks : forall s b r, g_elem tf re lax s b r -> tks InPath s InPath r.
Proof. intros s b r [? ? ? H|? ? ? H|? ? ? H|? ? ? H]; try pone. eapply slice_toks; eauto. Qed.
Lemma elems_toks : forall s b r, g_elems tf re lax s b r -> tks InPath s InPath r.
Proof.
  intros s b r H. induction H as [? ? ? K|? ? ? ? ? ? K K2 _ IH]; [eapply elem_toks; eauto|].
  eapply toks_app; [eapply elem_toks; eauto|]. eapply toks_app; [pone|assumption].
Qed.
Lemma sub_toks : forall s b r, g_subscript tf re lax s b r -> tks InPath s InPath r.
Proof.
  intros s b r [? ? H|? ? ? ? ? H1 H2 H3|? ? ? H|? ? ? H|? ? ? H H'].
  - pone.
  - eapply toks_app; [pone|]. eapply toks_app; [eapply expr_toks; eauto|]. apply close_toks. assumption.
  - eapply paren_toks; eauto.
  - eapply elem_toks; eauto.
  - eapply elems_toks; eauto.
Qed.
Lemma member_toks : forall s b r, g_member tf re lax s b r -> tks InPath s InPath r.
Proof. intros s b r [? ? H|? ? ? H|? ? ? H|? ? ? H]; try pone. eapply paren_toks; eauto. Qed.
Lemma step_toks : forall s b r, g_step tf re lax s b r -> tks InPath s InPath r.
Proof.
  intros s b r [? ? ? ? H1 H2|? ? ? ? ? H1 H2 H3|? ? ? ? H1 H2|? ? ? ? ? ? H1 H2 H3 H4];
    (eapply toks_app; [pone|]); try (eapply member_toks; eauto; fail).
  - eapply toks_app; [eapply sub_toks; eauto|]. pone.
  - eapply toks_app; [pone|]. eapply toks_app; [eapply sub_toks; eauto|]. pone.
Qed.
Lemma path_toks : forall s p, g_path tf re lax s p -> exists r, tks InPath s InPath r /\ ptok lax r GEnd [].
Proof.
  intros s p (m & H & H'). assert (K : exists r, tks InPath m InPath r /\ ptok lax r GEnd []).
  { clear H. induction H' as [s' He|s' st m' p' Hst _ (r & IH1 & IH2)].
    - exists s'. split; [constructor|assumption].
    - exists r. split; [|assumption]. eapply toks_app; [eapply step_toks; eauto|assumption]. }
  destruct K as (r & K1 & K2). exists r. split; [|assumption]. eapply toks_app; [pone|assumption].
Qed.
Lemma script_toks : forall s e, g_script tf re lax s e ->
  exists r, tks (InExpr 0 true) s (InExpr 0 false) r /\ etok tf lax r GEnd [].
Proof. intros s e (r & H1 & H2). exists r. split; [eapply expr_toks; eauto|assumption]. Qed.

(** ** Places where no token can be read *)
Definition stuck (m : tmode) (s : bytes) : Prop := forall m1 r, ~ tst m s m1 r.

Lemma end_stuckP : forall r, ptok lax r GEnd [] -> stuck InPath r /\ Forall space r.
Proof.
  intros r H. split.
  - intros m1 r1 K. inversion K as [? t ? ? Kt Kn| |]; subst.
    destruct (ptok_det _ _ _ _ _ H Kt) as [<- _]. discriminate.
  - inversion H; subst. match goal with K : tok1 _ _ _ _ _ |- _ => inversion K; subst end.
    rewrite app_nil_r. assumption.
Qed.
Lemma end_stuckE : forall r d b, etok tf lax r GEnd [] -> stuck (InExpr d b) r /\ Forall space r.
Proof.
  intros r d b H. split.
  - intros m1 r1 K. inversion K as [|? ? ? t ? ? Kt Kn|? ? ? ? ? Kt Kb]; subst;
    destruct (etok_det _ _ _ _ _ H Kt) as [Et _]; try discriminate. subst t. discriminate.
  - inversion H; subst. match goal with K : tok1 _ _ _ _ _ |- _ => inversion K; subst end.
    rewrite app_nil_r. assumption.
Qed.

Lemma stuck_unique : forall m s m1 r1 m2 r2, tks m s m1 r1 -> stuck m1 r1 -> tks m s m2 r2 -> stuck m2 r2 ->
  m1 = m2 /\ r1 = r2.
Proof.
  intros m s m1 r1 m2 r2 H1 S1 H2 S2. destruct (toks_cmp _ _ _ _ _ _ H1 H2) as [H|H]; inversion H; subst; auto; exfalso.
  - eapply S1; eauto.
  - eapply S2; eauto.
Qed.
End det.

(** every literal, everywhere: a place with no token is not accepted *)
Lemma path_stuck : forall TX lax s m r, nonneg s -> toks (o_parse_float TX) lax InPath s m r -> stuck TX lax m r ->
  ~ Forall space r -> exists e, ParsePath TX s = Fail e.
Proof.
  intros TX lax s m r Hn H Hs Hr. pose proof (path_sound TX s Hn) as K.
  destruct (ParsePath TX s) as [p|e| |]; try contradiction; [|eauto]. exfalso.
  apply (path_keep _ _ true lax) in K. apply path_toks in K as (r' & K1 & K2).
  apply (end_stuckP TX) in K2 as [K2 K3].
  destruct (stuck_unique TX lax _ _ _ _ _ _ H Hs K1 K2) as [_ ->]. contradiction.
Qed.

Lemma script_stuck : forall TX lax s m r, nonneg s -> lax = true \/ ~ ends_in_escaped_quote s ->
  toks (o_parse_float TX) lax (InExpr 0 true) s m r -> stuck TX lax m r ->
  ~ Forall space r -> exists e, ParseScriptExpression TX s = Fail e.
Proof.
  intros TX lax s m r Hn Hq H Hs Hr. pose proof (script_sound_all TX s Hn) as K.
  destruct (ParseScriptExpression TX s) as [p|e| |]; try contradiction; [|eauto]. exfalso.
  assert (K' : g_script (o_parse_float TX) (o_re_ok TX) lax s p).
  { destruct Hq as [->|Hq]; [assumption|]. destruct lax; [assumption|]. apply script_strict; assumption. }
  apply script_toks in K' as (r' & K1 & K2).
  apply (end_stuckE TX _ _ 0 false) in K2 as [K2 K3].
  destruct (stuck_unique TX lax _ _ _ _ _ _ H Hs K1 K2) as [_ ->]. contradiction.
Qed.

(** *** Unclosed literals *)
Lemma skip_space : forall w w' c c' t t', Forall space w -> Forall space w' -> ~ space c -> ~ space c' ->
  w ++ c :: t = w' ++ c' :: t' -> c :: t = c' :: t'.
Proof.
  induction w as [|x w IH]; intros w' c c' t t' Hw Hw' Hc Hc' E.
  - destruct w' as [|y w']; [assumption|]. injection E as -> _. inversion Hw'; contradiction.
  - destruct w' as [|y w'].
    + injection E as -> _. inversion Hw; contradiction.
    + injection E as -> E. inversion Hw; inversion Hw'; subst. eapply IH; eauto.
Qed.

Lemma quote_not_space : forall q, q = 34 \/ q = 39 -> ~ space q.
Proof. unfold space. lia. Qed.
Lemma quote_not_digit : forall q, q = 34 \/ q = 39 -> ~ digit q.
Proof. unfold digit. lia. Qed.
Lemma digit_not_space : forall c, digit c -> ~ space c.
Proof. unfold digit, space. lia. Qed.

Lemma quote_no_punct : forall q ps p r x, q = 34 \/ q = 39 -> ps = expr_puncts \/ ps = path_puncts ->
  In p ps -> p ++ r = q :: x -> False.
Proof.
  intros q ps p r x Hq Hps Hin E.
  destruct Hps as [-> | ->]; simpl in Hin;
    repeat (destruct Hin as [<-|Hin]; [injection E as E _; destruct Hq; subst q; discriminate|]); destruct Hin.
Qed.

(** the first character that is not white space *)
Lemma skip_space' : forall w w' c t s, Forall space w -> Forall space w' -> ~ space c ->
  w ++ c :: t = w' ++ s -> not_next space s -> s = c :: t.
Proof.
  intros w w' c t [|c' s] Hw Hw' Hc E Hs.
  - exfalso. rewrite app_nil_r in E. subst w'. apply Forall_app in Hw' as [_ K]. inversion K; contradiction.
  - symmetry. exact (skip_space w w' c c' t s Hw Hw' Hc Hs E).
Qed.

Lemma tok1_no_space : forall ps dash s t r, ps = expr_puncts \/ ps = path_puncts ->
  tok1 ps dash s t r -> not_next space s.
Proof.
  intros ps dash s t r Hps H. destruct H as [|p r [Hin _]|q t v r Hq _|c t r Hc _ _]; simpl; auto.
  - destruct p as [|c p].
    { exfalso. destruct Hps as [-> | ->]; simpl in Hin; intuition discriminate. }
    simpl. intro K. destruct Hps as [-> | ->]; simpl in Hin;
    repeat (destruct Hin as [Hin|Hin]; [injection Hin as <- _; unfold space in K; lia|]); destruct Hin.
  - apply quote_not_space. assumption.
  - unfold letter, space in *. lia.
Qed.

Lemma digits_no_space : forall ds r, ds <> [] -> Forall digit ds -> not_next space (ds ++ r).
Proof. intros [|d ds] r H1 H2; [congruence|]. inversion H2; subst. apply digit_not_space. assumption. Qed.

Lemma quote_tok1 : forall ps dash q x t r, ps = expr_puncts \/ ps = path_puncts -> q = 34 \/ q = 39 ->
  tok1 ps dash (q :: x) t r -> exists u v, x = u ++ q :: r /\ str_body q u v.
Proof.
  intros ps dash q x t r Hps Hq H. inversion H; subst.
  - exfalso. match goal with K : longest _ _ _ |- _ => destruct K as [K _]; eapply quote_no_punct; eauto end.
  - eauto.
  - exfalso. unfold letter in *. lia.
Qed.

Lemma quote_etok : forall tf w q x t r, Forall space w -> q = 34 \/ q = 39 ->
  etok tf false (w ++ q :: x) t r -> exists u v, x = u ++ q :: r /\ str_body q u v.
Proof.
  intros tf w q x t r Hw Hq H. pose proof (quote_not_space q Hq) as Hsp. pose proof (quote_not_digit q Hq) as Hd.
  inversion H as [w' s' ? ? W K E|w' ds ? W D1 D2 N V E|w' ds fs ? f W D1 D2 D3 N V E
    |w' ds fs ex ? f W D1 D2 D3 X N V E|? ? ? ? L]; subst; [| | | |discriminate L];
    symmetry in E; apply skip_space' in E; auto.
  - subst s'. eapply quote_tok1; [|exact Hq|exact K]. auto.
  - eapply tok1_no_space; [left; reflexivity|exact K].
  - exfalso. destruct ds as [|d ds]; [congruence|]. injection E as -> _. inversion D2; contradiction.
  - apply digits_no_space; assumption.
  - exfalso. destruct ds as [|d ds]; [congruence|]. injection E as -> _. inversion D2; contradiction.
  - rewrite <- app_assoc. apply digits_no_space; assumption.
  - exfalso. destruct ds as [|d ds]; [congruence|]. injection E as -> _. inversion D2; contradiction.
  - rewrite <- app_assoc. apply digits_no_space; assumption.
Qed.
Lemma quote_ptok : forall w q x t r, Forall space w -> q = 34 \/ q = 39 ->
  ptok false (w ++ q :: x) t r -> exists u v, x = u ++ q :: r /\ str_body q u v.
Proof.
  intros w q x t r Hw Hq H. pose proof (quote_not_space q Hq) as Hsp. pose proof (quote_not_digit q Hq) as Hd.
  inversion H as [w' s' ? ? W K E|w' ds ? W D1 D2 N V E|w' w2 ds ? W W2 D1 D2 N V E|? ? ? ? L]; subst;
    [| | |discriminate L]; symmetry in E; apply skip_space' in E; auto.
  - subst s'. eapply quote_tok1; [|exact Hq|exact K]. auto.
  - eapply tok1_no_space; [right; reflexivity|exact K].
  - exfalso. destruct ds as [|d ds]; [congruence|]. injection E as -> _. inversion D2; contradiction.
  - apply digits_no_space; assumption.
  - exfalso. injection E as E _. lia.
  - simpl. unfold space. lia.
Qed.

Lemma unclosed_stuck : forall TX m s, unclosed s -> stuck TX false m s /\ ~ Forall space s.
Proof.
  intros TX m s (w & q & t & -> & Hw & Hq & Hu). split.
  - intros m1 r K. inversion K as [? t0 ? ? Kt Kn|? ? ? t0 ? ? Kt Kn|? ? ? ? ? Kt Kb]; subst.
    + apply quote_ptok in Kt as (u & v & E & Hb); auto. eapply Hu; eauto.
    + apply quote_etok in Kt as (u & v & E & Hb); auto. eapply Hu; eauto.
    + apply quote_etok in Kt as (u & v' & E & Hb); auto. eapply Hu; eauto.
  - intro K. apply Forall_app in K as [_ K]. inversion K. eapply quote_not_space; eauto.
Qed.

Lemma path_unclosed : forall TX s m r, nonneg s -> toks (o_parse_float TX) false InPath s m r -> unclosed r ->
  exists e, ParsePath TX s = Fail e.
Proof. intros TX s m r Hn H Hu. destruct (unclosed_stuck TX m r Hu). eapply path_stuck; eauto. Qed.
Lemma script_unclosed : forall TX s m r, nonneg s -> ~ ends_in_escaped_quote s ->
  toks (o_parse_float TX) false (InExpr 0 true) s m r -> unclosed r ->
  exists e, ParseScriptExpression TX s = Fail e.
Proof. intros TX s m r Hn Hq H Hu. destruct (unclosed_stuck TX m r Hu). eapply script_stuck; eauto. Qed.

(** *** Integers out of range *)
Lemma digits_split : forall ds ds' r r', Forall digit ds -> Forall digit ds' -> not_next digit r ->
  not_next digit r' -> ds ++ r = ds' ++ r' -> ds = ds' /\ r = r'.
Proof.
  induction ds as [|d ds IH]; intros [|d' ds'] r r' H H' N N' E.
  - auto.
  - simpl in E. subst r. inversion H'; subst. simpl in N. contradiction.
  - simpl in E. subst r'. inversion H; subst. simpl in N'. contradiction.
  - injection E as -> E. inversion H; inversion H'; subst. destruct (IH ds' r r') as [-> ->]; auto.
Qed.

Lemma digit_no_punct : forall c ps p r x, digit c -> ps = expr_puncts \/ ps = path_puncts ->
  In p ps -> p ++ r = c :: x -> False.
Proof.
  intros c ps p r x Hq Hps Hin E. unfold digit in Hq.
  destruct Hps as [-> | ->]; simpl in Hin;
    repeat (destruct Hin as [<-|Hin]; [injection E as E _; subst c; lia|]); destruct Hin.
Qed.

Lemma digit_tok1 : forall ps dash c x t r, ps = expr_puncts \/ ps = path_puncts -> digit c ->
  ~ tok1 ps dash (c :: x) t r.
Proof.
  intros ps dash c x t r Hps Hc H. inversion H; subst.
  - match goal with K : longest _ _ _ |- _ => destruct K as [K _]; eapply digit_no_punct; eauto end.
  - unfold digit in Hc. lia.
  - unfold digit, letter in *. lia.
Qed.

Lemma nn_digit : forall r, not_next (fun c => digit c \/ c = 46) r -> not_next digit r.
Proof. intros [|c r] H; simpl in *; tauto. Qed.
Lemma dot_nn : forall r, not_next digit (46 :: r).
Proof. intro r. simpl. unfold digit. lia. Qed.

Lemma etok_int_big : forall tf lax w ds r t r', Forall space w -> ds <> [] -> Forall digit ds ->
  not_next (fun c => digit c \/ c = 46) r -> 2 ^ 63 <= dec_val ds -> ~ etok tf lax (w ++ ds ++ r) t r'.
Proof.
  intros tf lax w ds r t r' Hw H1 H2 Hr Hv H.
  destruct ds as [|c ds]; [congruence|]. assert (Hc : digit c) by (inversion H2; assumption).
  pose proof (digit_not_space c Hc) as Hsp. 
  inversion H as [w' s' ? ? W K E|w' ds' r2 W D1 D2 N V E|w' ds' fs r2 f W D1 D2 D3 N V E
    |w' ds' fs ex r2 f W D1 D2 D3 X N V E|w' q t' v L W Q O E]; subst;
    symmetry in E; cbn [app] in E; apply skip_space' in E; auto.
  - subst s'. exfalso. eapply digit_tok1; [|exact Hc|exact K]. auto.
  - eapply tok1_no_space; [left; reflexivity|exact K].
  - change (c :: ds ++ r) with ((c :: ds) ++ r) in E.
    apply digits_split in E as [-> _]; auto using nn_digit. lia.
  - apply digits_no_space; assumption.
  - rewrite <- app_assoc in E. change (c :: ds ++ r) with ((c :: ds) ++ r) in E.
    cbn [app] in E. apply (digits_split ds' (c :: ds) (46 :: fs ++ r') r) in E as [_ <-]; auto using nn_digit, dot_nn.
  - rewrite <- app_assoc. apply digits_no_space; assumption.
  - rewrite <- app_assoc in E. change (c :: ds ++ r) with ((c :: ds) ++ r) in E.
    cbn [app] in E. apply (digits_split ds' (c :: ds) (46 :: (fs ++ ex) ++ r') r) in E as [_ <-]; auto using nn_digit, dot_nn.
  - rewrite <- app_assoc. apply digits_no_space; assumption.
  - injection E as E _. unfold digit in *. lia.
  - simpl. unfold space. lia.
Qed.

Lemma ptok_int_big : forall lax w ds r t r', Forall space w -> ds <> [] -> Forall digit ds ->
  not_next digit r -> 2 ^ 63 <= dec_val ds -> ~ ptok lax (w ++ ds ++ r) t r'.
Proof.
  intros lax w ds r t r' Hw H1 H2 Hr Hv H.
  destruct ds as [|c ds]; [congruence|]. assert (Hc : digit c) by (inversion H2; assumption).
  pose proof (digit_not_space c Hc) as Hsp. 
  inversion H as [w' s' ? ? W K E|w' ds' r2 W D1 D2 N V E|w' w2 ds' r2 W W2 D1 D2 N V E|w' q t' v L W Q O E]; subst; symmetry in E; cbn [app] in E; apply skip_space' in E; auto.
  - subst s'. exfalso. eapply digit_tok1; [|exact Hc|exact K]. auto.
  - eapply tok1_no_space; [right; reflexivity|exact K].
  - change (c :: ds ++ r) with ((c :: ds) ++ r) in E. apply digits_split in E as [-> _]; auto. lia.
  - apply digits_no_space; assumption.
  - injection E as E _. unfold digit in Hc. lia.
  - simpl. unfold space. lia.
  - injection E as E _. unfold digit in *. lia.
  - simpl. unfold space. lia.
Qed.

Lemma ptok_neg_big : forall lax w w1 ds r t r', Forall space w -> Forall space w1 -> ds <> [] -> Forall digit ds ->
  not_next digit r -> 2 ^ 63 - 1 <= dec_val ds -> ~ ptok lax (w ++ 45 :: w1 ++ ds ++ r) t r'.
Proof.
  intros lax w w1 ds r t r' Hw Hw1 H1 H2 Hr Hv H.
  assert (Hsp : ~ space 45) by (unfold space; lia).
  inversion H as [w' s' ? ? W K E|w' ds' r2 W D1 D2 N V E|w' w2 ds' r2 W W2 D1 D2 N V E|w' q t' v L W Q O E]; subst; symmetry in E; cbn [app] in E; apply skip_space' in E; auto.
  - subst s'. inversion K; subst.
    + match goal with K : longest _ _ _ |- _ => destruct K as [Hin _] end.
      match goal with K : p ++ _ = _ |- _ => rename K into E end. simpl in Hin.
      repeat (destruct Hin as [<-|Hin]; [discriminate E|]); destruct Hin.
    + lia.
    + unfold letter in *. lia.
  - eapply tok1_no_space; [right; reflexivity|exact K].
  - destruct ds' as [|d ds']; [congruence|]. injection E as -> _. inversion D2; subst. unfold digit in *. lia.
  - apply digits_no_space; assumption.
  - injection E as E. destruct ds as [|c ds]; [congruence|].
    cbn [app] in E. symmetry in E. apply skip_space' in E; auto.
    + change (c :: ds ++ r) with ((c :: ds) ++ r) in E. apply digits_split in E as [-> _]; auto. lia.
    + inversion H2; subst. apply digit_not_space. assumption.
    + apply digits_no_space; assumption.
  - injection E as E _. unfold digit in *. lia.
  - simpl. unfold space. lia.
Qed.
