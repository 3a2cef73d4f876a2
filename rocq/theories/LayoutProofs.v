(** Texts with the same tokens are parsed alike; blanks between tokens. *)
From Verif Require Import Base Syntax SpecGrammar SpecSyntax SpecTokens SpecLayout Lexer Parser LexProofs LexProofs2 LexProofs3
  LexProofs4 ParserProofs ParserSound ParserComplete ParserPath GrammarProofs TokenProofs ParserExact.
Local Open Scope Z_scope.

Lemma re_det2 : forall t v r t' v' r', re_body t v -> re_body t' v' -> t ++ 47 :: r = t' ++ 47 :: r' -> v = v' /\ r = r'.
Proof.
  intros t v r t' v' r' H H' E.
  destruct (lexRegexp_loop_app _ _ H [] [] r) as [b1 E1].
  destruct (lexRegexp_loop_app _ _ H' [] [] r') as [b2 E2].
  rewrite E, E2 in E1. injection E1 as E0 _ E1. split; congruence.
Qed.

Section same.
Variable TX : textoracles.
Variable lax : bool.
Notation tf := (o_parse_float TX).
Notation re := (o_re_ok TX).
Notation same := (same_tokens tf lax).
Notation et := (etok tf lax).
Notation pt := (ptok lax).

Lemma same_sym : forall m s s', same m s s' -> same m s' s.
Proof.
  intros m s s' H. induction H.
  - apply StEndPath; assumption.
  - apply StEndExpr; assumption.
  - eapply StPath; eassumption.
  - eapply StExpr; eassumption.
  - eapply StRegexp; eassumption.
Qed.

Lemma same_e : forall s t r d b m s', et s t r -> expr_next d b t = Some m -> same (InExpr d b) s s' ->
  exists r', et s' t r' /\ same m r r'.
Proof.
  intros s t r d b m s' H N S. inversion S; subst.
  - match goal with K : et s GEnd [] |- _ => destruct (etok_det TX lax _ _ _ _ _ H K) as [-> ->] end. discriminate N.
  - match goal with K : et s t0 r0 |- _ => destruct (etok_det TX lax _ _ _ _ _ H K) as [-> ->] end.
    match goal with K : expr_next _ _ _ = Some m0, J : expr_next _ _ _ = Some m |- _ => rewrite K in J; injection J as -> end. eauto.
  - match goal with K : punct tf lax s _ _ |- _ => destruct (etok_det TX lax _ _ _ _ _ H K) as [-> ->] end.
    rewrite slash_next in N. discriminate N.
Qed.

Lemma same_p : forall s t r m s', pt s t r -> path_next t = Some m -> same InPath s s' ->
  exists r', pt s' t r' /\ same m r r'.
Proof.
  intros s t r m s' H N S. inversion S; subst.
  - match goal with K : pt s GEnd [] |- _ => destruct (ptok_det TX lax _ _ _ _ _ H K) as [-> ->] end. discriminate N.
  - match goal with K : pt s t0 r0 |- _ => destruct (ptok_det TX lax _ _ _ _ _ H K) as [-> ->] end.
    match goal with K : path_next _ = Some m0, J : path_next _ = Some m |- _ => rewrite K in J; injection J as -> end. eauto.
Qed.

Lemma same_re : forall d s t v r s', punct tf lax s "/" (t ++ 47 :: r) -> re_body t v -> same (InExpr d true) s s' ->
  exists t' r', punct tf lax s' "/" (t' ++ 47 :: r') /\ re_body t' v /\ same (InExpr d false) r r'.
Proof.
  intros d s t v r s' H Hb S. inversion S; subst.
  - match goal with K : et s GEnd [] |- _ => destruct (etok_det TX lax _ _ _ _ _ H K) as [E _] end. discriminate E.
  - match goal with K : et s t0 r0 |- _ => destruct (etok_det TX lax _ _ _ _ _ H K) as [<- <-] end.
    match goal with K : expr_next _ _ _ = Some m |- _ => rewrite slash_next in K; discriminate K end.
  - match goal with K : punct tf lax s _ _, B : re_body t0 v0 |- _ =>
      destruct (etok_det TX lax _ _ _ _ _ H K) as [_ E];
      destruct (re_det2 _ _ _ _ _ _ Hb B E) as [<- <-] end. eauto.
Qed.

(** ** Derivations *)
Ltac tok H D := eapply same_e in D; [|exact H|reflexivity]; destruct D as (?r' & ?H' & D).
Ltac via IH D := apply IH in D; destruct D as (?r' & ?H' & D).

Lemma bin_same : forall s o k r d s', binary_op tf lax s o k r -> same (InExpr d false) s s' ->
  exists r', binary_op tf lax s' o k r' /\ same (InExpr d true) r r'.
Proof.
  intros s o k r d s' [s0 p0 o0 k0 r0 Hin H|? ? H|? ? H] D.
  - apply same_e with (t := GPunct p0) (r := r0) (m := InExpr d true) in D; [|exact H|].
    + destruct D as (r' & H' & D). exists r'. split; [eapply BinPunct; eassumption|exact D].
    + simpl in Hin. repeat (destruct Hin as [Hin|Hin]; [injection Hin as <- <- <-; reflexivity|]). destruct Hin.
  - tok H D. eexists; split; [eapply BinIn; eassumption|exact D].
  - tok H D. eexists; split; [eapply BinNin; eassumption|exact D].
Qed.

Lemma g_same : (forall k s e r, g_expr tf re lax k s e r -> forall d s', same (InExpr d true) s s' ->
    exists r', g_expr tf re lax k s' e r' /\ same (InExpr d false) r r') /\
  (forall s e r, g_unary tf re lax s e r -> forall d s', same (InExpr d true) s s' ->
    exists r', g_unary tf re lax s' e r' /\ same (InExpr d false) r r') /\
  (forall s e r, g_postfix tf re lax s e r -> forall d s', same (InExpr d true) s s' ->
    exists r', g_postfix tf re lax s' e r' /\ same (InExpr d false) r r') /\
  (forall s e r, g_atom tf re lax s e r -> forall d s', same (InExpr d true) s s' ->
    exists r', g_atom tf re lax s' e r' /\ same (InExpr d false) r r') /\
  (forall c s l r, g_list tf re lax c s l r -> c = ")"%string \/ c = "]"%string ->
     forall d s', same (InExpr (S d) true) s s' ->
    exists r', g_list tf re lax c s' l r' /\ same (InExpr d false) r r') /\
  (forall s l r, g_items tf re lax s l r -> forall d s', same (InExpr d true) s s' ->
    exists r', g_items tf re lax s' l r' /\ same (InExpr d false) r r').
Proof.
  apply g_expr_mutind; unfold punct.
  - intros k s e r Hk _ IH d s' D. via IH D. eexists; split; [apply GUp; eassumption|exact D].
  - intros k s a m o m' b r _ IHa Hb _ IHb d s' D. via IHa D. eapply bin_same in D; [|exact Hb]. destruct D as (? & ? & D).
    via IHb D. eexists; split; [eapply GBin; eassumption|exact D].
  - intros s e r _ IH d s' D. via IH D. eexists; split; [apply GUnary; eassumption|exact D].
  - intros s m e r H _ IH d s' D. tok H D. via IH D. eexists; split; [eapply GNeg; eassumption|exact D].
  - intros s m e r H _ IH d s' D. tok H D. via IH D. eexists; split; [eapply GNot; eassumption|exact D].
  - intros s e r _ IH d s' D. via IH D. eexists; split; [apply GPost; eassumption|exact D].
  - intros s e r _ IH d s' D. via IH D. eexists; split; [apply GAtom; eassumption|exact D].
  - intros s f m m' l r _ IH H _ IHl d s' D. via IH D. tok H D. apply IHl in D; [|auto]. destruct D as (? & ? & D).
    eexists; split; [eapply GCall; eassumption|exact D].
  - intros s a m m' e m'' r _ IHa H _ IHe H1 d s' D. via IHa D. tok H D. via IHe D. tok H1 D.
    eexists; split; [eapply GIndex; eassumption|exact D].
  - intros s a m m' n r _ IHa H H1 d s' D. via IHa D. tok H D. tok H1 D.
    eexists; split; [eapply GDot; eassumption|exact D].
  - intros s m t v r H -> Hb Hv d s' D. eapply same_re in D; [|exact H|exact Hb]. destruct D as (t' & r' & ? & ? & D).
    eexists; split; [eapply GRegexp; [eassumption|reflexivity|eassumption|exact Hv]|exact D].
  - intros s r H d s' D. tok H D. eexists; split; [apply GCurrent; eassumption|exact D].
  - intros s r H d s' D. tok H D. eexists; split; [apply GRoot; eassumption|exact D].
  - intros s m e m' r H _ IH H1 d s' D. tok H D. via IH D. tok H1 D. eexists; split; [eapply GParen; eassumption|exact D].
  - intros s m l r H _ IH d s' D. tok H D. apply IH in D; [|auto]. destruct D as (? & ? & D).
    eexists; split; [eapply GArray; eassumption|exact D].
  - intros s n r H d s' D. tok H D. eexists; split; [apply GNameAtom; eassumption|exact D].
  - intros s n r H d s' D. tok H D. eexists; split; [apply GIntAtom; eassumption|exact D].
  - intros s n r H d s' D. tok H D. eexists; split; [apply GRealAtom; eassumption|exact D].
  - intros s n r H d s' D. tok H D. eexists; split; [apply GStrAtom; eassumption|exact D].
  - intros c s r H Hc d s' D. destruct Hc as [-> | ->]; tok H D; (eexists; split; [apply GListNil; eassumption|exact D]).
  - intros c s l m r _ IH H Hc d s' D. via IH D. destruct Hc as [-> | ->]; tok H D; (eexists; split; [eapply GListCons; eassumption|exact D]).
  - intros s e r _ IH d s' D. via IH D. eexists; split; [apply GItemsOne; eassumption|exact D].
  - intros s e m m' l r _ IH H _ IHl d s' D. via IH D. tok H D. via IHl D. eexists; split; [eapply GItemsMore; eassumption|exact D].
Qed.

Ltac ptk H D := eapply same_p in D; [|exact H|reflexivity]; destruct D as (?r' & ?H' & D).
Ltac thru L H D := eapply L in D; [|exact H]; destruct D as (?r' & ?H' & D).

Lemma expr_same : forall s e r s', g_expr tf re lax 0 s e r -> same (InExpr 0 true) s s' ->
  exists r', g_expr tf re lax 0 s' e r' /\ same (InExpr 0 false) r r'.
Proof. intros s e r s' H. apply (proj1 g_same _ _ _ _ H). Qed.
Lemma close_same : forall s r s', ppunct lax s ")" r -> same (InExpr 0 false) s s' ->
  exists r', ppunct lax s' ")" r' /\ same InPath r r'.
Proof.
  intros s r s' H D. apply (close_both tf) in H. tok H D. eexists; split; [apply (close_both tf); eassumption|exact D].
Qed.
Lemma paren_same : forall s e r s', g_paren tf re lax s e r -> same InPath s s' ->
  exists r', g_paren tf re lax s' e r' /\ same InPath r r'.
Proof.
  intros s e r s' [? m e' m' r' H1 H2 H3] D. ptk H1 D. thru expr_same H2 D. thru close_same H3 D.
  eexists; split; [eapply GPar; eassumption|exact D].
Qed.
Lemma obound_same : forall s b r s', g_obound tf re lax s b r -> same InPath s s' ->
  exists r', g_obound tf re lax s' b r' /\ same InPath r r'.
Proof.
  intros s b r s' [|? ? ? [? ? ? H|? ? ? H]] D; [eexists; split; [constructor|exact D]| |].
  - ptk H D. eexists; split; [apply GBSome, GBInt; eassumption|exact D].
  - thru paren_same H D. eexists; split; [apply GBSome, GBExpr; eassumption|exact D].
Qed.
Lemma slice_same : forall s b r s', g_slice tf re lax s b r -> same InPath s s' ->
  exists r', g_slice tf re lax s' b r' /\ same InPath r r'.
Proof.
  intros s b r s' [? a m m' b' r' H1 H2 H3|? a m m' b' n n' c r' H1 H2 H3 H4 H5] D.
  - thru obound_same H1 D. ptk H2 D. thru obound_same H3 D. eexists; split; [eapply GSlice2; eassumption|exact D].
  - thru obound_same H1 D. ptk H2 D. thru obound_same H3 D. ptk H4 D. thru obound_same H5 D.
    eexists; split; [eapply GSlice3; eassumption|exact D].
Qed.
Lemma elem_same : forall s b r s', g_elem tf re lax s b r -> same InPath s s' ->
  exists r', g_elem tf re lax s' b r' /\ same InPath r r'.
Proof.
  intros s b r s' [? ? ? H|? ? ? H|? ? ? H|? ? ? H] D.
  - ptk H D. eexists; split; [apply GElInt; eassumption|exact D].
  - ptk H D. eexists; split; [apply GElStr; eassumption|exact D].
  - ptk H D. eexists; split; [apply GElName; eassumption|exact D].
  - thru slice_same H D. eexists; split; [apply GElSlice; eassumption|exact D].
Qed.
Lemma elems_same : forall s b r, g_elems tf re lax s b r -> forall s', same InPath s s' ->
  exists r', g_elems tf re lax s' b r' /\ same InPath r r'.
Proof.
  intros s b r H. induction H as [? ? ? K|? ? ? ? ? ? K K2 _ IH]; intros s' D.
  - thru elem_same K D. eexists; split; [apply GElOne; eassumption|exact D].
  - thru elem_same K D. ptk K2 D. via IH D. eexists; split; [eapply GElMore; eassumption|exact D].
Qed.
Lemma sub_same : forall s b r s', g_subscript tf re lax s b r -> same InPath s s' ->
  exists r', g_subscript tf re lax s' b r' /\ same InPath r r'.
Proof.
  intros s b r s' [? ? H|? ? ? ? ? H1 H2 H3|? ? ? H|? ? ? H|? ? ? H H'] D.
  - ptk H D. eexists; split; [apply GSubWild; eassumption|exact D].
  - ptk H1 D. thru expr_same H2 D. thru close_same H3 D. eexists; split; [eapply GSubFilter; eassumption|exact D].
  - thru paren_same H D. eexists; split; [apply GSubExpr; eassumption|exact D].
  - thru elem_same H D. eexists; split; [apply GSubOne; eassumption|exact D].
  - thru elems_same H D. eexists; split; [apply GSubUnion; eassumption|exact D].
Qed.
Lemma member_same : forall s b r s', g_member tf re lax s b r -> same InPath s s' ->
  exists r', g_member tf re lax s' b r' /\ same InPath r r'.
Proof.
  intros s b r s' [? ? H|? ? ? H|? ? ? H|? ? ? H] D.
  - ptk H D. eexists; split; [apply GMemWild; eassumption|exact D].
  - ptk H D. eexists; split; [apply GMemName; eassumption|exact D].
  - ptk H D. eexists; split; [apply GMemInt; eassumption|exact D].
  - thru paren_same H D. eexists; split; [apply GMemExpr; eassumption|exact D].
Qed.
Lemma step_same : forall s b r s', g_step tf re lax s b r -> same InPath s s' ->
  exists r', g_step tf re lax s' b r' /\ same InPath r r'.
Proof.
  intros s b r s' [? ? ? ? H1 H2|? ? ? ? ? H1 H2 H3|? ? ? ? H1 H2|? ? ? ? ? ? H1 H2 H3 H4] D.
  - ptk H1 D. thru member_same H2 D. eexists; split; [eapply GStepMember; eassumption|exact D].
  - ptk H1 D. thru sub_same H2 D. ptk H3 D. eexists; split; [eapply GStepSub; eassumption|exact D].
  - ptk H1 D. thru member_same H2 D. eexists; split; [eapply GStepNestMember; eassumption|exact D].
  - ptk H1 D. ptk H2 D. thru sub_same H3 D. ptk H4 D. eexists; split; [eapply GStepNestSub; eassumption|exact D].
Qed.
Lemma end_p : forall s s', pt s GEnd [] -> same InPath s s' -> pt s' GEnd [].
Proof.
  intros s s' H S. inversion S; subst; [assumption|].
  match goal with K : pt s t r |- _ => destruct (ptok_det TX lax _ _ _ _ _ H K) as [<- <-] end. discriminate.
Qed.
Lemma end_e : forall d b s s', et s GEnd [] -> same (InExpr d b) s s' -> et s' GEnd [].
Proof.
  intros d b s s' H S. inversion S; subst; [assumption| |].
  - match goal with K : et s t r |- _ => destruct (etok_det TX lax _ _ _ _ _ H K) as [<- <-] end. discriminate.
  - match goal with K : punct tf lax s _ _ |- _ => destruct (etok_det TX lax _ _ _ _ _ H K) as [E _] end. discriminate E.
Qed.
Lemma steps_same : forall s p, g_steps tf re lax s p -> forall s', same InPath s s' -> g_steps tf re lax s' p.
Proof.
  intros s p H. induction H as [s H|s st m p H _ IH]; intros s' D.
  - apply GStepsEnd. eapply end_p; eassumption.
  - thru step_same H D. eapply GStepsMore; [eassumption|auto].
Qed.
Lemma path_same : forall s p s', g_path tf re lax s p -> same InPath s s' -> g_path tf re lax s' p.
Proof. intros s p s' (m & H & K) D. ptk H D. eexists; split; [eassumption|eapply steps_same; eassumption]. Qed.
Lemma script_same : forall s e s', g_script tf re lax s e -> same (InExpr 0 true) s s' -> g_script tf re lax s' e.
Proof. intros s e s' (m & H & K) D. thru expr_same H D. eexists; split; [eassumption|eapply end_e; eassumption]. Qed.
End same.

Lemma path_tokens : forall TX s s', is_bytes s -> is_bytes s' -> same_tokens (o_parse_float TX) false InPath s s' ->
  forall p, ParsePath TX s = OK p <-> ParsePath TX s' = OK p.
Proof.
  intros TX s s' H H' S p. rewrite (proj1 (path_exact TX s H) p), (proj1 (path_exact TX s' H') p).
  split; intro G; eapply path_same; eauto using same_sym.
Qed.
Lemma script_tokens : forall TX s s', is_bytes s -> is_bytes s' -> same_tokens (o_parse_float TX) true (InExpr 0 true) s s' ->
  forall e, ParseScriptExpression TX s = OK e <-> ParseScriptExpression TX s' = OK e.
Proof.
  intros TX s s' H H' S p. rewrite (script_exact TX s H p), (script_exact TX s' H' p).
  split; intro G; eapply script_same; eauto using same_sym.
Qed.

(** ** Blanks between tokens *)

(** [x'] may stand where [x] does after a token *)
Definition follows (x x' : bytes) : Prop :=
  (exists c a a', x = c :: a /\ x' = c :: a') \/ (exists c a', space c /\ x' = c :: a').

Lemma follows_next : forall P x x', follows x x' -> (forall c, space c -> ~ P c) -> not_next P x -> not_next P x'.
Proof. intros P x x' [(c & a & a' & -> & ->)|(c & a' & Hc & ->)] HP H; [exact H|apply HP, Hc]. Qed.

Lemma space_digit : forall c, space c -> ~ digit c.
Proof. unfold space, digit. lia. Qed.
Lemma space_name : forall d c, space c -> ~ name_char d c.
Proof. unfold space, name_char, letter, digit. intros d c H [K|[K|[_ K]]]; lia. Qed.

Lemma short_punct : forall ps, ps = expr_puncts \/ ps = path_puncts -> forall p, In p ps ->
  (exists a, p = [a] /\ ~ space a) \/ (exists a b, p = [a; b] /\ ~ space a /\ ~ space b).
Proof.
  intros ps Hps p H. unfold space.
  destruct Hps as [-> | ->]; vm_compute in H;
  repeat (destruct H as [<-|H]; [first [left; eexists; split; [reflexivity|lia]|right; do 2 eexists; split; [reflexivity|lia]]|]); destruct H.
Qed.

Lemma longest_follows : forall ps, ps = expr_puncts \/ ps = path_puncts -> forall p x x',
  follows x x' -> longest ps p (p ++ x) -> longest ps p (p ++ x').
Proof.
  intros ps Hps p x x' F [Hin L]. split; [exact Hin|]. intros p' Hin' [t E].
  destruct (short_punct ps Hps p Hin) as [(a & -> & Ha)|(a & b & -> & Ha & Hb)];
  destruct (short_punct ps Hps p' Hin') as [(a' & -> & Ha')|(a' & b' & -> & Ha' & Hb')]; cbn [length]; try lia.
  exfalso. cbn [app] in E. injection E as -> E.
  destruct F as [(c & y & y' & -> & ->)|(c & y' & Hc & ->)]; injection E as -> E; [|contradiction].
  specialize (L _ Hin'). cbn in L. assert (2 <= 1)%nat; [|lia]. apply L. exists y. reflexivity.
Qed.

Lemma tok1_follows : forall ps dash, ps = expr_puncts \/ ps = path_puncts -> forall v t x x', t <> GEnd -> follows x x' ->
  tok1 ps dash (v ++ x) t x -> tok1 ps dash (v ++ x') t x'.
Proof.
  intros ps dash Hps v t x x' Ht F H. inversion H as [E1 E2 E3|p r L E1 E2 E3|q u w r Hq Hb E1 E2 E3|c u r Hc Hu Hn E1 E2 E3]; subst.
  - congruence.
  - apply app_inv_tail in E1. subst v. apply TokPunct. eapply longest_follows; eassumption.
  - replace (q :: u ++ q :: x) with ((q :: u ++ [q]) ++ x) in E1 by (cbn; rewrite <- app_assoc; reflexivity).
    apply app_inv_tail in E1. subst v. cbn. rewrite <- app_assoc. apply TokStr; assumption.
  - change (c :: u ++ x) with ((c :: u) ++ x) in E1. apply app_inv_tail in E1. subst v. apply TokName; try assumption.
    eapply follows_next; [eassumption|apply space_name|assumption].
Qed.

Ltac cut_tail E := rewrite ?app_assoc in E; apply app_inv_tail in E.

Lemma etok_follows : forall tf v t x x', t <> GEnd -> follows x x' -> etok tf false (v ++ x) t x -> etok tf false (v ++ x') t x'.
Proof.
  intros tf v t x x' Ht F H. inversion H as [w s t0 r Hw H1 E1 E2 E3|w ds r Hw Hd Hds Hn Hv E1 E2 E3
    |w ds fs r f Hw Hd Hds Hfs Hn Hv E1 E2 E3|w ds fs ex r f Hw Hd Hds Hfs Hex Hn Hv E1 E2 E3|w q u z Hl]; subst.
  - assert (exists v', s = v' ++ x) as [v' ->].
    { inversion H1; subst; [congruence|eexists; reflexivity| |].
      - exists (q :: t0 ++ [q]). cbn. rewrite <- app_assoc. reflexivity.
      - exists (c :: t0). reflexivity. }
    cut_tail E1. subst v. rewrite <- app_assoc. apply ETok1; [assumption|].
    eapply tok1_follows; eauto.
  - cut_tail E1. subst v. rewrite <- app_assoc. apply ETokInt; try assumption.
    eapply follows_next; [eassumption| |assumption]. intros c Hc [K|K]; [exact (space_digit c Hc K)|unfold space in Hc; lia].
  - cut_tail E1. subst v. rewrite <- !app_assoc. rewrite (app_assoc ds). apply ETokReal; try assumption.
    eapply follows_next; [eassumption| |assumption]. intros c Hc [K|K]; [exact (space_digit c Hc K)|unfold space in Hc; lia].
  - cut_tail E1. subst v. rewrite <- !app_assoc.
    replace (ds ++ (46 :: fs ++ ex) ++ x') with ((ds ++ 46 :: fs ++ ex) ++ x') by (rewrite <- app_assoc; reflexivity).
    apply ETokRealExp; try assumption.
    eapply follows_next; [eassumption|apply space_digit|assumption].
  - discriminate Hl.
Qed.

Lemma ptok_follows : forall v t x x', t <> GEnd -> follows x x' -> ptok false (v ++ x) t x -> ptok false (v ++ x') t x'.
Proof.
  intros v t x x' Ht F H. inversion H as [w s t0 r Hw H1 E1 E2 E3|w ds r Hw Hd Hds Hn Hv E1 E2 E3
    |w w' ds r Hw Hw' Hd Hds Hn Hv E1 E2 E3|w q u z Hl]; subst.
  - assert (exists v', s = v' ++ x) as [v' ->].
    { inversion H1; subst; [congruence|eexists; reflexivity| |].
      - exists (q :: t0 ++ [q]). cbn. rewrite <- app_assoc. reflexivity.
      - exists (c :: t0). reflexivity. }
    cut_tail E1. subst v. rewrite <- app_assoc. apply PTok1; [assumption|].
    eapply tok1_follows; eauto.
  - cut_tail E1. subst v. rewrite <- app_assoc. apply PTokInt; try assumption.
    eapply follows_next; [eassumption|apply space_digit|assumption].
  - replace (w ++ 45 :: w' ++ ds ++ x) with ((w ++ 45 :: w' ++ ds) ++ x) in E1 by (rewrite <- app_assoc; cbn; rewrite <- app_assoc; reflexivity).
    apply app_inv_tail in E1. subst v. rewrite <- app_assoc. cbn. rewrite <- app_assoc. apply PTokNeg; try assumption.
    eapply follows_next; [eassumption|apply space_digit|assumption].
  - discriminate Hl.
Qed.

Lemma etok_blank : forall tf lax w s t r, Forall space w -> etok tf lax s t r -> etok tf lax (w ++ s) t r.
Proof.
  intros tf lax w s t r Hw H. destruct H; rewrite app_assoc; constructor; try assumption; apply Forall_app; auto.
Qed.
Lemma ptok_blank : forall lax w s t r, Forall space w -> ptok lax s t r -> ptok lax (w ++ s) t r.
Proof.
  intros lax w s t r Hw H. destruct H; rewrite app_assoc; constructor; try assumption; apply Forall_app; auto.
Qed.

Section blanks.
Variable TX : textoracles.
Notation tf := (o_parse_float TX).
Notation same := (same_tokens tf false).
Notation tks := (toks tf false).

Lemma same_blank : forall w m s s', Forall space w -> same m s s' -> same m s (w ++ s').
Proof.
  intros w m s s' Hw H. destruct H.
  - apply StEndPath; [assumption|apply ptok_blank; assumption].
  - apply StEndExpr; [assumption|apply etok_blank; assumption].
  - eapply StPath; [eassumption|apply ptok_blank; eassumption|eassumption|assumption].
  - eapply StExpr; [eassumption|apply etok_blank; eassumption|eassumption|assumption].
  - eapply StRegexp; [eassumption|eassumption|apply etok_blank; eassumption|eassumption|assumption].
Qed.

Lemma tstep_suffix : forall m s m1 r, tstep tf false m s m1 r -> exists v, s = v ++ r.
Proof.
  intros m s m1 r H. destruct H as [s t r m H _|d b s t r m H _|d s t v r H _].
  - apply ptok_suffix in H. exact H.
  - apply etok_suffix in H. exact H.
  - apply etok_suffix in H. destruct H as [w ->]. exists (w ++ t ++ [47]). rewrite <- !app_assoc. reflexivity.
Qed.
Lemma toks_suffix : forall m s m1 r, tks m s m1 r -> exists v, s = v ++ r.
Proof.
  intros m s m1 r H. induction H as [|m s m1 s1 m2 r H _ [v ->]]; [exists []; reflexivity|].
  apply tstep_suffix in H. destruct H as [u ->]. exists (u ++ v). apply app_assoc.
Qed.

Lemma same_refl : forall m s m1 r, tks m s m1 r -> same m1 r r -> same m s s.
Proof.
  intros m s m1 r H S. induction H as [|m s m1 s1 m2 r H _ IH]; [exact S|]. specialize (IH S).
  destruct H; [eapply StPath; eassumption|eapply StExpr; eassumption|eapply StRegexp; eassumption].
Qed.

Lemma blanks_same : forall w m s m1 r, Forall space w -> w <> [] -> tks m s m1 r -> same m1 r r ->
  forall u, s = u ++ r -> same m s (u ++ w ++ r).
Proof.
  intros w m s m1 r Hw Hne H S. induction H as [m s|m s m1 s1 m2 r H Ht IH]; intros u E.
  - rewrite <- (app_nil_l s) in E at 1. apply app_inv_tail in E. subst u.
    exact (same_blank w m s s Hw S).
  - specialize (IH S). destruct (toks_suffix _ _ _ _ Ht) as [u1 E1]. specialize (IH u1 E1). subst s1.
    assert (F : follows (u1 ++ r) (u1 ++ w ++ r)).
    { destruct u1 as [|c u1]; [|left; do 3 eexists; split; reflexivity].
      destruct w as [|c w]; [congruence|]. right. exists c, (w ++ r). inversion Hw; subst. split; [assumption|reflexivity]. }
    destruct (tstep_suffix _ _ _ _ H) as [v Ev]. subst s. rewrite app_assoc in Ev. apply app_inv_tail in Ev. subst u.
    rewrite <- !app_assoc. rewrite <- app_assoc in H. remember (u1 ++ r) as x eqn:Ex. remember (v ++ x) as s eqn:Es.
    destruct H as [s0 t y m H N|d b s0 t y m H N|d s0 t z y H Hb]; subst s0.
    + eapply StPath; [exact H| |exact N|exact IH]. eapply ptok_follows; [|exact F|exact H]. intros ->. discriminate N.
    + eapply StExpr; [exact H| |exact N|exact IH]. eapply etok_follows; [|exact F|exact H]. intros ->. discriminate N.
    + pose proof (etok_suffix _ _ _ _ _ H) as [p Ep].
      assert (Ev : v = p ++ t ++ [47]). { apply (app_inv_tail y). rewrite Ep, <- !app_assoc. reflexivity. }
      subst v. eapply StRegexp; [exact H|exact Hb| |exact Hb|exact IH].
      rewrite <- !app_assoc. cbn [app]. unfold punct in H. rewrite <- !app_assoc in H. cbn [app] in H.
      eapply etok_follows; [discriminate| |exact H].
      left. destruct t as [|c t]; cbn; do 3 eexists; split; reflexivity.
Qed.

Lemma from_end : forall m s m1 r m2 e, tks m s m1 r -> tks m s m2 e -> stuck TX false m2 e -> same m2 e e -> same m1 r r.
Proof.
  intros m s m1 r m2 e H1 H2 K S. destruct (toks_cmp TX false _ _ _ _ _ _ H1 H2) as [H|H].
  - eapply same_refl; eassumption.
  - inversion H; subst; [exact S|]. exfalso. eapply K. eassumption.
Qed.
End blanks.

Lemma app_bytes : forall u w r, is_bytes (u ++ r) -> Forall space w -> is_bytes (u ++ w ++ r).
Proof.
  unfold is_bytes. intros u w r H Hw. apply Forall_app in H as [H1 H2]. apply Forall_app. split; [exact H1|]. apply Forall_app. split; [|exact H2].
  eapply Forall_impl; [|exact Hw]. unfold space. intros a Ha. lia.
Qed.

Lemma path_blanks : forall TX u w r m p, is_bytes (u ++ r) -> Forall space w ->
  toks (o_parse_float TX) false InPath (u ++ r) m r -> ParsePath TX (u ++ r) = OK p -> ParsePath TX (u ++ w ++ r) = OK p.
Proof.
  intros TX u w r m p H Hw T E. destruct w as [|c w]; [exact E|].
  assert (S : same_tokens (o_parse_float TX) false InPath (u ++ r) (u ++ (c :: w) ++ r)).
  { eapply blanks_same; [exact Hw|discriminate|exact T| |reflexivity].
    destruct (path_toks TX false (o_re_ok TX) (u ++ r) p) as (e & T2 & He); [apply path_exact; assumption|].
    eapply from_end; [exact T|exact T2|apply end_stuckP, He|apply StEndPath; exact He]. }
  apply (path_tokens TX _ _ H (app_bytes _ _ _ H Hw) S p), E.
Qed.

Lemma script_blanks : forall TX u w r m e, is_bytes (u ++ r) -> ~ ends_in_escaped_quote (u ++ r) -> Forall space w ->
  toks (o_parse_float TX) false (InExpr 0 true) (u ++ r) m r ->
  ParseScriptExpression TX (u ++ r) = OK e -> ParseScriptExpression TX (u ++ w ++ r) = OK e.
Proof.
  intros TX u w r m e H Hq Hw T E. destruct w as [|c w]; [exact E|].
  apply (script_documented TX _ H Hq) in E.
  assert (S : same_tokens (o_parse_float TX) false (InExpr 0 true) (u ++ r) (u ++ (c :: w) ++ r)).
  { eapply blanks_same; [exact Hw|discriminate|exact T| |reflexivity].
    destruct (script_toks TX false (o_re_ok TX) (u ++ r) e E) as (x & T2 & He).
    eapply from_end; [exact T|exact T2|apply end_stuckE, He|apply StEndExpr; exact He]. }
  apply script_documented_sound; [apply app_bytes; assumption|]. eapply script_same; eassumption.
Qed.
