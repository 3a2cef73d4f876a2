(** Script expressions alone and in paths. *)
From Verif Require Import Base Syntax SpecGrammar SpecSyntax Lexer Parser ParserProofs GrammarProofs TokenProofs ParserExact SpecEmbed.
Local Open Scope Z_scope.

Section embed.
Variable TX : textoracles.
Notation tf := (o_parse_float TX).
Notation re := (o_re_ok TX).
Notation et := (etok tf false).
Notation pt := (ptok false).
(** what follows the expression *)
Variable y : bytes.
Notation x := (41 :: y).

Lemma next_app : forall (P : Z -> Prop) r, ~ P 41 -> not_next P r -> not_next P (r ++ x).
Proof. intros P [|c r] N H; [exact N|exact H]. Qed.
Lemma next_cut : forall (P : Z -> Prop) r, not_next P (r ++ x) -> not_next P r.
Proof. intros P [|c r] H; [exact I|exact H]. Qed.

(** a punctuation of more than one character does not contain ")" *)
Lemma no_paren : forall p, In p expr_puncts -> In 41 p -> p = [41].
Proof.
  intros p H. vm_compute in H. repeat (destruct H as [<-|H]; [intro K; vm_compute in K; repeat (destruct K as [K|K]; [try discriminate K|]); try contradiction; reflexivity|]).
  contradiction.
Qed.
Lemma prefix_cut : forall (p t a b : bytes), p ++ t = a ++ b -> (exists u, a = p ++ u) \/ (exists v, p = a ++ v /\ b = v ++ t).
Proof.
  induction p as [|c p IH]; intros t a b E; [left; exists a; reflexivity|]. destruct a as [|d a]; [right; exists (c :: p); auto|].
  cbn [app] in E. injection E as -> E. destruct (IH _ _ _ E) as [[u ->]|(v & -> & ->)]; [left; exists u; reflexivity|right; exists v; auto].
Qed.
Lemma longest_app : forall p r, p <> [] -> longest expr_puncts p (p ++ r) -> longest expr_puncts p (p ++ r ++ x).
Proof.
  intros p r N [Hi Hl]. split; [exact Hi|]. intros p' Hp [t E]. rewrite app_assoc in E.
  destruct (prefix_cut _ _ _ _ (eq_sym E)) as [[u Eu]|(v & Ev & Ex)]; [apply Hl; [exact Hp|exists u; exact Eu]|].
  destruct v as [|c v]; [rewrite app_nil_r in Ev; subst p'; apply Hl; [exact Hp|exists []; symmetry; apply app_nil_r]|].
  cbn [app] in Ex. injection Ex as <- Ex. assert (K : p' = [41]) by (apply no_paren; [exact Hp|rewrite Ev; apply in_or_app; right; left; reflexivity]).
  rewrite K. destruct p; [contradiction|cbn; lia].
Qed.
Lemma longest_cut : forall ps p r, longest ps p (p ++ r ++ x) -> longest ps p (p ++ r).
Proof. intros ps p r [Hi Hl]. split; [exact Hi|]. intros p' Hp [t E]. apply Hl; [exact Hp|]. exists (t ++ x). rewrite app_assoc, E, <- app_assoc. reflexivity. Qed.
Lemma punct_some : forall p, In p expr_puncts -> p <> [].
Proof. intros p H. vm_compute in H. repeat (destruct H as [<-|H]; [discriminate|]). contradiction. Qed.

Lemma tok1_app : forall s t r, t <> GEnd -> tok1 expr_puncts false s t r -> tok1 expr_puncts false (s ++ x) t (r ++ x).
Proof.
  intros s t r N H. destruct H as [|p r Hl|q u v r Hq Hb|c u r Hc Hu Hn]; [contradiction| | |].
  - rewrite <- app_assoc. constructor. apply longest_app; [apply punct_some, Hl|exact Hl].
  - cbn [app]. rewrite <- app_assoc. cbn [app]. constructor; assumption.
  - cbn [app]. rewrite <- app_assoc. constructor; auto. apply next_app; [|exact Hn]. intros [K|[K|[K _]]]; [destruct K; lia|destruct K; lia|discriminate K].
Qed.
Lemma etok_app : forall s t r, t <> GEnd -> et s t r -> et (s ++ x) t (r ++ x).
Proof.
  intros s t r N H. destruct H as [w s t r Hw H|w ds r Hw Hd Hf Hn Hz|w ds fs r f Hw Hd Hf Hg Hn Hz|w ds fs ex r f Hw Hd Hf Hg He Hn Hz|]; [| | | |discriminate].
  - rewrite <- app_assoc. constructor; [exact Hw|]. apply tok1_app; assumption.
  - rewrite <- !app_assoc. apply ETokInt; auto. apply next_app; [unfold digit; lia|exact Hn].
  - rewrite <- (app_assoc w), <- (app_assoc (ds ++ _)). apply ETokReal; auto. apply next_app; [unfold digit; lia|exact Hn].
  - rewrite <- (app_assoc w), <- (app_assoc (ds ++ _)). apply ETokRealExp; auto. apply next_app; [unfold digit; lia|exact Hn].
Qed.
Lemma punct_app : forall s p r, punct tf false s p r -> punct tf false (s ++ x) p (r ++ x).
Proof. intros s p r H. apply etok_app; [discriminate|exact H]. Qed.
Lemma binary_app : forall s o k r, binary_op tf false s o k r -> binary_op tf false (s ++ x) o k (r ++ x).
Proof. intros s o k r H. destruct H; [eapply BinPunct; eauto|apply BinIn|apply BinNin]; apply etok_app; auto; discriminate. Qed.

Lemma grammar_app :
  (forall k s e r, g_expr tf re false k s e r -> g_expr tf re false k (s ++ x) e (r ++ x)) /\
  (forall s e r, g_unary tf re false s e r -> g_unary tf re false (s ++ x) e (r ++ x)) /\
  (forall s e r, g_postfix tf re false s e r -> g_postfix tf re false (s ++ x) e (r ++ x)) /\
  (forall s e r, g_atom tf re false s e r -> g_atom tf re false (s ++ x) e (r ++ x)) /\
  (forall c s l r, g_list tf re false c s l r -> g_list tf re false c (s ++ x) l (r ++ x)) /\
  (forall s l r, g_items tf re false s l r -> g_items tf re false (s ++ x) l (r ++ x)).
Proof.
  apply (g_expr_mutind tf re false
    (fun k s e r => g_expr tf re false k (s ++ x) e (r ++ x)) (fun s e r => g_unary tf re false (s ++ x) e (r ++ x))
    (fun s e r => g_postfix tf re false (s ++ x) e (r ++ x)) (fun s e r => g_atom tf re false (s ++ x) e (r ++ x))
    (fun c s l r => g_list tf re false c (s ++ x) l (r ++ x)) (fun s l r => g_items tf re false (s ++ x) l (r ++ x)));
    intros; try (econstructor; eauto using punct_app, binary_app; fail).
  - eapply GDot; eauto using punct_app. apply etok_app; [discriminate|assumption].
  - subst. eapply GRegexp; eauto using punct_app. rewrite <- app_assoc. reflexivity.
  - apply GNameAtom. apply etok_app; [discriminate|assumption].
  - apply GIntAtom. apply etok_app; [discriminate|assumption].
  - apply GRealAtom. apply etok_app; [discriminate|assumption].
  - apply GStrAtom. apply etok_app; [discriminate|assumption].
Qed.

(** what is left is the end of the text *)
Definition ends (s r : bytes) : Prop := exists p, s = p ++ r.
Lemma ends_refl : forall s, ends s s.
Proof. intro s. exists []. reflexivity. Qed.
Lemma ends_trans : forall a b c, ends a b -> ends b c -> ends a c.
Proof. intros a b c [p ->] [q ->]. exists (p ++ q). apply app_assoc. Qed.
Lemma ends_cut : forall a r, ends a (r ++ x) -> exists b, a = b ++ x.
Proof. intros a r [p ->]. exists (p ++ r). apply app_assoc. Qed.
Lemma ends_app : forall p a r, ends a r -> ends (p ++ a) r.
Proof. intros p a r [q ->]. exists (p ++ q). apply app_assoc. Qed.
Lemma ends_cons : forall c a r, ends a r -> ends (c :: a) r.
Proof. intros c a r H. apply (ends_app [c]). exact H. Qed.
Lemma etok_ends : forall s t r, et s t r -> ends s r.
Proof.
  intros s t r H. destruct H as [w s t r Hw H| | | |]; try discriminate; repeat apply ends_app; try apply ends_refl.
  destruct H; repeat first [apply ends_refl | apply ends_app | apply ends_cons].
Qed.
Lemma binary_ends : forall s o k r, binary_op tf false s o k r -> ends s r.
Proof. intros s o k r H. destruct H; eauto using etok_ends. Qed.
Lemma punct_ends : forall s p r, punct tf false s p r -> ends s r.
Proof. intros s p r H. eapply etok_ends. exact H. Qed.
Lemma re_ends : forall t r, ends (t ++ 47 :: r) r.
Proof. intros t r. apply ends_app, ends_cons, ends_refl. Qed.
Lemma grammar_ends :
  (forall k s e r, g_expr tf re false k s e r -> ends s r) /\ (forall s e r, g_unary tf re false s e r -> ends s r) /\
  (forall s e r, g_postfix tf re false s e r -> ends s r) /\ (forall s e r, g_atom tf re false s e r -> ends s r) /\
  (forall c s l r, g_list tf re false c s l r -> ends s r) /\ (forall s l r, g_items tf re false s l r -> ends s r).
Proof.
  apply (g_expr_mutind tf re false (fun k s e r => ends s r) (fun s e r => ends s r) (fun s e r => ends s r) (fun s e r => ends s r)
    (fun c s l r => ends s r) (fun s l r => ends s r)); intros; subst;
    eauto 6 using ends_trans, punct_ends, binary_ends, etok_ends, re_ends.
Qed.

(** the other way *)
Lemma tok1_cut : forall s t r, t <> GEnd -> tok1 expr_puncts false (s ++ x) t (r ++ x) -> tok1 expr_puncts false s t r.
Proof.
  intros s t r N H. inversion H as [E0 E1|p r0 Hl E0 E1 E2|q u v r0 Hq Hb E0 E1 E2|c u r0 Hc Hu Hn E0 E1 E2]; subst; [contradiction| | |].
  - rewrite app_assoc in E0. apply app_inv_tail in E0. subst s. constructor. eapply longest_cut. exact Hl.
  - change (q :: u ++ q :: r ++ x) with ((q :: u) ++ (q :: r) ++ x) in E0. rewrite app_assoc in E0. apply app_inv_tail in E0. subst s. cbn [app]. constructor; assumption.
  - change (c :: u ++ r ++ x) with ((c :: u) ++ r ++ x) in E0. rewrite app_assoc in E0. apply app_inv_tail in E0. subst s. cbn [app]. constructor; auto. eapply next_cut. exact Hn.
Qed.
Lemma etok_cut : forall s t r, t <> GEnd -> et (s ++ x) t (r ++ x) -> et s t r.
Proof.
  intros s t r N H. inversion H as [w s0 t0 r0 Hw H0 E0 E1 E2|w ds r0 Hw Hd Hf Hn Hz E0 E1 E2|w ds fs r0 f Hw Hd Hf Hg Hn Hz E0 E1 E2|w ds fs ex r0 f Hw Hd Hf Hg He Hn Hz E0 E1 E2|]; subst; [| | | |discriminate].
  - assert (Es : exists s1, s0 = s1 ++ x).
    { apply ends_cut with (r := r). apply etok_ends with (t := t). apply (ETok1 tf false []); [constructor|exact H0]. }
    destruct Es as [s1 ->]. rewrite app_assoc in E0. apply app_inv_tail in E0. subst s. constructor; [exact Hw|]. apply tok1_cut; assumption.
  - rewrite !app_assoc in E0. apply app_inv_tail in E0. subst s. rewrite <- app_assoc. apply ETokInt; auto. eapply next_cut. exact Hn.
  - rewrite (app_assoc _ r), (app_assoc w) in E0. apply app_inv_tail in E0. subst s. apply ETokReal; auto. eapply next_cut. exact Hn.
  - rewrite (app_assoc _ r), (app_assoc w) in E0. apply app_inv_tail in E0. subst s. apply ETokRealExp; auto. eapply next_cut. exact Hn.
Qed.
Lemma punct_cut : forall s p r, punct tf false (s ++ x) p (r ++ x) -> punct tf false s p r.
Proof. intros s p r H. apply etok_cut; [discriminate|exact H]. Qed.
Lemma binary_cut : forall s o k r, binary_op tf false (s ++ x) o k (r ++ x) -> binary_op tf false s o k r.
Proof. intros s o k r H. inversion H; subst; [eapply BinPunct; eauto|apply BinIn|apply BinNin]; apply etok_cut; auto; discriminate. Qed.
Ltac split_at H := let b := fresh "b" in let E := fresh "E" in apply ends_cut in H as [b E]; subst.
Lemma grammar_cut :
  (forall k s e r, g_expr tf re false k s e r -> forall a b, s = a ++ x -> r = b ++ x -> g_expr tf re false k a e b) /\
  (forall s e r, g_unary tf re false s e r -> forall a b, s = a ++ x -> r = b ++ x -> g_unary tf re false a e b) /\
  (forall s e r, g_postfix tf re false s e r -> forall a b, s = a ++ x -> r = b ++ x -> g_postfix tf re false a e b) /\
  (forall s e r, g_atom tf re false s e r -> forall a b, s = a ++ x -> r = b ++ x -> g_atom tf re false a e b) /\
  (forall c s l r, g_list tf re false c s l r -> forall a b, s = a ++ x -> r = b ++ x -> g_list tf re false c a l b) /\
  (forall s l r, g_items tf re false s l r -> forall a b, s = a ++ x -> r = b ++ x -> g_items tf re false a l b).
Proof.
  destruct grammar_ends as (En1 & En2 & En3 & En4 & En5 & En6).
  apply (g_expr_mutind tf re false
    (fun k s e r => forall a b, s = a ++ x -> r = b ++ x -> g_expr tf re false k a e b) (fun s e r => forall a b, s = a ++ x -> r = b ++ x -> g_unary tf re false a e b)
    (fun s e r => forall a b, s = a ++ x -> r = b ++ x -> g_postfix tf re false a e b) (fun s e r => forall a b, s = a ++ x -> r = b ++ x -> g_atom tf re false a e b)
    (fun c s l r => forall a b, s = a ++ x -> r = b ++ x -> g_list tf re false c a l b) (fun s l r => forall a b, s = a ++ x -> r = b ++ x -> g_items tf re false a l b)).
  - intros k s e r Hk _ IH a b -> ->. apply GUp; auto.
  - intros k s a m o m' b r H1 IH1 Hb H2 IH2 u v -> ->. pose proof (En1 _ _ _ _ H2) as K. split_at K. pose proof (binary_ends _ _ _ _ Hb) as K. split_at K.
    eapply GBin; eauto using binary_cut.
  - intros s e r _ IH a b -> ->. apply GUnary; auto.
  - intros s m e r Hp H IH a b -> ->. pose proof (En2 _ _ _ H) as K. split_at K. eapply GNeg; eauto using punct_cut.
  - intros s m e r Hp H IH a b -> ->. pose proof (En2 _ _ _ H) as K. split_at K. eapply GNot; eauto using punct_cut.
  - intros s e r _ IH a b -> ->. apply GPost; auto.
  - intros s e r _ IH a b -> ->. apply GAtom; auto.
  - intros s f m m' l r H1 IH1 Hp H2 IH2 a b -> ->. pose proof (En5 _ _ _ _ H2) as K. split_at K. pose proof (punct_ends _ _ _ Hp) as K. split_at K.
    eapply GCall; eauto using punct_cut.
  - intros s f m m' e m2 r H1 IH1 Hp H2 IH2 Hq a b -> ->. pose proof (punct_ends _ _ _ Hq) as K. split_at K. pose proof (En1 _ _ _ _ H2) as K. split_at K.
    pose proof (punct_ends _ _ _ Hp) as K. split_at K. eapply GIndex; eauto using punct_cut.
  - intros s f m m' n r H1 IH1 Hp Ht a b -> ->. pose proof (etok_ends _ _ _ Ht) as K. split_at K. pose proof (punct_ends _ _ _ Hp) as K. split_at K.
    eapply GDot; eauto using punct_cut. apply etok_cut; [discriminate|assumption].
  - intros s m t v r Hp -> Hb Hv a b -> ->. change (t ++ 47 :: b ++ x) with (t ++ (47 :: b) ++ x) in Hp. rewrite app_assoc in Hp.
    eapply GRegexp; eauto using punct_cut.
  - intros s r Hp a b -> ->. apply GCurrent; eauto using punct_cut.
  - intros s r Hp a b -> ->. apply GRoot; eauto using punct_cut.
  - intros s m e m' r Hp H IH Hq a b -> ->. pose proof (punct_ends _ _ _ Hq) as K. split_at K. pose proof (En1 _ _ _ _ H) as K. split_at K.
    eapply GParen; eauto using punct_cut.
  - intros s m l r Hp H IH a b -> ->. pose proof (En5 _ _ _ _ H) as K. split_at K. eapply GArray; eauto using punct_cut.
  - intros s n r Ht a b -> ->. apply GNameAtom. apply etok_cut; [discriminate|assumption].
  - intros s n r Ht a b -> ->. apply GIntAtom. apply etok_cut; [discriminate|assumption].
  - intros s n r Ht a b -> ->. apply GRealAtom. apply etok_cut; [discriminate|assumption].
  - intros s n r Ht a b -> ->. apply GStrAtom. apply etok_cut; [discriminate|assumption].
  - intros c s r Hp a b -> ->. apply GListNil; eauto using punct_cut.
  - intros c s l m r H IH Hp a b -> ->. pose proof (punct_ends _ _ _ Hp) as K. split_at K. eapply GListCons; eauto using punct_cut.
  - intros s e r _ IH a b -> ->. apply GItemsOne; auto.
  - intros s e m m' l r H IH Hp H2 IH2 a b -> ->. pose proof (En6 _ _ _ H2) as K. split_at K. pose proof (punct_ends _ _ _ Hp) as K. split_at K.
    eapply GItemsMore; eauto using punct_cut.
Qed.

(** spaces at the end *)
Lemma end_spaces : forall s r, et s GEnd r -> Forall space s /\ r = [].
Proof.
  intros s r H. inversion H as [w s0 t r0 Hw H0| | | |]; subst; try discriminate. inversion H0; subst. rewrite app_nil_r. auto.
Qed.
Lemma spaces_end : forall s, Forall space s -> et s GEnd [].
Proof. intros s H. rewrite <- (app_nil_r s). constructor; [exact H|constructor]. Qed.
Lemma path_end : forall s r, pt s GEnd r -> Forall space s /\ r = [].
Proof.
  intros s r H. inversion H as [w s0 t r0 Hw H0| | |]; subst; try discriminate. inversion H0; subst. rewrite app_nil_r. auto.
Qed.
(** the expression, then the closing parenthesis *)
Lemma script_then : forall s e, g_script tf re false s e -> exists m, g_expr tf re false 0 (s ++ x) e m /\ ppunct false m ")" y.
Proof.
  intros s e (r & He & Hr). exists (r ++ x). split; [apply grammar_app; exact He|]. apply end_spaces in Hr as [Hr _].
  constructor; [exact Hr|]. apply (TokPunct _ _ (b_of ")") y). split; [vm_compute; auto 15|].
  intros p' Hp [t E]. vm_compute in Hp. repeat (destruct Hp as [<-|Hp]; [try discriminate E; cbn; lia|]). contradiction.
Qed.
Lemma then_script : forall s e w, Forall space w -> g_expr tf re false 0 (s ++ w ++ x) e (w ++ x) -> g_script tf re false (s ++ w) e.
Proof.
  intros s e w Hw H. exists w. split; [|apply spaces_end; exact Hw]. destruct grammar_cut as (K & _). eapply K; [exact H| |reflexivity]. apply app_assoc.
Qed.
End embed.

Lemma tail_space : forall (u w v : bytes) c, Forall space w -> ~ space c -> u ++ w = v ++ [c] -> w = [].
Proof.
  intros u w v c Hw Hc E. induction w as [|d w _] using rev_ind; [reflexivity|]. rewrite app_assoc in E. apply app_inj_tail in E as [_ ->].
  apply Forall_app in Hw as [_ Hw]. apply Forall_inv in Hw. contradiction.
Qed.
Lemma ppunct_inv : forall s p r, ppunct false s p r -> exists w, Forall space w /\ s = w ++ b_of p ++ r.
Proof. intros s p r H. inversion H as [w s0 t r0 Hw H0| | |]; subst. inversion H0; subst. eauto. Qed.

Lemma lex_punct : forall p r, longest path_puncts (b_of p) (b_of p ++ r) -> ppunct false (b_of p ++ r) p r.
Proof. intros p r H. exact (PTok1 false [] (b_of p ++ r) (GPunct (b_of p)) r (Forall_nil _) (TokPunct path_puncts true (b_of p) r H)). Qed.
Ltac lex := apply lex_punct; split; [vm_compute; auto 15|];
  intros p' Hp [t E]; vm_compute in Hp; repeat (destruct Hp as [<-|Hp]; [try discriminate E; cbn; lia|]); contradiction.
Lemma lex_root : forall r, ppunct false (b_of "$" ++ r) "$" r. Proof. intro r. lex. Qed.
Lemma lex_open : forall r, ppunct false (b_of "[" ++ r) "[" r. Proof. intro r. lex. Qed.
Lemma lex_close : forall r, ppunct false (b_of "]" ++ r) "]" r. Proof. intro r. lex. Qed.
Lemma lex_filter : forall r, ppunct false (b_of "?(" ++ r) "?(" r. Proof. intro r. lex. Qed.
Lemma lex_paren : forall r, ppunct false (b_of "(" ++ r) "(" r. Proof. intro r. lex. Qed.
Lemma lex_dot : forall r, ppunct false (b_of "." ++ b_of "(" ++ r) "." (b_of "(" ++ r). Proof. intro r. lex. Qed.

Section paths.
Variable TX : textoracles.
Notation tf := (o_parse_float TX).
Notation re := (o_re_ok TX).
Lemma det : forall s p r t r', ppunct false s p r -> ptok false s t r' -> t = GPunct (b_of p) /\ r' = r.
Proof. intros s p r t r' H H'. destruct (ptok_det TX false _ _ _ _ _ H H') as [<- <-]. auto. Qed.

Lemma script_path : forall s e u st, framed s e u st -> g_script tf re false s e -> g_path tf re false u [st].
Proof.
  intros s e u st F H. destruct F.
  - destruct (script_then TX (b_of "]") s e H) as (m & He & Hm). exists (b_of "[?(" ++ s ++ b_of ")]"). split; [apply lex_root|].
    econstructor; [eapply GStepSub with (m := b_of "?(" ++ s ++ b_of ")]") (m' := b_of "]") (r := []);
      [apply lex_open|eapply GSubFilter; [apply lex_filter|exact He|exact Hm]|apply (lex_close [])]|].
    constructor. apply (PTok1 false [] []); constructor.
  - destruct (script_then TX (b_of "]") s e H) as (m & He & Hm). exists (b_of "[(" ++ s ++ b_of ")]"). split; [apply lex_root|].
    econstructor; [eapply GStepSub with (m := b_of "(" ++ s ++ b_of ")]") (m' := b_of "]") (r := []);
      [apply lex_open|apply GSubExpr; eapply GPar; [apply lex_paren|exact He|exact Hm]|apply (lex_close [])]|].
    constructor. apply (PTok1 false [] []); constructor.
  - destruct (script_then TX [] s e H) as (m & He & Hm). exists (b_of ".(" ++ s ++ b_of ")"). split; [apply lex_root|].
    econstructor; [eapply GStepMember with (r := []); [apply lex_dot|apply GMemExpr; eapply GPar; [apply lex_paren|exact He|exact Hm]]|].
    constructor. apply (PTok1 false [] []); constructor.
Qed.

Lemma not_space : forall c, 33 <= c -> ~ space c.
Proof. intros c H [K|K]; lia. Qed.
Lemma close_bracket : forall s e m' r r2, g_expr tf re false 0 (s ++ b_of ")]") e m' -> ppunct false m' ")" r -> ppunct false r "]" r2 -> ptok false r2 GEnd [] ->
  g_script tf re false s e.
Proof.
  intros s e m' r r2 He H1 H2 H3. apply ppunct_inv in H1 as (w & Hw & ->). apply ppunct_inv in H2 as (w2 & Hw2 & ->). apply path_end in H3 as [Hw3 _].
  destruct (grammar_ends TX) as (En & _). destruct (En _ _ _ _ He) as [p E]. cbn [b_of app] in E.
  change (b_of ")") with [41] in *. change (b_of "]") with [93] in *. change (b_of ")]") with [41; 93] in *. cbn [app] in E.
  assert (N : r2 = []).
  { apply (tail_space (p ++ w ++ 41 :: w2 ++ [93]) r2 (s ++ [41]) 93); [exact Hw3|apply not_space; lia|].
    rewrite <- !app_assoc. cbn [app]. rewrite <- !app_assoc. cbn [app]. symmetry. exact E. }
  subst r2. replace (s ++ [41; 93]) with ((s ++ [41]) ++ [93]) in E by (rewrite <- app_assoc; reflexivity).
  replace (p ++ w ++ 41 :: w2 ++ [93]) with ((p ++ w ++ 41 :: w2) ++ [93]) in E by (rewrite <- !app_assoc; cbn [app]; reflexivity).
  apply app_inj_tail in E as [E _].
  assert (N : w2 = []).
  { apply (tail_space (p ++ w ++ [41]) w2 s 41); [exact Hw2|apply not_space; lia|]. rewrite <- !app_assoc. cbn [app]. symmetry. exact E. }
  subst w2. rewrite app_assoc in E. apply app_inj_tail in E as [-> _]. apply (then_script TX [93]); [exact Hw|]. rewrite <- app_assoc in He. exact He.
Qed.
Lemma close_member : forall s e m' r, g_expr tf re false 0 (s ++ b_of ")") e m' -> ppunct false m' ")" r -> ptok false r GEnd [] -> g_script tf re false s e.
Proof.
  intros s e m' r He H1 H3. apply ppunct_inv in H1 as (w & Hw & ->). apply path_end in H3 as [Hw3 _].
  destruct (grammar_ends TX) as (En & _). destruct (En _ _ _ _ He) as [p E]. change (b_of ")") with [41] in *. cbn [app] in E.
  assert (N : r = []).
  { apply (tail_space (p ++ w ++ [41]) r s 41); [exact Hw3|apply not_space; lia|]. rewrite <- !app_assoc. cbn [app]. symmetry. exact E. }
  subst r. rewrite app_assoc in E. apply app_inj_tail in E as [-> _]. apply (then_script TX []); [exact Hw|]. rewrite <- app_assoc in He. exact He.
Qed.
Lemma path_script : forall s e u st, framed s e u st -> g_path tf re false u [st] -> g_script tf re false s e.
Proof.
  intros s e u st F (m & H1 & H2). destruct F.
  - pose proof (lex_root (b_of "[?(" ++ s ++ b_of ")]")) as L. destruct (det _ _ _ _ _ L H1) as [_ ->].
    inversion H2 as [|? ? m1 ? Hs He]; subst. inversion He as [? Hend|]; subst.
    pose proof (lex_open (b_of "?(" ++ s ++ b_of ")]")) as L2. pose proof (lex_filter (s ++ b_of ")]")) as L3.
    inversion Hs as [? m2 ? ? P2 G|? m2 ? m3 ? P2 G P3|? m2 ? ? P2 G|? m2 m4 ? m3 ? P2 P4 G P3]; subst; destruct (det _ _ _ _ _ L2 P2) as [E2 ->]; try discriminate E2.
    inversion G as [|? m5 ? m6 ? P5 Ge P6| | |]; subst. destruct (det _ _ _ _ _ L3 P5) as [_ ->]. eapply close_bracket; eauto.
  - pose proof (lex_root (b_of "[(" ++ s ++ b_of ")]")) as L. destruct (det _ _ _ _ _ L H1) as [_ ->].
    inversion H2 as [|? ? m1 ? Hs He]; subst. inversion He as [? Hend|]; subst.
    pose proof (lex_open (b_of "(" ++ s ++ b_of ")]")) as L2. pose proof (lex_paren (s ++ b_of ")]")) as L3.
    inversion Hs as [? m2 ? ? P2 G|? m2 ? m3 ? P2 G P3|? m2 ? ? P2 G|? m2 m4 ? m3 ? P2 P4 G P3]; subst; destruct (det _ _ _ _ _ L2 P2) as [E2 ->]; try discriminate E2.
    inversion G as [| |? ? ? Gp|? ? ? Gp|]; subst; [|inversion Gp]. inversion Gp as [? m5 ? m6 ? P5 Ge P6]; subst. destruct (det _ _ _ _ _ L3 P5) as [_ ->]. eapply close_bracket; eauto.
  - pose proof (lex_root (b_of ".(" ++ s ++ b_of ")")) as L. destruct (det _ _ _ _ _ L H1) as [_ ->].
    inversion H2 as [|? ? m1 ? Hs He]; subst. inversion He as [? Hend|]; subst.
    pose proof (lex_dot (s ++ b_of ")")) as L2. pose proof (lex_paren (s ++ b_of ")")) as L3.
    inversion Hs as [? m2 ? ? P2 G|? m2 ? m3 ? P2 G P3|? m2 ? ? P2 G|? m2 m4 ? m3 ? P2 P4 G P3]; subst; destruct (det _ _ _ _ _ L2 P2) as [E2 ->]; try discriminate E2.
    inversion G as [| | |? ? ? Gp]; subst. inversion Gp as [? m5 ? m6 ? P5 Ge P6]; subst. destruct (det _ _ _ _ _ L3 P5) as [_ ->]. eapply close_member; eauto.
Qed.

Lemma framed_bytes : forall s e u st, framed s e u st -> is_bytes s -> is_bytes u.
Proof.
  intros s e u st F H. destruct F; repeat (apply Forall_app; split); try exact H; apply Forall_forall; intros c Hc; vm_compute in Hc;
    repeat (destruct Hc as [<-|Hc]; [split; lia|]); contradiction.
Qed.
Lemma embed_from : forall s e u st, is_bytes s -> framed s e u st -> ParsePath TX u = OK [st] -> ParseScriptExpression TX s = OK e.
Proof.
  intros s e u st Hs F H. apply (path_exact TX u (framed_bytes _ _ _ _ F Hs)) in H. apply script_documented_sound; [exact Hs|]. eapply path_script; eauto.
Qed.
Lemma embed_to : forall s e u st, is_bytes s -> ~ ends_in_escaped_quote s -> framed s e u st -> ParseScriptExpression TX s = OK e -> ParsePath TX u = OK [st].
Proof.
  intros s e u st Hs Hq F H. apply (path_exact TX u (framed_bytes _ _ _ _ F Hs)). eapply script_path; [exact F|]. apply (script_documented TX s Hs Hq). exact H.
Qed.
End paths.

Lemma embed_refuted : exists s e, is_bytes s /\ forall TX, ParseScriptExpression TX s = OK e /\
  forall u st, framed s e u st -> exists err, ParsePath TX u = Fail err.
Proof.
  exists (b_of "'\'"), (EStr (b_of "'")). split.
  - apply Forall_forall. intros c Hc. vm_compute in Hc. repeat (destruct Hc as [<-|Hc]; [split; lia|]). contradiction.
  - intro TX. split; [vm_compute; reflexivity|]. intros u st F. destruct F; eexists; vm_compute; reflexivity.
Qed.
