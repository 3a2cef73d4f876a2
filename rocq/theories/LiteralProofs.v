(** Values of literals in whole texts. *)
From Verif Require Import Base Syntax SpecGrammar SpecSyntax SpecTokens SpecPrint Lexer Parser LexProofs LexProofs2 LexProofs3
  LexProofs4 ParserProofs ParserSound ParserComplete ParserPath GrammarProofs PrintProofs WritableProofs TokenProofs.
Local Open Scope Z_scope.

(** ** Escapes *)
Lemma utf8_surrogate : forall r, surrogate r = true -> utf8_encode r = replacement.
Proof.
  intros r H. unfold surrogate, high_surrogate, low_surrogate in H. unfold utf8_encode, replacement.
  assert (K : 55296 <= r <= 57343).
  { apply orb_true_iff in H as [H|H]; apply andb_true_iff in H as [H1 H2]; apply Z.leb_le in H1, H2; lia. }
  destruct (Z.ltb_spec r 0); [lia|]. destruct (Z.ltb_spec 1114111 r); [lia|].
  destruct (Z.leb_spec 55296 r); [|lia]. destruct (Z.leb_spec r 57343); [|lia]. reflexivity.
Qed.

Lemma low_is : forall r, low_surrogate r = true -> surrogate r = true.
Proof. intros r H. unfold surrogate. rewrite H. apply orb_true_r. Qed.
Lemma high_is : forall r, high_surrogate r = true -> surrogate r = true.
Proof. intros r H. unfold surrogate. rewrite H. reflexivity. Qed.
Lemma low_not_high : forall r, low_surrogate r = true -> high_surrogate r = false.
Proof.
  intros r H. unfold low_surrogate, high_surrogate in *. apply andb_true_iff in H as [H1 H2].
  apply Z.leb_le in H1, H2. destruct (Z.leb_spec r 56319); [lia|]. apply andb_false_r.
Qed.

(** a lone surrogate, seen by the two rules *)
Lemma json_lone : forall r rs, high_surrogate r && low_next rs = false ->
  json_run (Some r) rs = replacement ++ json_run None rs.
Proof.
  intros r [|x rs] H; cbn [json_run]; [rewrite app_nil_r; reflexivity|]. simpl in H. rewrite H. reflexivity.
Qed.

Lemma lone_skip : forall r rs, high_surrogate r && low_next rs = false ->
  lone_before_pair (Some r) rs = false -> lone_before_pair None rs = false.
Proof.
  intros r [|x rs] H K; [reflexivity|]. cbn [lone_before_pair] in *. simpl in H. rewrite H in K.
  apply orb_false_iff in K as [_ K]. assumption.
Qed.

Lemma run_json : forall n rs, (length rs <= n)%nat ->
  (lone_before_pair None rs = false -> run_value None rs = json_run None rs) /\
  (forall h, lone_before_pair (Some h) rs = false -> run_value (Some h) rs = json_run (Some h) rs).
Proof.
  induction n as [|n IH]; intros rs Hn; (destruct rs as [|r rs]; [split; reflexivity|]); [simpl in Hn; lia|].
  simpl in Hn. destruct (IH rs) as [A B]; [lia|]. split; [|intro h]; cbn [lone_before_pair run_value json_run]; intro H.
  - destruct (surrogate r); [apply B; assumption|f_equal; apply A; assumption].
  - destruct (high_surrogate h && low_surrogate r) eqn:E; [f_equal; apply A; assumption|].
    apply orb_false_iff in H as [H1 H2]. f_equal. destruct (surrogate r) eqn:Er.
    + rewrite (utf8_surrogate _ Er), json_lone by assumption. f_equal. apply A. eapply lone_skip; eauto.
    + f_equal. apply A. assumption.
Qed.

Lemma json_str : forall q t v, json_body (fun rs => lone_before_pair None rs = false) q t v -> str_body q t v.
Proof.
  intros q t v H. induction H as [|c t v N1 N2 N3 H IH|u rs t v Hu HP Hn H IH].
  - constructor.
  - constructor; assumption.
  - destruct (run_json (length rs) rs) as [E _]; [lia|]. rewrite <- (E HP). apply StrEsc; assumption.
Qed.

Lemma esc_run_ne : forall q u rs, esc_run q u rs -> u <> [].
Proof. intros q u rs []; discriminate. Qed.
Lemma str_body_nil : forall q v, str_body q [] v -> v = [].
Proof.
  intros q v H. inversion H as [| |u rs t v' Hu Hn H' E]; [reflexivity|].
  apply app_eq_nil in E as [-> _]. apply esc_run_ne in Hu. congruence.
Qed.

Lemma run_value_mid : forall rs r rs' p, surrogate r = false ->
  run_value p (rs ++ r :: rs') = run_value p rs ++ utf8_encode r ++ run_value None rs'.
Proof.
  induction rs as [|x rs IH]; intros r rs' p Hr.
  - cbn [app run_value]. destruct p as [h|]; [|rewrite Hr; reflexivity].
    assert (E : low_surrogate r = false) by (unfold surrogate in Hr; apply orb_false_iff in Hr; tauto).
    rewrite E, andb_false_r. reflexivity.
  - cbn [app run_value]. destruct p as [h|].
    + destruct (_ && _)%bool; rewrite IH by assumption; rewrite <- !app_assoc; reflexivity.
    + destruct (surrogate x); rewrite IH by assumption; rewrite <- ?app_assoc; reflexivity.
Qed.

Lemma esc_run_app : forall q u rs u' rs', esc_run q u rs -> esc_run q u' rs' -> esc_run q (u ++ u') (rs ++ rs').
Proof.
  intros q u rs u' rs' H H'. induction H as [t r Hi|t r u rs Hi Hu IH]; cbn [app].
  - apply RunMore; assumption.
  - rewrite <- app_assoc. apply RunMore; assumption.
Qed.

(** an escape that is not a surrogate, between any two texts *)
Lemma str_escape_mid : forall q x r, esc_item q x r -> surrogate r = false ->
  forall t1 v1, str_body q t1 v1 -> forall t2 v2, str_body q t2 v2 ->
  str_body q (t1 ++ 92 :: x ++ t2) (v1 ++ utf8_encode r ++ v2).
Proof.
  intros q x r Hx Hr t1 v1 H1. induction H1 as [|c t v N1 N2 N3 H IH|u rs t v Hu Hn H IH]; intros t2 v2 H2.
  - cbn [app]. apply str_body_escape; assumption.
  - cbn [app]. constructor; auto.
  - rewrite <- !app_assoc. destruct t as [|c t].
    + apply str_body_nil in H. subst v. cbn [app].
      assert (K : exists u' rs' t3 v3, esc_run q u' (r :: rs') /\ 92 :: x ++ t2 = u' ++ t3 /\
                   not_next (eq 92) t3 /\ str_body q t3 v3 /\ v2 = run_value None rs' ++ v3).
      { destruct H2 as [|c t v N1 N2 N3 H|u2 rs2 t v Hu2 Hn2 H].
        - exists (92 :: x), [], [], []. repeat split; auto; try constructor; assumption.
        - exists (92 :: x), [], (c :: t), (c :: v). repeat split; [constructor; assumption|simpl; congruence|constructor; assumption].
        - exists (92 :: x ++ u2), rs2, t, v. repeat split; auto; [constructor; assumption|].
          cbn [app]. rewrite <- app_assoc. reflexivity. }
      destruct K as (u' & rs' & t3 & v3 & K1 & K2 & K3 & K4 & ->). rewrite K2, app_assoc.
      pose proof (StrEsc q (u ++ u') (rs ++ r :: rs') t3 v3 (esc_run_app _ _ _ _ _ Hu K1) K3 K4) as K.
      rewrite run_value_mid in K by assumption. rewrite <- !app_assoc in *. exact K.
    + apply StrEsc; auto.
Qed.

(** ** Literals as whole texts *)
Section texts.
Variable TX : textoracles.
Notation tf := (o_parse_float TX).
Notation re := (o_re_ok TX).

Lemma ptok_char : forall c r, In [c] path_puncts -> ~ In c [46; 63] -> ptok true (c :: r) (GPunct [c]) r.
Proof.
  intros c r Hin Hc. apply (PTok1 _ [] (c :: r)); [constructor|]. apply punct1; auto.
  - apply short_path.
  - intros y Hy. exfalso. apply Hc. simpl in Hy |- *. 
    repeat (destruct Hy as [Hy|Hy]; [first [discriminate Hy|injection Hy as <- _; tauto]|]). destruct Hy.
Qed.

Lemma end_tok : ptok true [] GEnd [].
Proof. apply (PTok1 _ [] []); constructor. Qed.
Lemma eend_tok : etok tf true [] GEnd [].
Proof. apply (ETok1 _ _ [] []); constructor. Qed.

(** a text of the form $[...] holding one element *)
Lemma one_elem_text : forall x v, g_elem tf re true (x ++ [93]) v [93] ->
  g_path tf re true (36 :: 91 :: x ++ [93]) [mkStep OpSelect [v]].
Proof.
  intros x v H. exists (91 :: x ++ [93]). split.
  - apply ptok_char; [simpl; tauto|simpl; lia].
  - econstructor; [|constructor; apply end_tok].
    eapply GStepSub; [apply ptok_char; [simpl; tauto|simpl; lia]| |apply ptok_char; [simpl; tauto|simpl; lia]].
    apply GSubOne. exact H.
Qed.

Lemma elem_text_ok : forall x v, nonneg x -> g_elem tf re true (x ++ [93]) v [93] ->
  ParsePath TX (36 :: 91 :: x ++ [93]) = OK [mkStep OpSelect [v]].
Proof.
  intros x v Hn H. apply path_complete; [|apply one_elem_text; assumption].
  repeat (constructor; [lia|]). apply Forall_app. split; [assumption|]. constructor; [lia|constructor].
Qed.

Lemma str_text : forall q t v, nonneg t -> q = 34 \/ q = 39 -> str_body q t v ->
  ParsePath TX (36 :: 91 :: (q :: t ++ [q]) ++ [93]) = OK [mkStep OpSelect [PStr v]] /\
  ParseScriptExpression TX (q :: t ++ [q]) = OK (EStr v).
Proof.
  intros q t v Hn Hq H.
  assert (Hnq : nonneg (q :: t ++ [q])).
  { constructor; [lia|]. apply Forall_app. split; [assumption|]. constructor; [lia|constructor]. }
  split.
  - apply elem_text_ok; [assumption|]. apply GElStr. cbn [app]. rewrite <- app_assoc. cbn [app].
    apply (PTok1 _ [] (q :: t ++ q :: [93])); [constructor|]. apply TokStr; assumption.
  - apply script_complete_all; [assumption|]. exists []. split; [|apply eend_tok].
    apply atom_expr; [|lia]. apply GStrAtom.
    apply (ETok1 _ _ [] (q :: t ++ q :: [])); [constructor|]. apply TokStr; assumption.
Qed.

(** keys *)
Lemma print_body_nonneg : forall q s, 0 <= q -> is_bytes s -> nonneg (print_body q s).
Proof.
  intros q s Hq H. induction H as [|c s Hc H IH]; [constructor|]. cbn [print_body flat_map]. apply Forall_app. split; [|exact IH].
  unfold print_byte. destruct (_ || _)%bool; [repeat constructor; lia|]. destruct (Z.ltb_spec c 32).
  - pose proof (hex_char_ok (c / 16)) as A. pose proof (hex_char_ok (c mod 16)) as B.
    destruct A as [A _]; [split; [apply Z.div_pos; lia|apply Z.div_lt_upper_bound; lia]|].
    destruct B as [B _]; [apply Z.mod_pos_bound; lia|].
    unfold hexdigit in *. repeat (constructor; [lia|]). constructor.
  - repeat constructor; lia.
Qed.

Lemma key_text : forall q k, q = 34 \/ q = 39 -> is_bytes k ->
  ParsePath TX (36 :: 91 :: print_str q k ++ [93]) = OK [mkStep OpSelect [PStr k]].
Proof.
  intros q k Hq Hk. unfold print_str. apply str_text; auto.
  - apply print_body_nonneg; auto. lia.
  - apply print_body_ok; auto.
Qed.

(** integers *)
Lemma nonneg_digits : forall ds, Forall digit ds -> nonneg ds.
Proof. intros ds H. eapply Forall_impl; [|exact H]. unfold digit. intros; lia. Qed.
Lemma nonneg_space : forall ds, Forall space ds -> nonneg ds.
Proof. intros ds H. eapply Forall_impl; [|exact H]. unfold space. intros; lia. Qed.

Lemma nn_bracket : not_next digit [93].
Proof. simpl. unfold digit. lia. Qed.

Lemma int_text : forall ds, ds <> [] -> Forall digit ds -> dec_val ds < 2 ^ 63 ->
  ParsePath TX (36 :: 91 :: ds ++ [93]) = OK [mkStep OpSelect [PInt (dec_val ds)]] /\
  ParseScriptExpression TX ds = OK (EInt (dec_val ds)).
Proof.
  intros ds H1 H2 H3. split.
  - apply elem_text_ok; [apply nonneg_digits; assumption|]. apply GElInt.
    apply (PTokInt _ []); auto using nn_bracket.
  - apply script_complete_all; [apply nonneg_digits; assumption|]. exists []. split; [|apply eend_tok].
    apply atom_expr; [|lia]. apply GIntAtom. 
    pose proof (ETokInt tf true [] ds [] (Forall_nil _) H1 H2 I H3) as K. cbn [app] in K. rewrite app_nil_r in K. exact K.
Qed.

Lemma neg_text : forall w ds, Forall space w -> ds <> [] -> Forall digit ds -> dec_val ds < 2 ^ 63 - 1 ->
  ParsePath TX (36 :: 91 :: (45 :: w ++ ds) ++ [93]) = OK [mkStep OpSelect [PInt (- dec_val ds)]].
Proof.
  intros w ds H0 H1 H2 H3. apply elem_text_ok.
  - constructor; [lia|]. apply Forall_app. split; [apply nonneg_space; assumption|apply nonneg_digits; assumption].
  - apply GElInt. cbn [app]. rewrite <- app_assoc. apply (PTokNeg _ []); auto using nn_bracket.
Qed.

Lemma ds_not_space : forall w ds r, ds <> [] -> Forall digit ds -> ~ Forall space (w ++ ds ++ r).
Proof.
  intros w [|d ds] r H1 H2 K; [congruence|]. apply Forall_app in K as [_ K]. inversion K; inversion H2; subst.
  eapply digit_not_space; eauto.
Qed.

Lemma big_stuck : forall lax m s, big_int m s -> stuck TX lax m s /\ ~ Forall space s.
Proof.
  intros lax m s (w & ds & r & Hw & H1 & H2 & K). destruct m as [|d b].
  - destruct K as [(-> & Hr & Hv)|(w' & Hw' & -> & Hr & Hv)].
    + split; [|apply ds_not_space; assumption]. intros m1 r1 K. inversion K; subst.
      eapply ptok_int_big; eauto.
    + split.
      * intros m1 r1 K. inversion K; subst. eapply ptok_neg_big; [| | | | | |eassumption]; eauto.
      * intro K. apply Forall_app in K as [_ K]. inversion K; subst. unfold space in *. lia.
  - destruct K as (-> & Hr & Hv). split; [|apply ds_not_space; assumption].
    intros m1 r1 K. inversion K; subst; eapply etok_int_big; eauto.
Qed.

Lemma path_big : forall lax s m r, nonneg s -> toks tf lax InPath s m r -> big_int m r ->
  exists e, ParsePath TX s = Fail e.
Proof. intros lax s m r Hn H Hb. destruct (big_stuck lax m r Hb). eapply path_stuck; eauto. Qed.
Lemma script_big : forall s m r, nonneg s -> toks tf true (InExpr 0 true) s m r ->
  big_int m r -> exists e, ParseScriptExpression TX s = Fail e.
Proof. intros s m r Hn H Hb. destruct (big_stuck true m r Hb). eapply script_stuck; eauto. Qed.
End texts.
