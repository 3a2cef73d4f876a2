(** Whole tokens of expressions and paths. *)
From Verif Require Import SpecGrammar Lexer Parser LexProofs LexProofs2.
Local Open Scope Z_scope.

Lemma lexID_ok : forall alpha dash, (forall c, alpha c = true <-> name_char dash c) ->
  forall ps c b a lx r, letter c -> lexID alpha (mkRd (c :: b) a) = (lx, r) ->
  exists n, lx = lexeme_of (GName n) /\ tok1 ps dash (c :: a) (GName n) (rd_after r).
Proof.
  intros alpha dash Hiff ps c b a lx r Hc H. unfold lexID in H.
  cbn [rd_unget rd_before rd_after] in H.
  destruct (rd_span alpha (mkRd b (c :: a))) as [s r1] eqn:E. injection H as <- <-.
  apply rd_span_spec in E as (H1 & _ & H3 & H4).
  rewrite (Forall_iff _ _ s Hiff) in H3. rewrite (not_next_iff _ _ _ Hiff) in H4.
  exists s. split; [reflexivity|]. cbn [rd_after] in H1. destruct s as [|x s].
  - simpl in H1. rewrite <- H1 in H4. simpl in H4. exfalso. apply H4. left. assumption.
  - injection H1 as <- ->. inversion H3; subst. apply TokName; auto.
Qed.

Lemma lexID_app : forall alpha dash, (forall c, alpha c = true <-> name_char dash c) ->
  forall c b t rest, letter c -> Forall (name_char dash) t -> not_next (name_char dash) rest ->
  lexID alpha (mkRd (c :: b) (t ++ rest)) =
    (lexeme_of (GName (c :: t)), mkRd (rev (c :: t) ++ b) rest).
Proof.
  intros alpha dash Hiff c b t rest Hc Ht Hr. unfold lexID. cbn [rd_unget rd_before rd_after].
  change (c :: t ++ rest) with ((c :: t) ++ rest). rewrite rd_span_app; [reflexivity| |].
  - apply (Forall_iff _ _ (c :: t) Hiff). constructor; auto. left. assumption.
  - apply (not_next_iff _ _ rest Hiff). assumption.
Qed.


Lemma isNext_ok : forall c t f r lx r', 0 <= c -> isNext c t f r = (lx, r') ->
  (exists a, rd_after r = c :: a /\ rd_after r' = a /\ lx = lex_tok t) \/
  (rd_after r' = rd_after r /\ not_next (eq c) (rd_after r) /\
   match f with TError => bad lx | _ => lx = lex_tok f end).
Proof.
  intros c t f r lx r' Hc H. unfold isNext in H. rewrite rd_look_after in H.
  destruct r as [b [|x a]]; cbn [rd_after rd_get rd_before] in *.
  - destruct (Z.eqb_spec eof c); [unfold eof in *; lia|].
    right. destruct f; injection H as <- <-; repeat split; auto.
    eexists. split; [reflexivity|exact I].
  - destruct (Z.eqb_spec x c).
    + left. injection H as <- <-. subst. eauto.
    + right. destruct f; injection H as <- <-; repeat split; simpl; auto.
      eexists. split; [reflexivity|exact I].
Qed.

Lemma isNext_yes : forall c t f b a, isNext c t f (mkRd b (c :: a)) = (lex_tok t, mkRd (c :: b) a).
Proof. intros. unfold isNext. rewrite rd_look_after. cbn. rewrite Z.eqb_refl. reflexivity. Qed.

Lemma isNext_no : forall c t f b a, 0 <= c -> f <> TError -> not_next (eq c) a ->
  isNext c t f (mkRd b a) = (lex_tok f, mkRd b a).
Proof.
  intros c t f b a Hc Hf Ha. unfold isNext. rewrite rd_look_after. cbn [rd_after].
  destruct (Z.eqb_spec (match a with [] => eof | c :: _ => c end) c).
  - exfalso. destruct a; [unfold eof in *; lia|]. simpl in Ha. congruence.
  - destruct f; congruence.
Qed.

Section tokens.
Variable TX : textoracles.
Notation etk := (etok (o_parse_float TX) true).
Notation ptk := (ptok true).

Lemma etok_ws : forall w s t r, Forall space w -> etk s t r -> etk (w ++ s) t r.
Proof.
  intros w s t r Hw H.
  assert (Happ : forall w0, Forall space w0 -> Forall space (w ++ w0)).
  { intros. apply Forall_app. auto. }
  destruct H; try (rewrite app_assoc; econstructor; eauto; fail).
Qed.

Lemma ptok_ws : forall w s t r, Forall space w -> ptk s t r -> ptk (w ++ s) t r.
Proof.
  intros w s t r Hw H.
  assert (Happ : forall w0, Forall space w0 -> Forall space (w ++ w0)).
  { intros. apply Forall_app. auto. }
  destruct H; try (rewrite app_assoc; econstructor; eauto; fail).
Qed.

Lemma punct1 : forall ps dash c r, In [c] ps -> short ps ->
  (forall d, In [c; d] ps -> not_next (eq d) r) -> tok1 ps dash (c :: r) (GPunct [c]) r.
Proof.
  intros ps dash c r H1 H2 H3. apply (TokPunct ps dash [c] r). apply longest1; assumption.
Qed.
Lemma punct2 : forall ps dash c d r, In [c; d] ps -> short ps ->
  tok1 ps dash (c :: d :: r) (GPunct [c; d]) r.
Proof.
  intros ps dash c d r H1 H2. apply (TokPunct ps dash [c; d] r). apply longest2; assumption.
Qed.

Lemma etok_1 : forall s t r, tok1 expr_puncts false s t r -> etk s t r.
Proof. intros. apply (ETok1 _ _ [] s t r); auto. Qed.
Lemma ptok_1 : forall s t r, tok1 path_puncts true s t r -> ptk s t r.
Proof. intros. apply (PTok1 _ [] s t r); auto. Qed.

Definition elex (s : bytes) (lx : lexeme) (rest : bytes) : Prop :=
  bad lx \/
  (junk lx /\ (length rest < length s)%nat /\ nonneg rest) \/
  exists t, lx = lexeme_of t /\ etk s t rest.

(** soundness of the expression lexer *)
Lemma mem_Z_In : forall c l, mem_Z c l = true <-> In c l.
Proof.
  intros. unfold mem_Z. rewrite existsb_exists. split.
  - intros (x & Hx & E). apply Z.eqb_eq in E. congruence.
  - intro. exists c. split; auto. apply Z.eqb_refl.
Qed.

Lemma suffix_nonneg : forall s w r, nonneg s -> s = w ++ r -> nonneg r.
Proof. intros s w r H ->. apply Forall_app in H. tauto. Qed.

Lemma lexExpr_rd_ok : forall r0 lx r, nonneg (rd_after r0) -> lexExpr_rd TX r0 = (lx, r) ->
  elex (rd_after r0) lx (rd_after r).
Proof.
  intros r0 lx r Hn H. destruct (ws_spec r0) as (w & W1 & _ & W3 & W4).
  assert (Hred : elex (rd_after (ws r0)) lx (rd_after r) -> elex (rd_after r0) lx (rd_after r)).
  { intros [Hb|[(Hj & Hl & Hnn)|(t & Ht & He)]].
    - left. assumption.
    - right; left. rewrite W1, app_length. repeat split; auto; try lia.
    - right; right. exists t. split; auto. rewrite W1. apply etok_ws; assumption. }
  apply Hred. clear Hred. pose proof (suffix_nonneg _ _ _ Hn W1) as Hn'.
  unfold lexExpr_rd in H. destruct (ws r0) as [b a]. clear W1 W3. cbn [rd_after] in *.
  destruct a as [|c a]; cbn [rd_get rd_after rd_before] in H.
  { change (eof =? eof) with true in H. cbv iota in H. injection H as <- <-.
    right; right. exists GEnd. split; [reflexivity|]. apply etok_1. constructor. }
  assert (Hna : nonneg a) by (inversion Hn'; assumption).
  assert (Hc : 0 <= c) by (inversion Hn'; assumption).
  destruct (Z.eqb_spec c eof); [unfold eof in *; lia|].
  destruct (mem_Z c [40; 41; 91; 93; 64; 36; 46; 44; 126; 42; 37; 43; 45]) eqn:Em.
  { injection H as <- <-. apply mem_Z_In in Em. right; right. exists (GPunct [c]).
    split; [reflexivity|]. apply etok_1.
    simpl in Em. repeat (destruct Em as [<-|Em];
      [apply punct1; [in_puncts|apply short_expr|intros d Hd; not_in_puncts Hd]|]). destruct Em. }
  clear Em.
  destruct (Z.eqb_spec c 47) as [->|].
  { injection H as <- <-. right; right. exists (GPunct [47]). split; [reflexivity|].
    apply etok_1. apply punct1; [in_puncts|apply short_expr|intros d Hd; not_in_puncts Hd]. }
  (* one or two characters *)
  assert (Htwo : forall d t t' r1 lx1, 0 <= d -> isNext d t t' (mkRd (c :: b) a) = (lx1, r1) ->
    t' = TChar c -> In [c; d] expr_puncts -> tok_of [c; d] = t ->
    (forall d', In [c; d'] expr_puncts -> d' = d) ->
    (In [c] expr_puncts \/ junk (lex_tok (TChar c))) ->
    elex (c :: a) lx1 (rd_after r1)).
  { intros d t t' r1 lx1 Hd Hi Ht' Hin Htok Huniq Hone. subst t'.
    apply isNext_ok in Hi; auto. destruct Hi as [(a' & A1 & A2 & ->)|(A1 & A2 & ->)].
    - cbn [rd_after] in A1. subst a. right; right. exists (GPunct [c; d]).
      split; [cbn [lexeme_of]; rewrite Htok; reflexivity|]. rewrite A2. apply etok_1.
      apply punct2; auto. apply short_expr.
    - cbn [rd_after] in A1, A2. destruct Hone as [Hone|Hone].
      + right; right. exists (GPunct [c]). split; [reflexivity|]. rewrite A1. apply etok_1.
        apply punct1; auto; [apply short_expr|]. intros d' Hd'. apply Huniq in Hd'. subst. assumption.
      + right; left. rewrite A1. repeat split; auto. }
  destruct (Z.eqb_spec c 38) as [->|].
  { eapply Htwo; [|exact H|..]; try reflexivity; try lia; [in_puncts| |right; left; reflexivity].
    intros d Hd; not_in_puncts Hd; reflexivity. }
  destruct (Z.eqb_spec c 124) as [->|].
  { eapply Htwo; [|exact H|..]; try reflexivity; try lia; [in_puncts| |right; right; left; reflexivity].
    intros d Hd; not_in_puncts Hd; reflexivity. }
  destruct (Z.eqb_spec c 60) as [->|].
  { eapply Htwo; [|exact H|..]; try reflexivity; try lia; [in_puncts| |left; in_puncts].
    intros d Hd; not_in_puncts Hd; reflexivity. }
  destruct (Z.eqb_spec c 62) as [->|].
  { eapply Htwo; [|exact H|..]; try reflexivity; try lia; [in_puncts| |left; in_puncts].
    intros d Hd; not_in_puncts Hd; reflexivity. }
  destruct (Z.eqb_spec c 61) as [->|].
  { clear Htwo. destruct (isNext 61 TEQ (TChar 61) (mkRd (61 :: b) a)) as [lx1 r1] eqn:E1.
    apply isNext_ok in E1; try lia. destruct E1 as [(a' & A1 & A2 & ->)|(A1 & A2 & ->)].
    - cbn [lex_tok lx_tok tok_eqb negb] in H. injection H as <- <-. cbn [rd_after] in A1. subst a.
      right; right. exists (GPunct [61; 61]). split; [reflexivity|]. rewrite A2. apply etok_1.
      apply punct2; [in_puncts|apply short_expr].
    - cbn [lex_tok lx_tok tok_eqb negb] in H. change (61 =? 61) with true in H. cbn [negb] in H.
      apply isNext_ok in H; try lia. rewrite A1 in H. cbn [rd_after] in H.
      destruct H as [(a' & B1 & B2 & ->)|(B1 & B2 & ->)].
      + subst a. right; right. exists (GPunct [61; 126]). split; [reflexivity|]. rewrite B2.
        apply etok_1. apply punct2; [in_puncts|apply short_expr].
      + right; left. rewrite B1. repeat split; auto. right; right; reflexivity. }
  destruct (Z.eqb_spec c 33) as [->|].
  { eapply Htwo; [|exact H|..]; try reflexivity; try lia; [in_puncts| |left; in_puncts].
    intros d Hd; not_in_puncts Hd; reflexivity. }
  clear Htwo.
  destruct ((c =? 34) || (c =? 39)) eqn:Eq.
  { apply orb_true_iff in Eq. rewrite !Z.eqb_eq in Eq. unfold lex_string_tok in H.
    destruct (lexString c (mkRd (c :: b) a)) as [[v|e] r1] eqn:E; injection H as <- <-.
    - apply lexString_ok in E; auto. cbn [rd_after] in E. right; right. exists (GStr v).
      split; [reflexivity|]. destruct E as [(t & T1 & T2)|[T1 T2]].
      + apply etok_1. rewrite T2. apply TokStr; auto.
      + rewrite T2. apply (ETokUnclosed _ _ []); auto.
    - left. exists e. split; auto. exact (lexString_clean c (mkRd (c :: b) a) _ _ Hna Eq E). }
  destruct (isDigit c) eqn:Ed.
  { apply isDigit_iff in Ed. apply lexNumber_real in H; auto.
    destruct H as [H|H]; [left|right; right]; assumption. }
  destruct (isLetter c) eqn:El.
  { apply isLetter_iff in El. eapply (lexID_ok _ _ isAlphanumeric_iff) in H; eauto.
    destruct H as (nm & -> & H). right; right. exists (GName nm). split; [reflexivity|].
    apply etok_1. eassumption. }
  injection H as <- <-. left. eexists. split; [reflexivity|exact I].
Qed.

(** completeness of the expression lexer *)
Local Arguments isNext : simpl never.

Lemma lexExpr_rd_app : forall s t rest, etk s t rest -> forall r0, rd_after r0 = s ->
  exists r, lexExpr_rd TX r0 = (lexeme_of t, r) /\ rd_after r = rest.
Proof.
  intros s t rest H r0 Hr0. destruct r0 as [b s0]. cbn [rd_after] in Hr0. subst s0.
  assert (Hws : forall w a, Forall space w -> not_next space a ->
    lexExpr_rd TX (mkRd b (w ++ a)) = lexExpr_rd TX (mkRd (rev w ++ b) a)).
  { intros w a Hw Ha. unfold lexExpr_rd. rewrite ws_app by assumption.
    pose proof (ws_app (rev w ++ b) [] a (Forall_nil _) Ha) as E. cbn [app rev] in E. rewrite E.
    reflexivity. }
  assert (Hws0 : forall b a, not_next space a -> ws (mkRd b a) = mkRd b a).
  { intros b0 a Ha. exact (ws_app b0 [] a (Forall_nil _) Ha). }
  destruct H as [w s t r Hw H|w ds r Hw Hd1 Hd2 Hr Hv|w ds fs r f Hw Hd1 Hd2 Hf Hr Ho
    |w ds fs ex r f Hw Hd1 Hd2 Hf Hx Hr Ho|w q t v _ Hw Hq Ho].
  - pose proof (tok1_start _ _ _ _ _ (or_introl eq_refl) H) as Hst.
    rewrite Hws by assumption. set (b' := rev w ++ b). clearbody b'. clear w Hw Hws b.
    unfold lexExpr_rd. rewrite Hws0 by assumption. clear Hws0.
    destruct H as [|p r Hl|q t v r Hq Hb|c t r Hc Ht Hr].
    + eexists. split; reflexivity.
    + destruct p as [|c [|d [|]]].
      * destruct Hl as [Hl _]. not_in_puncts Hl.
      * pose proof Hl as [Hin _]. cbn [app] in Hl. cbn [app rd_get rd_after rd_before].
        unfold expr_puncts, b_of in Hin. simpl in Hin.
        repeat (destruct Hin as [Hin|Hin]; [first [discriminate Hin|injection Hin as <-]|]);
          try (destruct Hin; fail);
          try (eexists; split; reflexivity; fail).
        -- cbn. pose proof (longest1_inv _ _ 61 _ Hl ltac:(in_puncts)).
           rewrite isNext_no by (try assumption; try lia; discriminate). eexists; split; reflexivity.
        -- cbn. pose proof (longest1_inv _ _ 61 _ Hl ltac:(in_puncts)).
           rewrite isNext_no by (try assumption; try lia; discriminate). eexists; split; reflexivity.
        -- cbn. pose proof (longest1_inv _ _ 61 _ Hl ltac:(in_puncts)).
           rewrite isNext_no by (try assumption; try lia; discriminate). eexists; split; reflexivity.
      * pose proof Hl as [Hin _]. cbn [app rd_get rd_after rd_before].
        unfold expr_puncts, b_of in Hin. simpl in Hin.
        repeat (destruct Hin as [Hin|Hin]; [first [discriminate Hin|injection Hin as <- <-]|]);
          try (destruct Hin; fail);
          try (cbn; rewrite isNext_yes; eexists; split; reflexivity; fail).
        cbn. rewrite isNext_no by (simpl; try lia; discriminate). cbn. rewrite isNext_yes.
        eexists; split; reflexivity.
      * destruct Hl as [Hl _]. not_in_puncts Hl.
    + cbn [rd_get rd_after rd_before].
      pose proof (lexString_body q t v Hb Hq (S (S (length (t ++ q :: r)))) [] (q :: b') r) as E.
      assert (Hlen : (length t < S (S (length (t ++ q :: r))))%nat) by (rewrite app_length; lia).
      specialize (E Hlen).
      assert (Es : lex_string_tok q (mkRd (q :: b') (t ++ q :: r)) =
        (lexeme_of (GStr v), mkRd (q :: rev t ++ q :: b') r)).
      { unfold lex_string_tok, lexString. cbn [rd_after]. rewrite E. reflexivity. }
      destruct Hq as [->| ->]; cbn [Z.eqb Pos.eqb eof mem_Z existsb orb];
        rewrite Es; eexists; split; reflexivity.
    + cbn [rd_get rd_after rd_before].
      rewrite (lexID_app _ _ isAlphanumeric_iff c b' t r Hc Ht Hr).
      assert (Hl : isLetter c = true) by (apply isLetter_iff; assumption). rewrite Hl.
      assert (Hd : isDigit c = false).
      { apply (iff_false _ _ (isDigit_iff c)). unfold letter, digit in *. lia. }
      rewrite Hd.
      unfold letter in Hc. unfold mem_Z. cbn [existsb].
      repeat match goal with |- context [?x =? ?y] => destruct (Z.eqb_spec x y); [unfold eof in *; lia|] end.
      cbn [orb]. eexists; split; reflexivity.
  - rewrite Hws by (try apply digits_not_space; assumption). set (b' := rev w ++ b). clearbody b'.
    unfold lexExpr_rd. rewrite Hws0 by (apply digits_not_space; assumption).
    destruct ds as [|c ds]; [congruence|]. cbn [app rd_get rd_after rd_before].
    rewrite lexNumber_real_int by assumption.
    assert (Hc : isDigit c = true) by (apply isDigit_iff; inversion Hd2; assumption).
    inversion Hd2; subst. unfold digit in H1. rewrite Hc. unfold mem_Z. cbn [existsb].
    repeat match goal with |- context [?x =? ?y] => destruct (Z.eqb_spec x y); [unfold eof in *; lia|] end.
    cbn [orb]. eexists; split; reflexivity.
  - rewrite <- app_assoc.
    rewrite Hws by (try apply digits_not_space; assumption). set (b' := rev w ++ b). clearbody b'.
    unfold lexExpr_rd. rewrite Hws0 by (apply digits_not_space; assumption).
    destruct ds as [|c ds]; [congruence|]. cbn [app rd_get rd_after rd_before].
    erewrite lexNumber_real_frac by eassumption.
    assert (Hc : isDigit c = true) by (apply isDigit_iff; inversion Hd2; assumption).
    inversion Hd2; subst. unfold digit in H1. rewrite Hc. unfold mem_Z. cbn [existsb].
    repeat match goal with |- context [?x =? ?y] => destruct (Z.eqb_spec x y); [unfold eof in *; lia|] end.
    cbn [orb]. eexists; split; reflexivity.
  - rewrite <- app_assoc.
    rewrite Hws by (try apply digits_not_space; assumption). set (b' := rev w ++ b). clearbody b'.
    unfold lexExpr_rd. rewrite Hws0 by (apply digits_not_space; assumption).
    destruct ds as [|c ds]; [congruence|]. cbn [app rd_get rd_after rd_before]. rewrite <- app_assoc.
    destruct (lexNumber_real_exp TX c b' ds fs ex r f) as [b2 E]; auto. rewrite E.
    assert (Hc : isDigit c = true) by (apply isDigit_iff; inversion Hd2; assumption).
    inversion Hd2; subst. unfold digit in H1. rewrite Hc. unfold mem_Z. cbn [existsb].
    repeat match goal with |- context [?x =? ?y] => destruct (Z.eqb_spec x y); [unfold eof in *; lia|] end.
    cbn [orb]. eexists; split; reflexivity.
  - rewrite Hws by (try assumption; simpl; unfold space; lia). set (b' := rev w ++ b). clearbody b'.
    unfold lexExpr_rd. rewrite Hws0 by (simpl; unfold space; lia). cbn [rd_get rd_after rd_before].
    destruct (lexString_open q t v Ho Hq (S (S (length t))) [] (q :: b')) as [b2 E]; [lia|].
    assert (Es : lex_string_tok q (mkRd (q :: b') t) = (lexeme_of (GStr v), mkRd b2 [])).
    { unfold lex_string_tok, lexString. cbn [rd_after]. rewrite E. reflexivity. }
    destruct Hq as [->| ->]; cbn [Z.eqb Pos.eqb eof mem_Z existsb orb];
      rewrite Es; eexists; split; reflexivity.
Qed.
End tokens.
