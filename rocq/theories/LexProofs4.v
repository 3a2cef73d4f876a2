(** Whole tokens of paths. *)
From Verif Require Import SpecGrammar Lexer Parser LexProofs LexProofs2 LexProofs3.
Local Open Scope Z_scope.

Section tokens.
Variable TX : textoracles.
Notation etk := (etok (o_parse_float TX) true).
Notation ptk := (ptok true).

Definition plex (s : bytes) (lx : lexeme) (rest : bytes) : Prop :=
  bad lx \/ exists t, lx = lexeme_of t /\ ptk s t rest.

Lemma lexPath_rd_ok : forall r0 lx r, nonneg (rd_after r0) -> lexPath_rd TX r0 = (lx, r) ->
  plex (rd_after r0) lx (rd_after r).
Proof.
  intros r0 lx r Hn H. destruct (ws_spec r0) as (w & W1 & _ & W3 & W4).
  assert (Hred : plex (rd_after (ws r0)) lx (rd_after r) -> plex (rd_after r0) lx (rd_after r)).
  { intros [Hb|(t & Ht & He)].
    - left. assumption.
    - right. exists t. split; auto. rewrite W1. apply ptok_ws; assumption. }
  apply Hred. clear Hred. pose proof (suffix_nonneg _ _ _ Hn W1) as Hn'.
  unfold lexPath_rd in H. destruct (ws r0) as [b a]. clear W1 W3. cbn [rd_after] in *.
  destruct a as [|c a]; cbn [rd_get rd_after rd_before] in H.
  { change (eof =? eof) with true in H. cbv iota in H. injection H as <- <-.
    right. exists GEnd. split; [reflexivity|]. apply ptok_1. constructor. }
  assert (Hna : nonneg a) by (inversion Hn'; assumption).
  assert (Hc : 0 <= c) by (inversion Hn'; assumption).
  destruct (Z.eqb_spec c eof); [unfold eof in *; lia|].
  destruct (mem_Z c [40; 41; 91; 93; 42; 36; 58; 44]) eqn:Em.
  { injection H as <- <-. apply mem_Z_In in Em. right. exists (GPunct [c]).
    split; [reflexivity|]. apply ptok_1.
    simpl in Em. repeat (destruct Em as [<-|Em];
      [apply punct1; [in_puncts|apply short_path|intros d Hd; not_in_puncts Hd]|]). destruct Em. }
  clear Em.
  destruct (Z.eqb_spec c 46) as [->|].
  { apply isNext_ok in H; [|lia]. right. destruct H as [(a' & A1 & A2 & ->)|(A1 & A2 & ->)].
    - cbn [rd_after] in A1. subst a. exists (GPunct [46; 46]). split; [reflexivity|].
      rewrite A2. apply ptok_1. apply punct2; [in_puncts|apply short_path].
    - exists (GPunct [46]). split; [reflexivity|]. rewrite A1. apply ptok_1.
      apply punct1; [in_puncts|apply short_path|]. intros d Hd. not_in_puncts Hd. assumption. }
  destruct (Z.eqb_spec c 63) as [->|].
  { apply isNext_ok in H; [|lia]. destruct H as [(a' & A1 & A2 & ->)|(A1 & A2 & B)].
    - right. cbn [rd_after] in A1. subst a. exists (GPunct [63; 40]). split; [reflexivity|].
      rewrite A2. apply ptok_1. apply punct2; [in_puncts|apply short_path].
    - left. assumption. }
  destruct ((c =? 34) || (c =? 39)) eqn:Eq.
  { apply orb_true_iff in Eq. rewrite !Z.eqb_eq in Eq. unfold lex_string_tok in H.
    destruct (lexString c (mkRd (c :: b) a)) as [[v|e] r1] eqn:E; injection H as <- <-.
    - apply lexString_ok in E; auto. cbn [rd_after] in E. right. exists (GStr v).
      split; [reflexivity|]. destruct E as [(t & T1 & T2)|[T1 T2]].
      + apply ptok_1. rewrite T2. apply TokStr; auto.
      + rewrite T2. apply (PTokUnclosed _ []); auto.
    - left. exists e. split; auto. exact (lexString_clean c (mkRd (c :: b) a) _ _ Hna Eq E). }
  destruct (Z.eqb_spec c 45) as [->|].
  { destruct (ws_spec (mkRd (45 :: b) a)) as (w' & V1 & _ & V3 & V4).
    destruct (ws (mkRd (45 :: b) a)) as [b1 a1]. cbn [rd_after] in *.
    destruct a1 as [|d a1]; cbn [rd_get rd_after rd_before] in H.
    { change (isDigit eof) with false in H. cbn [negb] in H. injection H as <- <-.
      left. eexists. split; [reflexivity|exact I]. }
    destruct (isDigit d) eqn:Ed; cbn [negb] in H.
    2:{ injection H as <- <-. left. eexists. split; [reflexivity|exact I]. }
    destruct (lexNumber TX false (mkRd (d :: b1) a1)) as [fol r2] eqn:E.
    apply isDigit_iff in Ed. apply lexNumber_int in E; auto.
    destruct E as (ds & D1 & D2 & D3 & D4 & [[D5 ->]|[D5 (e & -> & _)]]).
    - cbn [lexeme_of lx_tok lx_val lx_err] in H.
      destruct (Z.eqb_spec (dec_val ds) max_int64) as [Em|Em]; injection H as <- <-.
      + left. eexists. split; [reflexivity|exact I].
      + right. exists (GInt (- dec_val ds)). split; [reflexivity|].
        rewrite V1, D3. apply (PTokNeg _ []); auto.
        change max_int64 with (2 ^ 63 - 1) in Em. lia.
    - cbn [lex_err lx_tok] in H. injection H as <- <-. left. eexists. split; [reflexivity|exact I]. }
  destruct (isDigit c) eqn:Ed.
  { apply isDigit_iff in Ed. apply lexNumber_int in H; auto.
    destruct H as (ds & D1 & D2 & D3 & D4 & [[D5 ->]|[D5 D6]]).
    - right. exists (GInt (dec_val ds)). split; [reflexivity|]. rewrite D3. apply (PTokInt _ []); auto.
    - left. assumption. }
  destruct (isLetter c) eqn:El.
  { apply isLetter_iff in El. eapply (lexID_ok _ _ isAlphanumericDash_iff) in H; eauto.
    destruct H as (nm & -> & H). right. exists (GName nm). split; [reflexivity|].
    apply ptok_1. eassumption. }
  injection H as <- <-. left. eexists. split; [reflexivity|exact I].
Qed.

Local Arguments isNext : simpl never.

Lemma lexPath_rd_app : forall s t rest, ptk s t rest -> forall r0, rd_after r0 = s ->
  exists r, lexPath_rd TX r0 = (lexeme_of t, r) /\ rd_after r = rest.
Proof.
  intros s t rest H r0 Hr0. destruct r0 as [b s0]. cbn [rd_after] in Hr0. subst s0.
  assert (Hws : forall w a, Forall space w -> not_next space a ->
    lexPath_rd TX (mkRd b (w ++ a)) = lexPath_rd TX (mkRd (rev w ++ b) a)).
  { intros w a Hw Ha. unfold lexPath_rd. rewrite ws_app by assumption.
    pose proof (ws_app (rev w ++ b) [] a (Forall_nil _) Ha) as E. cbn [app rev] in E. rewrite E.
    reflexivity. }
  assert (Hws0 : forall b a, not_next space a -> ws (mkRd b a) = mkRd b a).
  { intros b0 a Ha. exact (ws_app b0 [] a (Forall_nil _) Ha). }
  destruct H as [w s t r Hw H|w ds r Hw Hd1 Hd2 Hr Hv|w w' ds r Hw Hw' Hd1 Hd2 Hr Hv
    |w q t v _ Hw Hq Ho].
  - pose proof (tok1_start _ _ _ _ _ (or_intror eq_refl) H) as Hst.
    rewrite Hws by assumption. set (b' := rev w ++ b). clearbody b'. clear w Hw Hws b.
    unfold lexPath_rd. rewrite Hws0 by assumption. clear Hws0.
    destruct H as [|p r Hl|q t v r Hq Hb|c t r Hc Ht Hr].
    + eexists. split; reflexivity.
    + destruct p as [|c [|d [|]]].
      * destruct Hl as [Hl _]. not_in_puncts Hl.
      * pose proof Hl as [Hin _]. cbn [app] in Hl. cbn [app rd_get rd_after rd_before].
        unfold path_puncts, b_of in Hin. simpl in Hin.
        repeat (destruct Hin as [Hin|Hin]; [first [discriminate Hin|injection Hin as <-]|]);
          try (destruct Hin; fail);
          try (eexists; split; reflexivity; fail).
        cbn. pose proof (longest1_inv _ _ 46 _ Hl ltac:(in_puncts)).
        rewrite isNext_no by (try assumption; try lia; discriminate). eexists; split; reflexivity.
      * pose proof Hl as [Hin _]. cbn [app rd_get rd_after rd_before].
        unfold path_puncts, b_of in Hin. simpl in Hin.
        repeat (destruct Hin as [Hin|Hin]; [first [discriminate Hin|injection Hin as <- <-]|]);
          try (destruct Hin; fail);
          try (cbn; rewrite isNext_yes; eexists; split; reflexivity; fail).
      * destruct Hl as [Hl _]. not_in_puncts Hl.
    + cbn [rd_get rd_after rd_before].
      pose proof (lexString_body q t v Hb Hq (S (S (length (t ++ q :: r)))) [] (q :: b') r) as E.
      assert (Hlen : (length t < S (S (length (t ++ q :: r))))%nat) by (rewrite app_length; lia).
      specialize (E Hlen).
      assert (Es : lex_string_tok q (mkRd (q :: b') (t ++ q :: r)) =
        (lexeme_of (GStr v), mkRd (q :: rev t ++ q :: b') r)).
      { unfold lex_string_tok, lexString. cbn [rd_after]. rewrite E. reflexivity. }
      destruct Hq as [->| ->]; cbn [Z.eqb Pos.eqb eof mem_Z existsb orb];
        rewrite Es; eexists; split; reflexivity.
    + cbn [rd_get rd_after rd_before].
      rewrite (lexID_app _ _ isAlphanumericDash_iff c b' t r Hc Ht Hr).
      assert (Hl : isLetter c = true) by (apply isLetter_iff; assumption). rewrite Hl.
      assert (Hd : isDigit c = false).
      { apply (iff_false _ _ (isDigit_iff c)). unfold letter, digit in *. lia. }
      rewrite Hd.
      unfold letter in Hc. unfold mem_Z. cbn [existsb].
      repeat match goal with |- context [c =? ?y] => destruct (Z.eqb_spec c y); [unfold eof in *; lia|] end.
      cbn [orb]. eexists; split; reflexivity.
  - rewrite Hws by (try apply digits_not_space; assumption). set (b' := rev w ++ b). clearbody b'.
    unfold lexPath_rd. rewrite Hws0 by (apply digits_not_space; assumption).
    destruct ds as [|c ds]; [congruence|]. cbn [app rd_get rd_after rd_before].
    rewrite lexNumber_int_app by assumption.
    assert (Hc : isDigit c = true) by (apply isDigit_iff; inversion Hd2; assumption).
    inversion Hd2; subst. unfold digit in H1. rewrite Hc. unfold mem_Z. cbn [existsb].
    repeat match goal with |- context [c =? ?y] => destruct (Z.eqb_spec c y); [unfold eof in *; lia|] end.
    cbn [orb]. eexists; split; reflexivity.
  - rewrite Hws by (try assumption; simpl; unfold space; lia). set (b' := rev w ++ b). clearbody b'.
    unfold lexPath_rd. rewrite Hws0 by (simpl; unfold space; lia).
    cbn [rd_get rd_after rd_before mem_Z existsb]. cbn [Z.eqb Pos.eqb eof orb].
    rewrite ws_app by (try apply digits_not_space; assumption).
    destruct ds as [|c ds]; [congruence|]. cbn [app rd_get rd_after rd_before].
    assert (Hc : isDigit c = true) by (apply isDigit_iff; inversion Hd2; assumption).
    rewrite Hc. cbn [negb].
    rewrite lexNumber_int_app by (try assumption; lia).
    cbn [lexeme_of lx_tok lx_val lx_err].
    destruct (Z.eqb_spec (dec_val (c :: ds)) max_int64) as [Em|Em].
    { change max_int64 with (2 ^ 63 - 1) in Em. lia. }
    eexists; split; reflexivity.
  - rewrite Hws by (try assumption; simpl; unfold space; lia). set (b' := rev w ++ b). clearbody b'.
    unfold lexPath_rd. rewrite Hws0 by (simpl; unfold space; lia). cbn [rd_get rd_after rd_before].
    destruct (lexString_open q t v Ho Hq (S (S (length t))) [] (q :: b')) as [b2 E]; [lia|].
    assert (Es : lex_string_tok q (mkRd (q :: b') t) = (lexeme_of (GStr v), mkRd b2 [])).
    { unfold lex_string_tok, lexString. cbn [rd_after]. rewrite E. reflexivity. }
    destruct Hq as [->| ->]; cbn [Z.eqb Pos.eqb eof mem_Z existsb orb];
      rewrite Es; eexists; split; reflexivity.
Qed.

(** ** Consequences used by the parser proofs *)

Lemma tok_of_char : forall p c, tok_of p = TChar c -> p = [c].
Proof.
  intros [|x [|y [|]]] c H; simpl in H; try discriminate.
  - congruence.
  - repeat match type of H with (if ?b then _ else _) = _ => destruct b; try discriminate end.
Qed.

Lemma lexeme_char : forall t c, lx_tok (lexeme_of t) = TChar c -> t = GPunct [c].
Proof. intros [] c H; simpl in H; try discriminate. apply tok_of_char in H. congruence. Qed.

Lemma etok_punct_in : forall tf lax s p r, etok tf lax s (GPunct p) r -> In p expr_puncts.
Proof.
  intros tf lax s p r H. inversion H; subst.
  match goal with K : tok1 _ _ _ _ _ |- _ => inversion K; subst end.
  match goal with K : longest _ _ _ |- _ => destruct K; assumption end.
Qed.

Lemma ptok_punct_in : forall lax s p r, ptok lax s (GPunct p) r -> In p path_puncts.
Proof.
  intros lax s p r H. inversion H; subst.
  match goal with K : tok1 _ _ _ _ _ |- _ => inversion K; subst end.
  match goal with K : longest _ _ _ |- _ => destruct K; assumption end.
Qed.

(** a token leaves a shorter text *)
Lemma tok1_len : forall ps dash s t r, Forall (fun p => p <> []) ps -> tok1 ps dash s t r ->
  t = GEnd \/ (length r < length s)%nat.
Proof.
  intros ps dash s t r Hps H. destruct H as [|p r Hl|q t v r Hq Hb|c t r Hc Ht Hr]; auto; right.
  - destruct Hl as [Hl _]. eapply Forall_forall in Hps; eauto. rewrite app_length.
    destruct p; [congruence|simpl; lia].
  - cbn [length]. rewrite app_length. simpl. lia.
  - cbn [length]. rewrite app_length. lia.
Qed.

Lemma len_digits : forall ds (r : bytes), ds <> [] -> (length r < length (ds ++ r))%nat.
Proof. intros [|d ds] r H; [congruence|]. rewrite app_length. simpl. lia. Qed.

Lemma expr_puncts_ne : Forall (fun p => p <> []) expr_puncts.
Proof. repeat constructor; discriminate. Qed.
Lemma path_puncts_ne : Forall (fun p => p <> []) path_puncts.
Proof. repeat constructor; discriminate. Qed.

Lemma etok_len : forall tf lax s t r, etok tf lax s t r -> t = GEnd \/ (length r < length s)%nat.
Proof.
  intros tf lax s t r H. destruct H as [w s t r Hw H|w ds r Hw Hd1 Hd2 Hr Hv|w ds fs r f Hw Hd1 Hd2 Hf Hr Ho
    |w ds fs ex r f Hw Hd1 Hd2 Hf Hx Hr Ho|w q t v _ Hw Hq Ho].
  - apply tok1_len in H; [|apply expr_puncts_ne]. rewrite app_length. destruct H; auto. right. lia.
  - right. rewrite app_length. pose proof (len_digits ds r Hd1). lia.
  - right. rewrite !app_length. simpl. lia.
  - right. rewrite !app_length. simpl. lia.
  - right. rewrite app_length. simpl. lia.
Qed.

Lemma ptok_len : forall lax s t r, ptok lax s t r -> t = GEnd \/ (length r < length s)%nat.
Proof.
  intros lax s t r H. destruct H as [w s t r Hw H|w ds r Hw Hd1 Hd2 Hr Hv|w w' ds r Hw Hw' Hd1 Hd2 Hr Hv
    |w q t v _ Hw Hq Ho].
  - apply tok1_len in H; [|apply path_puncts_ne]. rewrite app_length. destruct H; auto. right. lia.
  - right. rewrite app_length. pose proof (len_digits ds r Hd1). lia.
  - right. rewrite app_length. cbn [length]. rewrite app_length. pose proof (len_digits ds r Hd1). lia.
  - right. rewrite app_length. simpl. lia.
Qed.

(** the rest of the text after a token is a suffix *)
Lemma etok_suffix : forall tf lax s t r, etok tf lax s t r -> exists w, s = w ++ r.
Proof.
  intros tf lax s t r H. destruct H as [w s t r Hw H| | | |].
  - destruct H as [|p r Hl|q t v r Hq Hb|c t r Hc Ht Hr].
    + exists w. reflexivity.
    + exists (w ++ p). rewrite <- app_assoc. reflexivity.
    + exists (w ++ q :: t ++ [q]). rewrite <- app_assoc. cbn [app]. rewrite <- app_assoc. reflexivity.
    + exists (w ++ c :: t). rewrite <- app_assoc. reflexivity.
  - exists (w ++ ds). rewrite <- app_assoc. reflexivity.
  - eexists. rewrite app_assoc. reflexivity.
  - eexists. rewrite app_assoc. reflexivity.
  - eexists. rewrite app_nil_r. reflexivity.
Qed.

Lemma ptok_suffix : forall lax s t r, ptok lax s t r -> exists w, s = w ++ r.
Proof.
  intros lax s t r H. destruct H as [w s t r Hw H| | |].
  - destruct H as [|p r Hl|q t v r Hq Hb|c t r Hc Ht Hr].
    + exists w. reflexivity.
    + exists (w ++ p). rewrite <- app_assoc. reflexivity.
    + exists (w ++ q :: t ++ [q]). rewrite <- app_assoc. cbn [app]. rewrite <- app_assoc. reflexivity.
    + exists (w ++ c :: t). rewrite <- app_assoc. reflexivity.
  - exists (w ++ ds). rewrite <- app_assoc. reflexivity.
  - exists (w ++ 45 :: w' ++ ds). rewrite <- app_assoc. cbn [app]. rewrite <- app_assoc. reflexivity.
  - eexists. rewrite app_nil_r. reflexivity.
Qed.

Lemma etok_nonneg : forall tf lax s t r, nonneg s -> etok tf lax s t r -> nonneg r.
Proof. intros tf lax s t r Hn H. apply etok_suffix in H as [w ->]. apply nonneg_app_r in Hn. assumption. Qed.
Lemma ptok_nonneg : forall lax s t r, nonneg s -> ptok lax s t r -> nonneg r.
Proof. intros lax s t r Hn H. apply ptok_suffix in H as [w ->]. apply nonneg_app_r in Hn. assumption. Qed.

End tokens.
