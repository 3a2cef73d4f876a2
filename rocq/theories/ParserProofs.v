(** The expression parser accepts only texts of the grammar, never panics, and its fuel
    suffices. *)
From Verif Require Import SpecGrammar Lexer Parser LexProofs LexProofs2 LexProofs3 LexProofs4.
Local Open Scope Z_scope.

(** ** The regular-expression literal *)
Lemma lexRegexp_loop_ok : forall n a acc b lx r, (length a <= n)%nat ->
  lexRegexp_loop 47 acc b a = (lx, r) ->
  (exists v, lx = mkLex TRE (LStr v) (Some EUnclosedRE)) \/
  exists t v, a = t ++ 47 :: rd_after r /\ re_body t v /\ lx = mkLex TRE (LStr (acc ++ v)) None.
Proof.
  induction n as [|n IH]; intros a acc b lx r Hn H.
  { destruct a; [|simpl in Hn; lia]. cbn [lexRegexp_loop] in H. injection H as <- <-. eauto. }
  destruct a as [|c a]; cbn [lexRegexp_loop] in H.
  { injection H as <- <-. eauto. }
  destruct (Z.eqb_spec c 47) as [->|Hc].
  { injection H as <- <-. right. exists [], []. rewrite app_nil_r. repeat split. constructor. }
  destruct a as [|d a].
  { cbn [lexRegexp_loop] in H. injection H as <- <-. eauto. }
  destruct ((c =? 92) && (d =? 47)) eqn:E.
  - apply andb_true_iff in E as [E1 E2]. apply Z.eqb_eq in E1, E2. subst c d.
    apply IH in H; [|simpl in *; lia].
    destruct H as [H|(t & v & -> & H2 & ->)]; [left; assumption|].
    right. exists (92 :: 47 :: t), (47 :: v). rewrite <- app_assoc. repeat split. constructor; assumption.
  - apply IH in H; [|simpl in *; lia].
    destruct H as [H|(t & v & H1 & H2 & ->)]; [left; assumption|].
    right. exists (c :: t), (c :: v). rewrite <- app_assoc, H1. repeat split.
    constructor; auto. intros ->. cbn [Z.eqb Pos.eqb andb] in E. apply Z.eqb_neq in E.
    destruct t as [|x t].
    + injection H1 as H1 _. congruence.
    + injection H1 as -> _. simpl. split; [discriminate|congruence].
Qed.

Lemma lexRegexp_loop_app : forall t v, re_body t v -> forall acc b r,
  exists b', lexRegexp_loop 47 acc b (t ++ 47 :: r) = (mkLex TRE (LStr (acc ++ v)) None, mkRd b' r).
Proof.
  intros t v H. induction H; intros acc b r.
  - cbn. rewrite app_nil_r. eauto.
  - cbn [app lexRegexp_loop]. cbn [Z.eqb Pos.eqb andb].
    destruct (IHre_body (acc ++ [47]) (47 :: 92 :: b) r) as [b' E].
    exists b'. rewrite E, <- app_assoc. reflexivity.
  - cbn [app lexRegexp_loop]. destruct (Z.eqb_spec c 47); [congruence|].
    destruct (IHre_body (acc ++ [c]) (c :: b) r) as [b' E]. exists b'. rewrite <- app_assoc in E.
    cbn [app] in E.
    destruct (t ++ 47 :: r) as [|d a] eqn:Et; [assumption|].
    destruct ((c =? 92) && (d =? 47)) eqn:E2; [|assumption].
    apply andb_true_iff in E2 as [E3 E4]. apply Z.eqb_eq in E3, E4. subst c d.
    destruct (H0 eq_refl) as [K1 K2]. destruct t as [|x t]; [congruence|].
    injection Et as -> _. simpl in K2. congruence.
Qed.

(** ** Lexer states *)
Section states.
Variable TX : textoracles.
Notation etk := (etok (o_parse_float TX) true).

(** a name that is an operator, tagged as such *)
Definition retag (lx0 lx : lexeme) : Prop :=
  lx = lx0 \/
  (lx0 = lexeme_of (GName kw_in) /\ lx = mkLex TIn (LStr kw_in) None) \/
  (lx0 = lexeme_of (GName kw_nin) /\ lx = mkLex TNin (LStr kw_nin) None).

(** [lx] was read at the text [s], leaving the state [l] with no lookahead *)
Definition readE (s : bytes) (lx : lexeme) (l : lexer) : Prop :=
  nonneg s /\ l_peek l = None /\
  exists lx0 r0, rd_after r0 = s /\ lexExpr_rd TX r0 = (lx0, l_rd l) /\ retag lx0 lx.

(** the state whose next token is read from the text [s] *)
Definition atE (l : lexer) (s : bytes) : Prop :=
  nonneg s /\
  ((l_peek l = None /\ rd_after (l_rd l) = s) \/
   exists lx, l_peek l = Some lx /\ readE s lx (mkLexer (l_rd l) None)).

Definition rest (l : lexer) : bytes := rd_after (l_rd l).

Lemma lexer_eta : forall l, l_peek l = None -> l = mkLexer (l_rd l) None.
Proof. intros [r p] H. simpl in *. congruence. Qed.

Lemma lexExpr_at : forall l s, atE l s -> exists lx l', lexExpr TX l = (lx, l') /\ readE s lx l'.
Proof.
  intros l s [Hn [[Hp Hs]|(lx & Hp & Hr)]]; unfold lexExpr; rewrite Hp.
  - destruct (lexExpr_rd TX (l_rd l)) as [lx r] eqn:E. eexists _, _. split; [reflexivity|].
    split; [assumption|]. split; [reflexivity|]. exists lx, (l_rd l). repeat split; auto. left. reflexivity.
  - eexists _, _. split; [reflexivity|]. assumption.
Qed.

Lemma read_peek : forall s lx l, readE s lx l ->
  p_unget lx l = OK (mkLexer (l_rd l) (Some lx)) /\ atE (mkLexer (l_rd l) (Some lx)) s /\
  lexExpr TX (mkLexer (l_rd l) (Some lx)) = (lx, l).
Proof.
  intros s lx l (Hn & Hp & Hr). unfold p_unget, unget. rewrite Hp. split; [reflexivity|].
  split.
  - split; [assumption|]. right. exists lx. split; [reflexivity|]. simpl.
    repeat split; auto.
  - unfold lexExpr. simpl. rewrite <- lexer_eta by assumption. reflexivity.
Qed.

(** what can have been read *)
Inductive reading (s : bytes) (lx : lexeme) (r : bytes) : Prop :=
| RBad : bad lx -> reading s lx r
| RJunk : junk lx -> (length r < length s)%nat -> reading s lx r
| RTok : forall t, lx = lexeme_of t -> etk s t r -> reading s lx r
| RIn : lx = mkLex TIn (LStr kw_in) None -> etk s (GName kw_in) r -> reading s lx r
| RNin : lx = mkLex TNin (LStr kw_nin) None -> etk s (GName kw_nin) r -> reading s lx r.

Lemma read_cases : forall s lx l, readE s lx l -> reading s lx (rest l).
Proof.
  intros s lx l (Hn & Hp & lx0 & r0 & Hs & Hl & Hr).
  pose proof (lexExpr_rd_ok TX r0 lx0 (l_rd l)) as H. rewrite Hs in H. specialize (H Hn Hl).
  assert (Hname : forall nm t, lexeme_of t = lexeme_of (GName nm) -> t = GName nm).
  { intros nm [] E; simpl in E; unfold lex_tok in E; inversion E; subst; auto. }
  destruct Hr as [->|[[-> ->]|[-> ->]]].
  - destruct H as [H|[[H [H' _]]|(t & Ht & H)]]; [constructor 1|constructor 2|econstructor 3]; eauto.
  - destruct H as [(e & H & _)|[[H _]|(t & Ht & H)]].
    + discriminate.
    + destruct H as [H|[H|H]]; discriminate.
    + symmetry in Ht. apply Hname in Ht. subst. apply RIn; auto.
  - destruct H as [(e & H & _)|[[H _]|(t & Ht & H)]].
    + discriminate.
    + destruct H as [H|[H|H]]; discriminate.
    + symmetry in Ht. apply Hname in Ht. subst. apply RNin; auto.
Qed.

Lemma suffix_of_lex : forall r0 lx r, lexExpr_rd TX r0 = (lx, r) -> lx_err lx = None ->
  nonneg (rd_after r0) -> nonneg (rd_after r).
Proof.
  intros r0 lx r H He Hn. pose proof (lexExpr_rd_ok TX r0 lx r Hn H) as [(e & -> & _)|[(_ & _ & K)|(t & _ & K)]].
  - discriminate.
  - assumption.
  - eapply etok_nonneg; eauto.
Qed.

Lemma retag_err : forall a b, retag a b -> lx_err b = lx_err a.
Proof. intros a b [->|[[-> ->]|[-> ->]]]; reflexivity. Qed.

(** reading a token without error leaves a proper state at the rest of the text *)
Lemma read_at : forall s lx l, readE s lx l -> lx_err lx = None -> atE l (rest l).
Proof.
  intros s lx l (Hn & Hp & lx0 & r0 & Hs & Hl & Hr) He. subst s. split.
  - eapply suffix_of_lex; eauto. rewrite <- (retag_err _ _ Hr). assumption.
  - left. auto.
Qed.

Lemma read_len : forall s lx l, readE s lx l -> lx_err lx = None -> lx_tok lx <> TEOF ->
  (length (rest l) < length s)%nat.
Proof.
  intros s lx l H He Ht. apply read_cases in H. destruct H as [(e & -> & _)|H H'|t -> H| -> H| -> H].
  - discriminate.
  - assumption.
  - apply etok_len in H as [->|H]; [simpl in Ht; congruence|assumption].
  - apply etok_len in H as [H|H]; [discriminate|assumption].
  - apply etok_len in H as [H|H]; [discriminate|assumption].
Qed.

(** *** look *)
Definition seen (lx : lexeme) : token := match lx_err lx with Some _ => TError | None => lx_tok lx end.

Lemma lookExpr_at : forall l s, atE l s -> exists lx l', readE s lx l' /\
  lookExpr TX l = OK (seen lx, mkLexer (l_rd l') (Some lx)).
Proof.
  intros l s H. destruct (lexExpr_at _ _ H) as (lx & l' & E & Hr).
  exists lx, l'. split; auto. unfold lookExpr, p_look. rewrite E.
  destruct (read_peek _ _ _ Hr) as (-> & _). reflexivity.
Qed.

(** *** lookOp and lexOp *)
Definition optag (lx : lexeme) : lexeme :=
  match lx_err lx, lx_tok lx with
  | None, TID =>
    match lx_val lx with
    | LStr s => mkLex (if beqb s kw_in then TIn else if beqb s kw_nin then TNin else TID) (lx_val lx) None
    | _ => lx
    end
  | _, _ => lx
  end.

Lemma beqb_true : forall a b, beqb a b = true -> a = b.
Proof.
  induction a as [|x a IH]; intros [|y b] H; simpl in H; try discriminate; auto.
  apply andb_true_iff in H as [H1 H2]. apply Z.eqb_eq in H1. f_equal; auto.
Qed.
Lemma beqb_same : forall a, beqb a a = true.
Proof. induction a; simpl; auto. rewrite Z.eqb_refl. assumption. Qed.

Lemma lexOp_at : forall l s, atE l s -> exists lx l', lexOp TX l = OK (lx, l') /\ readE s lx l' /\
  optag lx = lx /\ seen lx = lx_tok lx.
Proof.
  intros l s H. destruct (lexExpr_at _ _ H) as (lx & l' & E & Hr).
  unfold lexOp. rewrite E. pose proof (read_cases _ _ _ Hr) as Hc.
  assert (Hid : forall lx', lx' = lx -> optag lx' = lx' -> seen lx' = lx_tok lx' ->
    match seen lx with TID => False | _ => True end ->
    exists lx1 l1, (match seen lx with
      | TID => let! s0 := lx_s lx in
          OK (mkLex (if beqb s0 kw_in then TIn else if beqb s0 kw_nin then TNin else TID)
                    (lx_val lx) (lx_err lx), l')
      | _ => OK (mkLex (seen lx) (lx_val lx) (lx_err lx), l') end) = OK (lx1, l1) /\
      readE s lx1 l1 /\ optag lx1 = lx1 /\ seen lx1 = lx_tok lx1).
  { intros lx' -> H1 H2 H3. exists lx, l'. rewrite H2 in *. 
    assert (mkLex (lx_tok lx) (lx_val lx) (lx_err lx) = lx) as -> by (destruct lx; reflexivity).
    destruct (lx_tok lx); try contradiction; auto. }
  fold (seen lx).
  destruct Hc as [(e & He & _)|H1 H2|t Ht H1|Ht H1|Ht H1].
  - apply (Hid lx); auto; subst; reflexivity || exact I.
  - apply (Hid lx); auto; destruct H1 as [->|[->| ->]]; reflexivity || exact I.
  - destruct t as [p|v|z|f|nm|].
    + assert (Hp : In p expr_puncts) by (eapply etok_punct_in; eauto).
      assert (Hne : seen lx <> TID).
      { subst lx. unfold expr_puncts in Hp. simpl in Hp.
        repeat (destruct Hp as [<-|Hp]; [discriminate|]). destruct Hp. }
      apply (Hid lx); [reflexivity| | |]; subst lx.
      * unfold optag. simpl. destruct (tok_of p) eqn:Et; auto.
      * reflexivity.
      * destruct (seen (lexeme_of (GPunct p))); auto.
    + apply (Hid lx); auto; subst; reflexivity || exact I.
    + apply (Hid lx); auto; subst; reflexivity || exact I.
    + apply (Hid lx); auto; subst; reflexivity || exact I.
    + subst lx. cbn [lexeme_of seen lx_err lx_tok lx_s lx_val obind].
      eexists _, l'. split; [reflexivity|].
      destruct (beqb nm kw_in) eqn:E1; [|destruct (beqb nm kw_nin) eqn:E2].
      * apply beqb_true in E1. subst nm. repeat split; try apply Hr.
        destruct Hr as (_ & _ & lx0 & r0 & R1 & R2 & R3).
        destruct R3 as [R3|[[_ R3]|[_ R3]]]; try discriminate.
        exists lx0, r0. repeat split; auto. right; left. auto.
      * apply beqb_true in E2. subst nm. repeat split; try apply Hr.
        destruct Hr as (_ & _ & lx0 & r0 & R1 & R2 & R3).
        destruct R3 as [R3|[[_ R3]|[_ R3]]]; try discriminate.
        exists lx0, r0. repeat split; auto. right; right. auto.
      * repeat split; try apply Hr. unfold optag. simpl. rewrite E1, E2. reflexivity.
    + apply (Hid lx); auto; subst; reflexivity || exact I.
  - apply (Hid lx); auto; subst; reflexivity || exact I.
  - apply (Hid lx); auto; subst; reflexivity || exact I.
Qed.

(** a lexeme already tagged is returned as it is *)
Lemma lexOp_tagged : forall lx l, optag lx = lx -> seen lx = lx_tok lx ->
  (lx_tok lx = TID -> exists v, lx_val lx = LStr v) ->
  l_peek l = None ->
  lexOp TX (mkLexer (l_rd l) (Some lx)) = OK (lx, l).
Proof.
  intros lx l Ho Hs Hv Hp. unfold lexOp, lexExpr. cbn [l_peek l_rd].
  rewrite <- (lexer_eta l Hp). fold (seen lx). rewrite Hs.
  destruct lx as [tok v er]. unfold optag in Ho. cbn [lx_tok lx_val lx_err] in *.
  destruct tok; try reflexivity.
  destruct er as [e|]; [unfold seen in Hs; simpl in Hs; discriminate|].
  destruct (Hv eq_refl) as [w ->]. cbn [lx_s lx_val obind]. rewrite Ho. reflexivity.
Qed.

Lemma read_val : forall s lx l, readE s lx l -> lx_tok lx = TID -> exists v, lx_val lx = LStr v.
Proof.
  intros s lx l H Ht. apply read_cases in H.
  destruct H as [(e & -> & _)|H H'|t -> H| -> H| -> H]; try discriminate.
  - destruct H as [->|[->| ->]]; discriminate.
  - destruct t as [p|v|z|f|nm|]; try discriminate; [|simpl; eauto].
    apply etok_punct_in in H. simpl in Ht. exfalso.
    unfold expr_puncts in H. simpl in H.
    repeat (destruct H as [<-|H]; [discriminate|]). destruct H.
Qed.

Lemma lookOp_at : forall l s, atE l s -> exists lx l', readE s lx l' /\
  lookOp TX l = OK (lx_tok lx, mkLexer (l_rd l') (Some lx)) /\
  lexOp TX (mkLexer (l_rd l') (Some lx)) = OK (lx, l') /\
  lookOp TX (mkLexer (l_rd l') (Some lx)) = OK (lx_tok lx, mkLexer (l_rd l') (Some lx)) /\
  seen lx = lx_tok lx.
Proof.
  intros l s H. destruct (lexOp_at _ _ H) as (lx & l' & E & Hr & Ho & Hs).
  exists lx, l'. destruct (read_peek _ _ _ Hr) as (Hu & _).
  assert (Hl : lexOp TX (mkLexer (l_rd l') (Some lx)) = OK (lx, l')).
  { apply lexOp_tagged; auto; [|apply Hr]. eapply read_val; eauto. }
  split; auto. unfold lookOp. rewrite Hl, E. cbn [obind]. rewrite Hu. cbn [obind]. auto.
Qed.
End states.
