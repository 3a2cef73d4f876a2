(** The path parser: exactly the texts of the grammar, no panic, and the fuel suffices. *)
From Verif Require Import SpecGrammar Lexer Parser LexProofs LexProofs2 LexProofs3 LexProofs4
  ParserProofs ParserSound ParserComplete.
Local Open Scope Z_scope.

Lemma enough : forall A (f : nat -> P A), (forall n, below (f n) (f (S n))) ->
  forall n x, f n = OK x -> forall m, f m <> OutOfFuel -> f m = OK x.
Proof.
  intros A f Hf n x E m Hm. destruct (Nat.le_gt_cases n m) as [H|H].
  - eapply more; eauto.
  - assert (K : forall k, below (f m) (f (k + m)%nat)).
    { induction k as [|k IH]; [right; reflexivity|]. simpl.
      destruct IH as [IH|IH]; [left; assumption|]. rewrite IH. apply Hf. }
    destruct (K (n - m)%nat) as [K'|K']; [congruence|].
    replace (n - m + m)%nat with n in K' by lia. congruence.
Qed.

Lemma ptok_end : forall lax s r, ptok lax s GEnd r -> r = [].
Proof. intros lax s r H. inversion H; subst. match goal with K : tok1 _ _ _ _ _ |- _ => inversion K end. reflexivity. Qed.
Lemma etok_end : forall tf lax s r, etok tf lax s GEnd r -> r = [].
Proof. intros tf lax s r H. inversion H; subst. match goal with K : tok1 _ _ _ _ _ |- _ => inversion K end. reflexivity. Qed.

(** a closing parenthesis is the same token for both lexers *)
Lemma close_both : forall tf lax s r, ptok lax s (GPunct [41]) r <-> etok tf lax s (GPunct [41]) r.
Proof.
  assert (L : forall ps ps' d d' s r, In [41] ps' -> (forall x, ~ In [41; x] ps') -> short ps' ->
     tok1 ps d s (GPunct [41]) r -> tok1 ps' d' s (GPunct [41]) r).
  { intros ps ps' d d' s r Hi Hx Hs H. inversion H; subst.
    apply (punct1 ps' d' 41 r); auto.
    intros y Hy. exfalso. exact (Hx y Hy). }
  intros tf lax s r. split; intro H; inversion H; subst; constructor; auto;
    match goal with K : tok1 _ _ _ _ _ |- _ => eapply L; [| | |exact K] end;
    try apply short_expr; try apply short_path; simpl; try tauto;
    intros x K; repeat (destruct K as [K|K]; [discriminate|]); destruct K.
Qed.

Section path.
Variable TX : textoracles.
Notation etk := (etok (o_parse_float TX) true).
Notation ptk := (ptok true).
Notation gx := (g_expr (o_parse_float TX) (o_re_ok TX) true).
Notation gpar := (g_paren (o_parse_float TX) (o_re_ok TX) true).
Notation gbnd := (g_bound (o_parse_float TX) (o_re_ok TX) true).
Notation gob := (g_obound (o_parse_float TX) (o_re_ok TX) true).
Notation gsl := (g_slice (o_parse_float TX) (o_re_ok TX) true).
Notation gel := (g_elem (o_parse_float TX) (o_re_ok TX) true).
Notation gels := (g_elems (o_parse_float TX) (o_re_ok TX) true).
Notation gsub := (g_subscript (o_parse_float TX) (o_re_ok TX) true).
Notation gmem := (g_member (o_parse_float TX) (o_re_ok TX) true).
Notation gstep := (g_step (o_parse_float TX) (o_re_ok TX) true).
Notation gsteps := (g_steps (o_parse_float TX) (o_re_ok TX) true).
Notation len s := (Datatypes.length s).

(** ** Phrases are not empty *)
Lemma etk_lt : forall s t r, etk s t r -> t <> GEnd -> (len r < len s)%nat.
Proof. intros s t r H Ht. apply etok_len in H as [H|H]; [contradiction|assumption]. Qed.
Lemma ptk_lt : forall s p r, ptk s (GPunct p) r -> (len r < len s)%nat.
Proof. intros s t r H. apply ptok_len in H as [H|H]; [discriminate|assumption]. Qed.

Lemma g_len : (forall k s e r, gx k s e r -> (len r < len s)%nat) /\
  (forall s e r, g_unary (o_parse_float TX) (o_re_ok TX) true s e r -> (len r < len s)%nat) /\
  (forall s e r, g_postfix (o_parse_float TX) (o_re_ok TX) true s e r -> (len r < len s)%nat) /\
  (forall s e r, g_atom (o_parse_float TX) (o_re_ok TX) true s e r -> (len r < len s)%nat) /\
  (forall c s l r, g_list (o_parse_float TX) (o_re_ok TX) true c s l r -> (len r < len s)%nat) /\
  (forall s l r, g_items (o_parse_float TX) (o_re_ok TX) true s l r -> (len r < len s)%nat).
Proof.
  assert (B : forall s o k r, binary_op (o_parse_float TX) true s o k r -> (len r < len s)%nat).
  { intros s o k r []; eapply etk_lt; eauto; discriminate. }
  apply g_expr_mutind; intros; unfold punct in *;
    repeat match goal with
    | K : etk _ (GPunct _) _ |- _ => apply etk_lt in K; [|discriminate]
    | K : etk _ (GName _) _ |- _ => apply etk_lt in K; [|discriminate]
    | K : etk _ (GInt _) _ |- _ => apply etk_lt in K; [|discriminate]
    | K : etk _ (GReal _) _ |- _ => apply etk_lt in K; [|discriminate]
    | K : etk _ (GStr _) _ |- _ => apply etk_lt in K; [|discriminate]
    | K : binary_op _ _ _ _ _ _ |- _ => apply B in K
    end; try lia.
  subst. rewrite app_length in *. simpl in *. lia.
Qed.

Lemma ptk_lt' : forall s t r, ptk s t r -> t <> GEnd -> (len r < len s)%nat.
Proof. intros s t r H Ht. apply ptok_len in H as [H|H]; [contradiction|assumption]. Qed.

Ltac lens := unfold ppunct in *; repeat match goal with
    | K : ptok _ _ ?t _ |- _ => apply ptk_lt' in K; [|discriminate]
    | K : g_expr _ _ _ _ _ _ _ |- _ => apply (proj1 g_len) in K
    end; try lia.

Lemma paren_len : forall s e r, gpar s e r -> (len r < len s)%nat.
Proof. intros s e r []. lens. Qed.
Lemma bound_len : forall s e r, gbnd s e r -> (len r < len s)%nat.
Proof. intros s e r [? ? ? K|? ? ? K]; [lens|apply paren_len in K; assumption]. Qed.
Lemma obound_len : forall s e r, gob s e r -> (len r <= len s)%nat.
Proof. intros s e r [?|? ? ? K]; [lia|apply bound_len in K; lia]. Qed.
Lemma slice_len : forall s e r, gsl s e r -> (len r < len s)%nat.
Proof. intros s e r []; repeat match goal with K : gob _ _ _ |- _ => apply obound_len in K end; lens. Qed.
Lemma elem_len : forall s e r, gel s e r -> (len r < len s)%nat.
Proof. intros s e r [ | | |? ? ? K]; intros; try (apply slice_len in K; assumption); lens. Qed.
Lemma member_len : forall s e r, gmem s e r -> (len r < len s)%nat.
Proof. intros s e r [ | | |? ? ? K]; intros; try (apply paren_len in K; assumption); lens. Qed.

(** ** States *)
Definition start (l : lexer) (s : bytes) : Prop := nonneg s /\ l_peek l = None /\ rest l = s.
Definition atP (l : lexer) (s : bytes) : Prop :=
  start l s \/
  (nonneg s /\ exists lx r0, l_peek l = Some lx /\ rd_after r0 = s /\ lexPath_rd TX r0 = (lx, l_rd l)).

Lemma start_fresh : forall l s, start l s -> fresh TX l s.
Proof. intros l s (H1 & H2 & H3). apply none_fresh; auto. Qed.

Definition readP (s : bytes) (lx : lexeme) (l' : lexer) : Prop :=
  bad lx \/ exists t, lx = lexeme_of t /\ ptk s t (rest l') /\ start l' (rest l').

Lemma lexPath_at : forall l s, atP l s -> exists lx l', lexPath TX l = (lx, l') /\ readP s lx l'.
Proof.
  intros l s [(Hn & Hp & Hs)|(Hn & lx & r0 & Hp & Hs & E)]; unfold lexPath; rewrite Hp.
  - destruct (lexPath_rd TX (l_rd l)) as [lx r] eqn:E. eexists _, _. split; [reflexivity|].
    pose proof (lexPath_rd_ok TX (l_rd l) lx r) as K. unfold rest in Hs. rewrite Hs in K.
    destruct (K Hn E) as [K'|(t & -> & K')]; [left; assumption|right].
    exists t. split; [reflexivity|]. split; [assumption|]. split; [|split; reflexivity].
    eapply ptok_nonneg; eauto.
  - eexists _, _. split; [reflexivity|].
    pose proof (lexPath_rd_ok TX r0 lx (l_rd l)) as K. rewrite Hs in K.
    destruct (K Hn E) as [K'|(t & -> & K')]; [left; assumption|right].
    exists t. split; [reflexivity|]. split; [assumption|]. split; [|split; reflexivity].
    eapply ptok_nonneg; eauto.
Qed.

Lemma lookPath_at : forall l s, atP l s -> exists lx l1 l', lookPath TX l = OK (seen lx, l1) /\
  atP l1 s /\ lexPath TX l1 = (lx, l') /\ readP s lx l'.
Proof.
  intros l s H. destruct (lexPath_at l s H) as (lx & l' & E & Hr).
  assert (K : nonneg s /\ l_peek l' = None /\ exists r0, rd_after r0 = s /\ lexPath_rd TX r0 = (lx, l_rd l')).
  { destruct H as [(Hn & Hp & Hs)|(Hn & lx0 & r0 & Hp & Hs & E0)]; unfold lexPath in E; rewrite Hp in E.
    - destruct (lexPath_rd TX (l_rd l)) as [lx1 r] eqn:E1. injection E as -> <-. eauto 10.
    - injection E as -> <-. eauto 10. }
  destruct K as (Hn & Hp & r0 & Hs & E0).
  exists lx, (mkLexer (l_rd l') (Some lx)), l'. unfold lookPath, p_look. rewrite E. unfold p_unget, unget.
  rewrite Hp. cbn [obind]. split; [reflexivity|]. split.
  - right. split; [assumption|]. exists lx, r0. auto.
  - split; [|assumption]. unfold lexPath. cbn [l_peek l_rd]. rewrite <- lexer_eta by assumption. reflexivity.
Qed.

Lemma lexPath_tok : forall l s t r, atP l s -> ptk s t r ->
  exists l', lexPath TX l = (lexeme_of t, l') /\ start l' r.
Proof.
  intros l s t r H Ht. unfold lexPath.
  destruct H as [(Hn & Hp & Hs)|(Hn & lx & r0 & Hp & Hs & E)]; rewrite Hp.
  - destruct (lexPath_rd_app TX _ _ _ Ht (l_rd l) Hs) as (r1 & -> & Hr).
    eexists. split; [reflexivity|]. split; [eapply ptok_nonneg; eauto|split; auto].
  - destruct (lexPath_rd_app TX _ _ _ Ht r0 Hs) as (r1 & E1 & Hr). rewrite E in E1. injection E1 as -> <-.
    eexists. split; [reflexivity|]. split; [eapply ptok_nonneg; eauto|split; auto].
Qed.

Lemma lookPath_tok : forall l s t r, atP l s -> ptk s t r ->
  exists l1 l', lookPath TX l = OK (lx_tok (lexeme_of t), l1) /\ atP l1 s /\
    lexPath TX l1 = (lexeme_of t, l') /\ start l' r.
Proof.
  intros l s t r H Ht. destruct (lookPath_at l s H) as (lx & l1 & l' & E1 & Hat & E2 & _).
  destruct (lexPath_tok l1 s t r Hat Ht) as (l2 & E3 & Hs). rewrite E2 in E3. injection E3 as -> ->.
  exists l1, l2. split; [|auto]. rewrite E1. destruct t; reflexivity.
Qed.

Lemma start_at : forall l s, start l s -> atP l s.
Proof. left. assumption. Qed.
Hint Resolve start_at : core.

(** ** Results *)
Definition good {A} (res : P A) (Q : A -> lexer -> Prop) : Prop :=
  match res with
  | OK (x, l') => Q x l'
  | Fail e => clean e
  | Panics => False
  | OutOfFuel => False
  end.

Lemma good_bind : forall A B (m : P A) (f : A * lexer -> P B) Q R, good m Q ->
  (forall x l', Q x l' -> good (f (x, l')) R) -> good (obind m f) R.
Proof. intros A B [[x l']|e| |] f Q R Hm Hf; simpl in *; auto. Qed.

(** every kind of token, by what the parser looks at *)
Lemma tok_int : forall t, lx_tok (lexeme_of t) = TInt -> (forall p, t = GPunct p -> In p path_puncts) ->
  exists z, t = GInt z.
Proof.
  intros t Ht Hp. destruct t; simpl in *; try discriminate; eauto.
  specialize (Hp _ eq_refl). repeat (destruct Hp as [<-|Hp]; [discriminate|]). destruct Hp.
Qed.

Lemma lexeme_no_err : forall t, lx_err (lexeme_of t) = None.
Proof. destruct t; reflexivity. Qed.

(** *** Parenthesised expressions *)
Lemma script_sound : forall l s, start l s ->
  good (p_script TX l) (fun e l' => exists r, atE TX l' r /\ (len r < len s)%nat /\ gx 0 s e r).
Proof.
  intros l s H. pose proof (fresh_at _ _ _ (start_fresh _ _ H)) as Ha.
  unfold p_script. pose proof (snd_expr _ _ (sound_all TX (expr_fuel l)) 0%nat l s Ha ltac:(lia)) as S.
  change (Z.of_nat 0) with 0 in S.
  destruct (p_expr TX (expr_fuel l) 0 l) as [[e l']|e| |]; simpl in *; auto.
  - destruct S as (r & S1 & S2 & S3 & _). eauto.
  - unfold expr_fuel in S. destruct H as (_ & _ & H). unfold rest in H. rewrite H in S. lia.
Qed.

Lemma script_complete : forall l s e r, start l s -> gx 0 s e r -> closes TX r ->
  exists l1, p_script TX l = OK (e, l1) /\ atE TX l1 r.
Proof.
  intros l s e r H He Hc. pose proof (start_fresh _ _ H) as Hf.
  destruct (CE_closes TX s e r l (proj1 (complete_all TX) _ _ _ _ He) Hc Hf) as (l1 & n & Hat & E).
  exists l1. split; [|assumption]. unfold p_script.
  apply (enough _ (fun n => p_expr TX n 0 l)) with (n := n); auto.
  - intro k. apply (mono_expr _ _ (mono_all TX k)).
  - pose proof (script_sound _ _ H) as S. unfold p_script in S.
    intro K. rewrite K in S. destruct S.
Qed.

(** the closing parenthesis after an expression, read by the other lexer *)
Lemma expect_close_sound : forall l s, atE TX l s ->
  match p_expect (lexPath TX l) (TChar 41) with
  | OK l' => start l' (rest l') /\ ptk s (GPunct [41]) (rest l')
  | Fail e => clean e
  | _ => False
  end.
Proof.
  intros l s H. destruct (l_peek l) as [lx|] eqn:Hp.
  - assert (lexPath TX l = lexExpr TX l) as -> by (unfold lexPath, lexExpr; rewrite Hp; reflexivity).
    assert (Hnone : l_peek (snd (lexExpr TX l)) = None) by (unfold lexExpr; rewrite Hp; reflexivity).
    pose proof (expect_ok TX l s 41 H ltac:(discriminate) ltac:(discriminate) ltac:(discriminate)) as X.
    destruct (lexExpr TX l) as [lx' l2] eqn:E. unfold p_expect in *.
    destruct (lx_err lx') as [er|]; [assumption|].
    destruct (tok_eqb (lx_tok lx') (TChar 41)); [|exact I].
    destruct X as (X1 & X2 & X3). split; [|apply (close_both (o_parse_float TX)); assumption].
    split; [apply X1|]. split; [assumption|reflexivity].
  - destruct H as [Hn [[_ Hs]|(lx & Hp' & _)]]; [|congruence].
    assert (Ha : atP l s) by (left; split; [assumption|split; assumption]).
    destruct (lexPath_at _ _ Ha) as (lx & l' & E & [(e & -> & He)|(t & -> & Ht & Hst)]); rewrite E; unfold p_expect.
    + simpl. destruct e; simpl in *; auto.
    + rewrite lexeme_no_err. destruct (tok_eqb (lx_tok (lexeme_of t)) (TChar 41)) eqn:Et; [|exact I].
      assert (Hx : lx_tok (lexeme_of t) = TChar 41).
      { destruct (lx_tok (lexeme_of t)); simpl in Et; try discriminate. apply Z.eqb_eq in Et. congruence. }
      apply lexeme_char in Hx. subst t. auto.
Qed.

Lemma expect_close_complete : forall l s r, atE TX l s -> ptk s (GPunct [41]) r ->
  exists l', p_expect (lexPath TX l) (TChar 41) = OK l' /\ start l' r.
Proof.
  intros l s r H Ht. destruct (l_peek l) as [lx|] eqn:Hp.
  - assert (lexPath TX l = lexExpr TX l) as -> by (unfold lexPath, lexExpr; rewrite Hp; reflexivity).
    apply (close_both (o_parse_float TX)) in Ht.
    destruct (read_punct _ _ _ _ _ H Ht) as (l' & E & N & R & F). exists l'. rewrite E.
    split; [reflexivity|]. split; [apply F|]. auto.
  - destruct H as [Hn [[_ Hs]|(lx & Hp' & _)]]; [|congruence].
    assert (Ha : atP l s) by (left; split; [assumption|split; assumption]).
    destruct (lexPath_tok _ _ _ _ Ha Ht) as (l' & E & Hst). exists l'. rewrite E. split; [reflexivity|assumption].
Qed.

Lemma paren_sound : forall l s, start l s ->
  good (p_paren TX l) (fun e l' => exists m, start l' (rest l') /\ gx 0 s e m /\ ptk m (GPunct [41]) (rest l')).
Proof.
  intros l s H. unfold p_paren. eapply good_bind; [apply script_sound; eassumption|].
  intros e l1 (r & H1 & H2 & H3). cbv beta iota.
  pose proof (expect_close_sound l1 r H1) as X.
  destruct (p_expect (lexPath TX l1) (TChar 41)) as [l2|er| |]; simpl in *; auto.
  exists r. tauto.
Qed.

Lemma paren_complete : forall l s e m r, start l s -> gx 0 s e m -> ptk m (GPunct [41]) r ->
  exists l1, p_paren TX l = OK (e, l1) /\ start l1 r.
Proof.
  intros l s e m r H He Ht.
  assert (Hc : closes TX m).
  { right. exists 41, r. split; [simpl; auto|]. apply close_both. assumption. }
  destruct (script_complete _ _ _ _ H He Hc) as (l1 & E & Hat).
  destruct (expect_close_complete _ _ _ Hat Ht) as (l2 & E2 & Hs).
  exists l2. split; [|assumption]. unfold p_paren. rewrite E. cbn [obind]. rewrite E2. reflexivity.
Qed.

(** *** Slices *)
Lemma char_tok : forall s t r c, ptk s t r -> lx_tok (lexeme_of t) = TChar c -> ptk s (GPunct [c]) r.
Proof. intros s t r c H E. apply lexeme_char in E. subst t. assumption. Qed.

Ltac bad_tok :=
  match goal with
  | K : ptk _ (GPunct _) _ |- _ => apply ptok_punct_in in K; simpl in K;
      repeat (destruct K as [<-|K]; [first [discriminate|exact I]|]); destruct K
  end.

Lemma slice_val_sound : forall l s, atP l s ->
  good (p_slice_val TX l) (fun b l' => start l' (rest l') /\ gbnd s b (rest l')).
Proof.
  intros l s H. unfold p_slice_val.
  destruct (lexPath_at _ _ H) as (lx & l' & -> & [(e & -> & He)|(t & -> & Ht & Hs)]); [exact I|].
  destruct t as [p|v|z|f|nm|]; try exact I.
  - cbn [lexeme_of lx_tok lex_tok]. destruct (tok_of p) as [c| | | | | | | | | | | | | | | | | |] eqn:Etok; try exact I.
    + apply tok_of_char in Etok. subst p. destruct (Z.eqb_spec c 40) as [->|]; [|exact I].
      eapply good_bind; [apply paren_sound; eassumption|]. intros e l2 (m & H1 & H2 & H3). simpl.
      split; [assumption|]. apply GBExpr. econstructor; [exact Ht|exact H2|exact H3].
    + exfalso. apply ptok_punct_in in Ht. simpl in Ht.
      repeat (destruct Ht as [<-|Ht]; [discriminate|]). destruct Ht.
  - simpl. split; [assumption|]. apply GBInt. assumption.
Qed.

Lemma slice_val_complete : forall l s b r, atP l s -> gbnd s b r ->
  exists l1, p_slice_val TX l = OK (b, l1) /\ start l1 r.
Proof.
  intros l s b r H Hb. unfold p_slice_val. destruct Hb as [s z r Ht|s e r Hp].
  - destruct (lexPath_tok _ _ _ _ H Ht) as (l1 & -> & Hs). exists l1. split; [reflexivity|assumption].
  - destruct Hp as [s m e m' r Ht He Hc]. destruct (lexPath_tok _ _ _ _ H Ht) as (l1 & -> & Hs).
    destruct (paren_complete _ _ _ _ _ Hs He Hc) as (l2 & E & Hs2). exists l2. cbn. rewrite E. auto.
Qed.

Definition ends (s : bytes) : Prop := exists c r, (c = 44 \/ c = 93) /\ ptk s (GPunct [c]) r.

Lemma end_tok : forall t, is_end_tok t = true -> t = TChar 44 \/ t = TChar 93.
Proof.
  intros t H. unfold is_end_tok in H. apply orb_true_iff in H as [H|H];
  destruct t; simpl in H; try discriminate; apply Z.eqb_eq in H; subst; auto.
Qed.

Lemma tok_eqb_char : forall t c, tok_eqb t (TChar c) = true -> t = TChar c.
Proof. intros t c H. destruct t; simpl in H; try discriminate. apply Z.eqb_eq in H. congruence. Qed.

Lemma seen_char : forall s lx l c, readP s lx l -> seen lx = TChar c ->
  ptk s (GPunct [c]) (rest l) /\ start l (rest l).
Proof.
  intros s lx l c [(e & -> & He)|(t & -> & Ht & Hs)] E; [discriminate|].
  unfold seen in E. rewrite lexeme_no_err in E. apply lexeme_char in E. subst t. auto.
Qed.

Lemma slice_tail_sound : forall a b l s s0 m m', atP l s -> gob s0 a m -> ptk m (GPunct [58]) m' -> gob m' b s ->
  good (p_slice_tail TX a b l) (fun sl l' => exists r, atP l' r /\ gsl s0 sl r).
Proof.
  intros a b l s s0 m m' H Ha Hc Hb. unfold p_slice_tail.
  destruct (lookPath_at _ _ H) as (lx & l1 & l' & -> & Hat & E1 & Hr). cbn [obind].
  destruct (is_end_tok (seen lx)).
  { simpl. exists s. split; [assumption|]. eapply GSlice2; eauto. }
  destruct (tok_eqb (seen lx) (TChar 58)) eqn:Ec.
  - apply tok_eqb_char in Ec. destruct (seen_char _ _ _ _ Hr Ec) as (Hc2 & Hs2). rewrite E1.
    destruct (lookPath_at _ _ (start_at _ _ Hs2)) as (lx2 & l3 & l4 & -> & Hat3 & E3 & Hr3). cbn [obind].
    destruct (is_end_tok (seen lx2)).
    + simpl. exists (rest l'). split; [assumption|]. eapply GSlice3; eauto. constructor.
    + eapply good_bind; [apply slice_val_sound; eassumption|]. intros bd l5 (S1 & S2). simpl.
      exists (rest l5). split; [auto|]. eapply GSlice3; eauto. constructor. assumption.
  - destruct (lookPath_at _ _ Hat) as (lx2 & l3 & l4 & -> & _). exact I.
Qed.

Lemma slice_sound : forall a l s s0 m, atP l s -> gob s0 a m -> ptk m (GPunct [58]) s ->
  good (p_slice TX a l) (fun st l' => exists r sl, atP l' r /\ st = mkStep OpSelect [PSlice sl] /\ gsl s0 sl r).
Proof.
  intros a l s s0 m H Ha Hc. unfold p_slice.
  destruct (lookPath_at _ _ H) as (lx & l1 & l' & -> & Hat & E1 & Hr). cbn [obind].
  eapply good_bind with (Q := fun sl l' => exists r, atP l' r /\ gsl s0 sl r).
  - destruct (is_end_tok (seen lx)).
    { simpl. exists s. split; [assumption|]. eapply GSlice2; eauto. constructor. }
    destruct (tok_eqb (seen lx) (TChar 58)) eqn:Ec; cbn [negb].
    + eapply slice_tail_sound; eauto. constructor.
    + eapply good_bind; [apply slice_val_sound; eassumption|]. intros bd l5 (S1 & S2). cbv beta iota.
      eapply slice_tail_sound; eauto. constructor. assumption.
  - intros sl l2 (r & R1 & R2). simpl. eauto.
Qed.

Lemma look_end : forall l s, atP l s -> ends s -> exists t l1, lookPath TX l = OK (t, l1) /\ atP l1 s /\
  is_end_tok t = true /\ tok_eqb t (TChar 58) = false.
Proof.
  intros l s H (c & r & Hc & Ht). destruct (lookPath_tok _ _ _ _ H Ht) as (l1 & l' & E & Hat & _).
  exists (TChar c), l1. split; [exact E|]. split; [assumption|]. destruct Hc; subst; split; reflexivity.
Qed.

Lemma look_colon : forall l s r, atP l s -> ptk s (GPunct [58]) r -> exists l1 l2 lx,
  lookPath TX l = OK (TChar 58, l1) /\ atP l1 s /\ lexPath TX l1 = (lx, l2) /\ start l2 r.
Proof.
  intros l s r H Ht. destruct (lookPath_tok _ _ _ _ H Ht) as (l1 & l' & E & Hat & E2 & Hs).
  eexists l1, l', _. split; [exact E|]. eauto.
Qed.

(** the first token of a bound neither ends the slice nor is a colon *)
Lemma look_bound : forall l s b r, atP l s -> gbnd s b r -> exists t l1, lookPath TX l = OK (t, l1) /\ atP l1 s /\
  is_end_tok t = false /\ tok_eqb t (TChar 58) = false.
Proof.
  intros l s b r H Hb.
  assert (Ht : exists t r', ptk s t r' /\ is_end_tok (lx_tok (lexeme_of t)) = false /\
     tok_eqb (lx_tok (lexeme_of t)) (TChar 58) = false).
  { destruct Hb as [s z r Ht|s e r [? ? ? ? ? Ht]]; eexists _, _; (split; [exact Ht|]); split; reflexivity. }
  destruct Ht as (t & r' & Ht & Q1 & Q2). destruct (lookPath_tok _ _ _ _ H Ht) as (l1 & l' & E & Hat & _).
  eauto 10.
Qed.

Lemma slice_tail_complete2 : forall a b l s, atP l s -> ends s ->
  exists l1, p_slice_tail TX a b l = OK (mkSlice a b None, l1) /\ atP l1 s.
Proof.
  intros a b l s H He. unfold p_slice_tail. destruct (look_end _ _ H He) as (t & l1 & -> & Hat & E & _).
  cbn [obind]. rewrite E. eauto.
Qed.

Lemma slice_tail_complete3 : forall a b c l s n r, atP l s -> ptk s (GPunct [58]) n -> gob n c r -> ends r ->
  exists l1, p_slice_tail TX a b l = OK (mkSlice a b c, l1) /\ atP l1 r.
Proof.
  intros a b c l s n r H Hc Hg He. unfold p_slice_tail.
  destruct (look_colon _ _ _ H Hc) as (l1 & l2 & lx & -> & Hat & E & Hs). cbn [obind].
  change (is_end_tok (TChar 58)) with false. change (tok_eqb (TChar 58) (TChar 58)) with true. cbv iota.
  rewrite E. inversion Hg as [s0|s0 bd r0 Hb]; subst.
  - destruct (look_end _ _ (start_at _ _ Hs) He) as (t & l3 & -> & Hat3 & E3 & _). cbn [obind]. rewrite E3. eauto.
  - destruct (look_bound _ _ _ _ (start_at _ _ Hs) Hb) as (t & l3 & -> & Hat3 & E3 & _). cbn [obind]. rewrite E3.
    destruct (slice_val_complete _ _ _ _ Hat3 Hb) as (l4 & -> & Hs4). cbn [obind]. eauto.
Qed.

(** the part of a slice after its first colon *)
Inductive slice_rest (a : option bound) : bytes -> slice -> bytes -> Prop :=
| SR2 : forall s b r, gob s b r -> slice_rest a s (mkSlice a b None) r
| SR3 : forall s b n n' c r, gob s b n -> ptk n (GPunct [58]) n' -> gob n' c r -> slice_rest a s (mkSlice a b c) r.

Lemma slice_complete : forall a l s sl r, atP l s -> slice_rest a s sl r -> ends r ->
  exists l1, p_slice TX a l = OK (mkStep OpSelect [PSlice sl], l1) /\ atP l1 r.
Proof.
  intros a l s sl r H Hs He. unfold p_slice. destruct Hs as [s b r Hb|s b n n' c r Hb Hc Hg].
  - inversion Hb as [s0|s0 bd r0 Hb']; subst.
    + destruct (look_end _ _ H He) as (t & l1 & -> & Hat & E & _). cbn [obind]. rewrite E. cbn. eauto.
    + destruct (look_bound _ _ _ _ H Hb') as (t & l1 & -> & Hat & E1 & E2). cbn [obind]. rewrite E1, E2. cbn [negb].
      destruct (slice_val_complete _ _ _ _ Hat Hb') as (l2 & -> & Hs2). cbn [obind].
      destruct (slice_tail_complete2 a (Some bd) _ _ (start_at _ _ Hs2) He) as (l3 & -> & Hat3). cbn [obind]. eauto.
  - inversion Hb as [s0|s0 bd r0 Hb']; subst.
    + destruct (look_colon _ _ _ H Hc) as (l1 & l2 & lx & -> & Hat & E & Hs). cbn [obind].
      change (is_end_tok (TChar 58)) with false. change (tok_eqb (TChar 58) (TChar 58)) with true. cbv iota.
      cbn [negb].
      destruct (slice_tail_complete3 a None _ _ _ _ _ Hat Hc Hg He) as (l3 & -> & Hat3). cbn [obind]. eauto.
    + destruct (look_bound _ _ _ _ H Hb') as (t & l1 & -> & Hat & E1 & E2). cbn [obind]. rewrite E1, E2. cbn [negb].
      destruct (slice_val_complete _ _ _ _ Hat Hb') as (l2 & -> & Hs2). cbn [obind].
      destruct (slice_tail_complete3 a (Some bd) _ _ _ _ _ (start_at _ _ Hs2) Hc Hg He) as (l3 & -> & Hat3).
      cbn [obind]. eauto.
Qed.

(** *** Elements of a subscript *)
Definition elem_step (v : pval) : pstep :=
  mkStep (match v with PInt _ => OpInt | PStr _ => OpString | PName _ => OpID | _ => OpSelect end) [v].

Inductive g_val : bytes -> pstep -> bytes -> Prop :=
| VWild : forall s r, ptk s (GPunct (b_of "*")) r -> g_val s (mkStep OpWild []) r
| VFilter : forall s m e m' r, ptk s (GPunct (b_of "?(")) m -> gx 0 m e m' -> ptk m' (GPunct [41]) r ->
    g_val s (mkStep OpFilter [PExpr e]) r
| VExpr : forall s e r, gpar s e r -> g_val s (mkStep OpExp [PExpr e]) r
| VElem : forall s v r, gel s v r -> g_val s (elem_step v) r.

Lemma val_sound : forall l s, atP l s ->
  good (p_val TX l) (fun st l' => exists r, atP l' r /\ g_val s st r).
Proof.
  intros l s H. unfold p_val.
  destruct (lexPath_at _ _ H) as (lx & l1 & -> & [(e & -> & He)|(t & -> & Ht & Hs)]); [exact He|].
  rewrite lexeme_no_err.
  destruct t as [p|v|z|f|nm|]; try exact I.
  - cbn [lexeme_of lx_tok lex_tok]. pose proof (ptok_punct_in _ _ _ _ Ht) as Hin. simpl in Hin.
    repeat (destruct Hin as [<-|Hin]; [try exact I|]); [| | | |destruct Hin].
    + (* paren *) cbn -[p_paren lookPath lexPath p_slice].
      eapply good_bind; [apply paren_sound; eassumption|]. intros e l2 (m & M1 & M2 & M3). cbv beta iota.
      assert (Hpar : gpar s e (rest l2)) by (econstructor; [exact Ht|exact M2|exact M3]).
      destruct (lookPath_at _ _ (start_at _ _ M1)) as (lx & l3 & l4 & -> & Hat & E1 & Hr). cbn [obind].
      destruct (tok_eqb (seen lx) (TChar 58)) eqn:Ec.
      * apply tok_eqb_char in Ec. destruct (seen_char _ _ _ _ Hr Ec) as (Hc2 & Hs2). rewrite E1.
        pose proof (slice_sound (Some (BExpr e)) l4 (rest l4) s (rest l2) (start_at _ _ Hs2)
          (GBSome _ _ _ _ _ _ (GBExpr _ _ _ _ _ _ Hpar)) Hc2) as S.
        destruct (p_slice TX _ l4) as [[st l5]|er| |]; simpl in *; auto.
        destruct S as (r & sl & S1 & -> & S3). exists r. split; [assumption|].
        apply (VElem _ (PSlice sl)). constructor. assumption.
      * simpl. exists (rest l2). split; [assumption|]. constructor. assumption.
    + (* star *) simpl. exists (rest l1). split; [auto|]. constructor. assumption.
    + (* colon *) cbn -[p_slice].
      pose proof (slice_sound None l1 (rest l1) s s (start_at _ _ Hs) (GBNone _ _ _ _) Ht) as S.
      destruct (p_slice TX _ l1) as [[st l5]|er| |]; simpl in *; auto.
      destruct S as (r & sl & S1 & -> & S3). exists r. split; [assumption|].
      apply (VElem _ (PSlice sl)). constructor. assumption.
    + (* filter *) cbn -[p_paren].
      eapply good_bind; [apply paren_sound; eassumption|]. intros e l2 (m & M1 & M2 & M3). simpl.
      exists (rest l2). split; [auto|]. eapply VFilter; eauto.
  - simpl. exists (rest l1). split; [auto|]. apply (VElem _ (PStr v)). constructor. assumption.
  - cbn -[lookPath lexPath p_slice].
    destruct (lookPath_at _ _ (start_at _ _ Hs)) as (lx & l3 & l4 & -> & Hat & E1 & Hr). cbn [obind].
    destruct (tok_eqb (seen lx) (TChar 58)) eqn:Ec.
    + apply tok_eqb_char in Ec. destruct (seen_char _ _ _ _ Hr Ec) as (Hc2 & Hs2). rewrite E1.
      pose proof (slice_sound (Some (BInt z)) l4 (rest l4) s (rest l1) (start_at _ _ Hs2)
        (GBSome _ _ _ _ _ _ (GBInt _ _ _ _ _ _ Ht)) Hc2) as S.
      destruct (p_slice TX _ l4) as [[st l5]|er| |]; simpl in *; auto.
      destruct S as (r & sl & S1 & -> & S3). exists r. split; [assumption|].
      apply (VElem _ (PSlice sl)). constructor. assumption.
    + simpl. exists (rest l1). split; [assumption|]. apply (VElem _ (PInt z)). constructor. assumption.
  - simpl. exists (rest l1). split; [auto|]. apply (VElem _ (PName nm)). constructor. assumption.
Qed.

Lemma slice_split : forall s sl r, gsl s sl r -> exists m m', gob s (sl_start sl) m /\
  ptk m (GPunct [58]) m' /\ slice_rest (sl_start sl) m' sl r.
Proof.
  intros s sl r []; exists m, m'; (split; [assumption|]); (split; [assumption|]).
  - constructor. assumption.
  - eapply SR3; eauto.
Qed.

Lemma val_complete : forall l s st r, atP l s -> g_val s st r -> ends r ->
  exists l1, p_val TX l = OK (st, l1) /\ atP l1 r.
Proof.
  intros l s st r H Hv He. unfold p_val. destruct Hv as [s r Ht|s m e m' r Ht Hx Hc|s e r Hp|s v r Hv].
  - destruct (lexPath_tok _ _ _ _ H Ht) as (l1 & -> & Hs). exists l1. split; [reflexivity|auto].
  - destruct (lexPath_tok _ _ _ _ H Ht) as (l1 & -> & Hs).
    destruct (paren_complete _ _ _ _ _ Hs Hx Hc) as (l2 & E & Hs2). exists l2.
    cbn -[p_paren]. rewrite E. cbn [obind]. auto.
  - destruct Hp as [s m e m' r Ht Hx Hc]. destruct (lexPath_tok _ _ _ _ H Ht) as (l1 & -> & Hs).
    destruct (paren_complete _ _ _ _ _ Hs Hx Hc) as (l2 & E & Hs2). cbn -[p_paren lookPath lexPath p_slice].
    rewrite E. cbn [obind]. destruct (look_end _ _ (start_at _ _ Hs2) He) as (t & l3 & -> & Hat & _ & E3).
    cbn [obind]. rewrite E3. eauto.
  - destruct Hv as [s z r Ht|s v r Ht|s n r Ht|s sl r Hsl].
    + destruct (lexPath_tok _ _ _ _ H Ht) as (l1 & -> & Hs). cbn -[p_paren lookPath lexPath p_slice].
      destruct (look_end _ _ (start_at _ _ Hs) He) as (t & l3 & -> & Hat & _ & E3). cbn [obind]. rewrite E3. eauto.
    + destruct (lexPath_tok _ _ _ _ H Ht) as (l1 & -> & Hs). exists l1. split; [reflexivity|auto].
    + destruct (lexPath_tok _ _ _ _ H Ht) as (l1 & -> & Hs). exists l1. split; [reflexivity|auto].
    + destruct (slice_split _ _ _ Hsl) as (m & m' & Ha & Hc & Hr).
      inversion Ha as [s0|s0 bd r0 Hb]; subst.
      * destruct (lexPath_tok _ _ _ _ H Hc) as (l1 & -> & Hs). cbn -[p_slice].
        rewrite <- H1 in Hr. apply (slice_complete None _ _ _ _ (start_at _ _ Hs) Hr He).
      * rewrite <- H1 in Hr. destruct Hb as [s1 z m1 Ht|s1 e m1 [s2 m0 e2 m3 m2 Ht Hx Hcl]].
        -- destruct (lexPath_tok _ _ _ _ H Ht) as (l1 & -> & Hs). cbn -[p_paren lookPath lexPath p_slice].
           destruct (look_colon _ _ _ (start_at _ _ Hs) Hc) as (l3 & l4 & lx & -> & Hat & E & Hs4). cbn [obind].
           change (tok_eqb (TChar 58) (TChar 58)) with true. cbv iota. rewrite E.
           apply (slice_complete _ _ _ _ _ (start_at _ _ Hs4) Hr He).
        -- destruct (lexPath_tok _ _ _ _ H Ht) as (l1 & -> & Hs). cbn -[p_paren lookPath lexPath p_slice].
           destruct (paren_complete _ _ _ _ _ Hs Hx Hcl) as (l2 & -> & Hs2). cbn [obind].
           destruct (look_colon _ _ _ (start_at _ _ Hs2) Hc) as (l3 & l4 & lx & -> & Hat & E & Hs4). cbn [obind].
           change (tok_eqb (TChar 58) (TChar 58)) with true. cbv iota. rewrite E.
           apply (slice_complete _ _ _ _ _ (start_at _ _ Hs4) Hr He).
Qed.

(** *** Lists of elements *)
Inductive g_vals : bytes -> list pstep -> bytes -> Prop :=
| VOne : forall s st r, g_val s st r -> g_vals s [st] r
| VMore : forall s st m m' l r, g_val s st m -> ptk m (GPunct [44]) m' -> g_vals m' l r -> g_vals s (st :: l) r.

Lemma val_len : forall s st r, g_val s st r -> (len r < len s)%nat.
Proof.
  intros s st r [? ? K|? ? ? ? ? K1 K2 K3|? ? ? K|? ? ? K]; try lens.
  - apply paren_len in K. assumption.
  - apply elem_len in K. assumption.
Qed.

Lemma vals_sound : forall n acc l s, atP l s -> (len s < n)%nat ->
  good (p_val_list TX n acc l) (fun sts l' => exists r vs, atP l' r /\ sts = acc ++ vs /\ g_vals s vs r).
Proof.
  induction n as [|n IH]; intros acc l s H Hn; [lia|]. cbn [p_val_list].
  eapply good_bind; [apply val_sound; eassumption|]. intros st l1 (r & H1 & H2). cbv beta iota.
  destruct (lookPath_at _ _ H1) as (lx & l3 & l4 & -> & Hat & E1 & Hr). cbn [obind].
  destruct (tok_eqb (seen lx) (TChar 44)) eqn:Ec; cbn [negb].
  - apply tok_eqb_char in Ec. destruct (seen_char _ _ _ _ Hr Ec) as (Hc2 & Hs2). rewrite E1.
    pose proof (val_len _ _ _ H2) as L1. pose proof (ptk_lt _ _ _ Hc2) as L2.
    pose proof (IH (acc ++ [st]) l4 (rest l4) (start_at _ _ Hs2) ltac:(lia)) as S.
    destruct (p_val_list TX n _ l4) as [[sts l5]|er| |]; simpl in *; auto.
    destruct S as (r' & vs & S1 & -> & S3). exists r', (st :: vs). split; [assumption|].
    rewrite <- app_assoc. split; [reflexivity|]. eapply VMore; eauto.
  - simpl. exists r, [st]. split; [assumption|]. split; [reflexivity|]. constructor. assumption.
Qed.

Lemma vals_mono : forall n acc l, below (p_val_list TX n acc l) (p_val_list TX (S n) acc l).
Proof.
  induction n as [|n IH]; intros acc l; [left; reflexivity|].
  change (p_val_list TX (S n) acc l) with
    (let! (s, l1) := p_val TX l in let! (t, l2) := lookPath TX l1 in
     if negb (tok_eqb t (TChar 44)) then OK (acc ++ [s], l2)
     else let (_, l3) := lexPath TX l2 in p_val_list TX n (acc ++ [s]) l3).
  change (p_val_list TX (S (S n)) acc l) with
    (let! (s, l1) := p_val TX l in let! (t, l2) := lookPath TX l1 in
     if negb (tok_eqb t (TChar 44)) then OK (acc ++ [s], l2)
     else let (_, l3) := lexPath TX l2 in p_val_list TX (S n) (acc ++ [s]) l3).
  apply below_bind_l. intros [st l1]. apply below_bind_l. intros [t l2].
  destruct (negb (tok_eqb t (TChar 44))); [apply below_refl|]. destruct (lexPath TX l2). apply IH.
Qed.

Lemma vals_complete : forall s vs r, g_vals s vs r -> forall rr, ptk r (GPunct [93]) rr ->
  forall acc l, atP l s -> exists n l1, p_val_list TX n acc l = OK (acc ++ vs, l1) /\ atP l1 r.
Proof.
  intros s vs r H. induction H as [s st r Hv|s st m m' vs r Hv Hc Hvs IH]; intros rr Hrr acc l Hl.
  - assert (He : ends r) by (exists 93, rr; auto).
    destruct (val_complete _ _ _ _ Hl Hv He) as (l1 & E & Hat). 
    destruct (lookPath_tok _ _ _ _ Hat Hrr) as (l2 & l3 & E2 & Hat2 & _).
    exists 1%nat, l2. cbn [p_val_list]. rewrite E. cbn [obind]. rewrite E2. cbn. auto.
  - assert (He : ends m) by (exists 44, m'; auto).
    destruct (val_complete _ _ _ _ Hl Hv He) as (l1 & E & Hat).
    destruct (lookPath_tok _ _ _ _ Hat Hc) as (l2 & l3 & E2 & Hat2 & E3 & Hs3).
    destruct (IH rr Hrr (acc ++ [st]) l3 (start_at _ _ Hs3)) as (n & l4 & E4 & Hat4).
    exists (S n), l4. split; [|assumption]. cbn [p_val_list]. rewrite E. cbn [obind]. rewrite E2.
    cbn -[p_val_list lexPath]. rewrite E3, E4. rewrite <- app_assoc. reflexivity.
Qed.

(** *** The step a subscript stands for *)
Lemma vals_ne : forall s vs r, g_vals s vs r -> vs <> [].
Proof. intros s vs r []; discriminate. Qed.

Lemma union_elems : forall s vs r, g_vals s vs r -> union_bad vs = None ->
  exists args, union_args vs = OK args /\ gels s args r /\ len args = len vs.
Proof.
  intros s vs r H. induction H as [s st r Hv|s st m m' vs r Hv Hc Hvs IH]; intro Hb.
  - destruct Hv as [ | | |s v r Hv]; simpl in Hb; try discriminate.
    exists [v]. simpl. split; [reflexivity|]. split; [constructor; assumption|reflexivity].
  - destruct Hv as [ | | |s v m Hv]; simpl in Hb; try discriminate.
    assert (Hb' : union_bad vs = None) by (destruct v; assumption).
    destruct (IH Hb') as (args & E & G & L). exists (v :: args). simpl. rewrite E. cbn [obind].
    split; [reflexivity|]. split; [eapply GElMore; eauto|]. congruence.
Qed.

Lemma bad_clean : forall vs o, union_bad vs = Some o -> clean (EInUnion o).
Proof. intros. exact I. Qed.

Lemma subscript_sound : forall s vs r, g_vals s vs r ->
  match subscript_step vs with OK st => gsub s st r | Fail e => clean e | _ => False end.
Proof.
  intros s vs r H. unfold subscript_step. destruct (Z.ltb_spec 1 (Z.of_nat (len vs))) as [Hl|Hl].
  - destruct (union_bad vs) as [o|] eqn:Hb; [exact I|].
    destruct (union_elems _ _ _ H Hb) as (args & E & G & L).
    assert (K : gsub s (mkStep OpUnion args) r) by (apply GSubUnion; [assumption|lia]).
    destruct vs as [|st vs]; [simpl in Hl; lia|].
    assert (Hst : st_op st <> OpWild /\ st_op st <> OpFilter /\ st_op st <> OpExp).
    { simpl in Hb. destruct (st_op st); try discriminate; repeat split; discriminate. }
    assert (Ea : (match args with [_] => OpSelect | _ => OpUnion end) = OpUnion).
    { destruct args as [|? [|? ?]]; simpl in *; try lia; reflexivity. }
    destruct Hst as (N1 & N2 & N3).
    destruct (st_op st); try contradiction; try congruence; rewrite E; cbn [obind]; rewrite Ea; assumption.
  - destruct H as [s st r Hv|s st m m' vs r Hv Hc Hvs].
    + destruct Hv as [s r Ht|s m e m' r Ht Hx Hc|s e r Hp|s v r Hv]; simpl.
      * apply GSubWild. assumption.
      * eapply GSubFilter; eauto.
      * apply GSubExpr. assumption.
      * destruct Hv; simpl; constructor; constructor; assumption.
    + apply vals_ne in Hvs. destruct vs; [congruence|]. simpl in Hl. lia.
Qed.

Lemma elems_vals : forall s l r, gels s l r -> g_vals s (map elem_step l) r.
Proof. intros s l r H. induction H; simpl; [constructor; constructor; assumption|eapply VMore; eauto; constructor; assumption]. Qed.

Lemma union_bad_elems : forall s l r, gels s l r -> union_bad (map elem_step l) = None.
Proof.
  intros s l r H. induction H as [s v r H|s v m m' l r H]; simpl; destruct H; simpl; auto.
Qed.

Lemma union_args_elems : forall l, union_args (map elem_step l) = OK l.
Proof. induction l as [|v l IH]; simpl; auto. rewrite IH. reflexivity. Qed.

Lemma subscript_complete : forall s st r, gsub s st r -> exists vs, g_vals s vs r /\ subscript_step vs = OK st.
Proof.
  intros s st r [s' r' Ht|s' m e m' r' Ht Hx Hc|s' e r' Hp|s' v r' Hv|s' l r' Hl Hn].
  - eexists. split; [apply VOne, VWild; exact Ht|reflexivity].
  - eexists. split; [apply VOne; eapply VFilter; eauto|reflexivity].
  - eexists. split; [apply VOne, VExpr; exact Hp|reflexivity].
  - eexists. split; [apply VOne, VElem; exact Hv|]. destruct Hv; reflexivity.
  - exists (map elem_step l). split; [apply elems_vals; assumption|]. unfold subscript_step.
    destruct (Z.ltb_spec 1 (Z.of_nat (len (map elem_step l)))) as [K|K]; [|rewrite map_length in K; lia].
    rewrite (union_bad_elems _ _ _ Hl), union_args_elems.
    destruct Hl as [s1 v r1 H|s1 v m m' l r1 H]; [simpl in Hn; lia|].
    destruct l as [|v2 l]; [match goal with K : gels _ [] _ |- _ => inversion K end|].
    destruct H; reflexivity.
Qed.

Lemma expect_path_sound : forall l s c, atP l s ->
  match p_expect (lexPath TX l) (TChar c) with
  | OK l' => start l' (rest l') /\ ptk s (GPunct [c]) (rest l')
  | Fail e => clean e
  | _ => False
  end.
Proof.
  intros l s c Ha.
  destruct (lexPath_at _ _ Ha) as (lx & l' & E & [(e & -> & He)|(t & -> & Ht & Hst)]); rewrite E; unfold p_expect.
  - simpl. destruct e; simpl in *; auto.
  - rewrite lexeme_no_err. destruct (tok_eqb (lx_tok (lexeme_of t)) (TChar c)) eqn:Et; [|exact I].
    apply tok_eqb_char, lexeme_char in Et. subst t. auto.
Qed.

Lemma expect_path_complete : forall l s c r, atP l s -> ptk s (GPunct [c]) r ->
  exists l', p_expect (lexPath TX l) (TChar c) = OK l' /\ start l' r.
Proof.
  intros l s c r Ha Ht. destruct (lexPath_tok _ _ _ _ Ha Ht) as (l' & E & Hs). exists l'.
  rewrite E. unfold p_expect. simpl. rewrite Z.eqb_refl. auto.
Qed.

Lemma brackets_sound : forall l s, start l s ->
  good (p_brackets TX l) (fun st l' => exists m, start l' (rest l') /\ gsub s st m /\ ptk m (GPunct [93]) (rest l')).
Proof.
  intros l s H. unfold p_brackets.
  eapply good_bind with (Q := fun st l' => exists m, atP l' m /\ gsub s st m).
  - unfold p_subscript. eapply good_bind.
    + apply vals_sound with (s := s); [auto|]. destruct H as (_ & _ & H). unfold list_fuel, rest in *. rewrite H. lia.
    + intros sts l1 (r & vs & H1 & -> & H3). cbv beta iota. cbn [app].
      pose proof (subscript_sound _ _ _ H3) as S.
      destruct (subscript_step vs) as [st|e| |]; simpl in *; auto. eauto.
  - intros st l1 (m & H1 & H2). cbv beta iota.
    pose proof (expect_path_sound l1 m 93 H1) as X.
    destruct (p_expect (lexPath TX l1) (TChar 93)) as [l2|er| |]; simpl in *; auto.
    exists m. tauto.
Qed.

Lemma brackets_complete : forall l s st m r, start l s -> gsub s st m -> ptk m (GPunct [93]) r ->
  exists l1, p_brackets TX l = OK (st, l1) /\ start l1 r.
Proof.
  intros l s st m r H Hg Hc. destruct (subscript_complete _ _ _ Hg) as (vs & Hv & E).
  destruct (vals_complete _ _ _ Hv _ Hc [] l (start_at _ _ H)) as (n & l1 & E1 & Hat).
  assert (E2 : p_val_list TX (list_fuel l) [] l = OK (vs, l1)).
  { apply (enough _ (fun n => p_val_list TX n [] l)) with (n := n); auto.
    - intro k. apply vals_mono.
    - assert (L : (len s < list_fuel l)%nat).
      { destruct H as (_ & _ & H). unfold list_fuel, rest in *. rewrite H. lia. }
      pose proof (vals_sound (list_fuel l) [] l s (start_at _ _ H) L) as S.
      intro K. rewrite K in S. destruct S. }
  destruct (expect_path_complete _ _ _ _ Hat Hc) as (l2 & E3 & Hs).
  exists l2. split; [|assumption]. unfold p_brackets, p_subscript. rewrite E2. cbn [obind]. rewrite E.
  cbn [obind]. rewrite E3. reflexivity.
Qed.

(** *** Members *)
Definition member_step (m : option pval) : pstep :=
  match m with None => mkStep OpWild [] | Some v => mkStep OpMember [v] end.

Lemma member_sound : forall l s, atP l s ->
  good (p_member TX l) (fun m l' => start l' (rest l') /\ gmem s (member_step m) (rest l')).
Proof.
  intros l s H. unfold p_member.
  destruct (lexPath_at _ _ H) as (lx & l1 & -> & [(e & -> & He)|(t & -> & Ht & Hs)]); [exact He|].
  rewrite lexeme_no_err.
  destruct t as [p|v|z|f|nm|]; try exact I.
  - cbn [lexeme_of lx_tok lex_tok]. pose proof (ptok_punct_in _ _ _ _ Ht) as Hin. simpl in Hin.
    repeat (destruct Hin as [<-|Hin]; [try exact I|]); [| |destruct Hin].
    + cbn -[p_paren].
      eapply good_bind; [apply paren_sound; eassumption|]. intros e l2 (m & M1 & M2 & M3). simpl.
      split; [assumption|]. apply GMemExpr. econstructor; [exact Ht|exact M2|exact M3].
    + simpl. split; [assumption|]. constructor. assumption.
  - simpl. split; [assumption|]. constructor. assumption.
  - simpl. split; [assumption|]. constructor. assumption.
Qed.

Lemma member_complete : forall l s st r, atP l s -> gmem s st r ->
  exists m l1, p_member TX l = OK (m, l1) /\ st = member_step m /\ start l1 r.
Proof.
  intros l s st r H Hm. unfold p_member. destruct Hm as [s r Ht|s n r Ht|s z r Ht|s e r [s' m e' m' r' Ht Hx Hc]].
  - destruct (lexPath_tok _ _ _ _ H Ht) as (l1 & -> & Hs). exists None, l1. auto.
  - destruct (lexPath_tok _ _ _ _ H Ht) as (l1 & -> & Hs). exists (Some (PName n)), l1. auto.
  - destruct (lexPath_tok _ _ _ _ H Ht) as (l1 & -> & Hs). exists (Some (PInt z)), l1. auto.
  - destruct (lexPath_tok _ _ _ _ H Ht) as (l1 & -> & Hs).
    destruct (paren_complete _ _ _ _ _ Hs Hx Hc) as (l2 & E & Hs2). exists (Some (PExpr e')), l2.
    cbn -[p_paren]. rewrite E. auto.
Qed.

(** ** Paths *)
Lemma nest_sub : forall s st r, gsub s st r -> exists o, nest_op (st_op st) = OK o /\
  nested st = mkStep o (st_args st).
Proof. intros s st r []; eexists; split; reflexivity. Qed.

Lemma nest_member : forall s m r, gmem s (member_step m) r -> nested (member_step m) =
  match m with None => mkStep OpNestWild [] | Some v => mkStep OpNestMember [v] end.
Proof. intros s [v|] r _; reflexivity. Qed.

Lemma nest_member' : forall m, nested (member_step m) =
  match m with None => mkStep OpNestWild [] | Some v => mkStep OpNestMember [v] end.
Proof. intros [v|]; reflexivity. Qed.

Lemma path_loop_S : forall n acc l, p_path_loop TX (S n) acc l =
    let (lx, l1) := lexPath TX l in
    match lx_tok lx with
    | TEOF => OK (acc, l1)
    | TError => match lx_err lx with Some er => Fail er | None => Panics end
    | TChar c =>
      if c =? 46 then
        let! (m, l2) := p_member TX l1 in
        p_path_loop TX n (acc ++ [match m with
                               | None => mkStep OpWild []
                               | Some v => mkStep OpMember [v]
                               end]) l2
      else if c =? 91 then
        let! (s, l2) := p_brackets TX l1 in
        p_path_loop TX n (acc ++ [s]) l2
      else Fail (EUnexpectedLex (TChar c) (lx_val lx))
    | TNest =>
      let! (t, l2) := lookPath TX l1 in
      if tok_eqb t (TChar 91) then
        let (_, l3) := lexPath TX l2 in
        let! (s, l4) := p_brackets TX l3 in
        let! o := nest_op (st_op s) in
        p_path_loop TX n (acc ++ [mkStep o (st_args s)]) l4
      else
        let! (m, l3) := p_member TX l2 in
        p_path_loop TX n (acc ++ [match m with
                               | None => mkStep OpNestWild []
                               | Some v => mkStep OpNestMember [v]
                               end]) l3
    | t => Fail (EUnexpectedLex t (lx_val lx))
    end.
Proof. reflexivity. Qed.

Definition loop_result (acc : path) (s : bytes) (p : path) (l' : lexer) : Prop :=
  exists sts, p = acc ++ sts /\ gsteps s sts.

Lemma loop_more : forall acc st s m res, gstep s st m ->
  good res (loop_result (acc ++ [st]) m) -> good res (loop_result acc s).
Proof.
  intros acc st s m [[p l']|e| |] Hst H; simpl in *; auto. destruct H as (sts & -> & Hs).
  exists (st :: sts). split; [rewrite <- app_assoc; reflexivity|]. eapply GStepsMore; eauto.
Qed.

Lemma sub_len : forall s st r, gsub s st r -> (len r < len s)%nat.
Proof.
  intros s st r H. destruct (subscript_complete _ _ _ H) as (vs & Hv & _). clear H.
  induction Hv as [s st' r Hv|s st' m m' vs r Hv Hc Hvs IH]; apply val_len in Hv; [assumption|]. lens.
Qed.

Lemma path_loop_sound : forall n acc l s, start l s -> (len s < n)%nat ->
  good (p_path_loop TX n acc l) (loop_result acc s).
Proof.
  induction n as [|n IH]; intros acc l s H Hn; [lia|]. rewrite path_loop_S.
  destruct (lexPath_at _ _ (start_at _ _ H)) as (lx & l1 & -> & [(e & -> & He)|(t & -> & Ht & Hs)]); [exact He|].
  destruct t as [p|v|z|f|nm|]; try exact I.
  - cbn [lexeme_of lx_tok lex_tok]. pose proof (ptok_punct_in _ _ _ _ Ht) as Hin. simpl in Hin.
    pose proof (ptk_lt _ _ _ Ht) as L.
    repeat (destruct Hin as [<-|Hin]; [try exact I|]); [| | |destruct Hin].
    + (* [ *) cbn -[p_brackets p_path_loop].
      eapply good_bind; [apply brackets_sound; eassumption|]. intros st l2 (m & M1 & M2 & M3). cbv beta iota.
      eapply loop_more; [eapply GStepSub; [exact Ht|exact M2|exact M3]|].
      apply IH; [assumption|]. apply sub_len in M2. lens.
    + (* . *) cbn -[p_member p_path_loop].
      eapply good_bind; [apply (member_sound l1 (rest l1)); auto|]. intros m l2 (M1 & M2). cbv beta iota.
      eapply loop_more with (st := member_step m); [eapply GStepMember; [exact Ht|exact M2]|].
      apply IH; [assumption|]. apply member_len in M2. lia.
    + (* .. *) cbn -[p_member p_path_loop p_brackets lookPath lexPath].
      destruct (lookPath_at _ _ (start_at _ _ Hs)) as (lx & l3 & l4 & -> & Hat & E1 & Hr). cbn [obind].
      destruct (tok_eqb (seen lx) (TChar 91)) eqn:Ec.
      * apply tok_eqb_char in Ec. destruct (seen_char _ _ _ _ Hr Ec) as (Hc2 & Hs2). rewrite E1.
        eapply good_bind; [apply brackets_sound; eassumption|]. intros st l5 (m & M1 & M2 & M3). cbv beta iota.
        destruct (nest_sub _ _ _ M2) as (o & -> & E). cbn [obind]. rewrite <- E.
        eapply loop_more; [eapply GStepNestSub; [exact Ht|exact Hc2|exact M2|exact M3]|].
        apply IH; [assumption|]. apply sub_len in M2. lens.
      * eapply good_bind; [apply member_sound; eassumption|]. intros m l5 (M1 & M2). cbv beta iota.
        rewrite <- nest_member'.
        eapply loop_more; [eapply GStepNestMember; [exact Ht|exact M2]|].
        apply IH; [assumption|]. apply member_len in M2. lia.
  - simpl. exists []. split; [rewrite app_nil_r; reflexivity|]. pose proof (ptok_end _ _ _ Ht) as Hr. rewrite Hr in Ht.
    constructor. assumption.
Qed.

Lemma path_loop_mono : forall n acc l, below (p_path_loop TX n acc l) (p_path_loop TX (S n) acc l).
Proof.
  induction n as [|n IH]; intros acc l; [left; reflexivity|]. rewrite !path_loop_S.
  destruct (lexPath TX l) as [lx l1]. destruct (lx_tok lx); try apply below_refl.
  - destruct (c =? 46).
    { apply below_bind_l. intros [m l2]. apply IH. }
    destruct (c =? 91); [|apply below_refl]. apply below_bind_l. intros [m l2]. apply IH.
  - apply below_bind_l. intros [t l2]. destruct (tok_eqb t (TChar 91)).
    + destruct (lexPath TX l2) as [lx3 l3]. apply below_bind_l. intros [m l4].
      destruct (nest_op (st_op m)); simpl; try apply below_refl. apply IH.
    + apply below_bind_l. intros [m l3]. apply IH.
Qed.

Lemma member_open : forall l s st r, atP l s -> gmem s st r ->
  exists t l1, lookPath TX l = OK (t, l1) /\ atP l1 s /\ tok_eqb t (TChar 91) = false.
Proof.
  intros l s st r H Hm.
  assert (Ht : exists t r', ptk s t r' /\ tok_eqb (lx_tok (lexeme_of t)) (TChar 91) = false).
  { destruct Hm as [s r Ht|s n r Ht|s z r Ht|s e r [s' m e' m' r' Ht Hx Hc]];
      eexists _, _; (split; [exact Ht|reflexivity]). }
  destruct Ht as (t & r' & Ht & Q1). destruct (lookPath_tok _ _ _ _ H Ht) as (l1 & l' & E & Hat & _).
  eauto 10.
Qed.

Lemma step_complete : forall s st m, gstep s st m -> forall l, start l s ->
  exists l1, start l1 m /\ forall n acc, p_path_loop TX (S n) acc l = p_path_loop TX n (acc ++ [st]) l1.
Proof.
  intros s st m Hst l Hl. destruct Hst as [s m st r Ht Hm|s m st m' r Ht Hg Hc|s m st r Ht Hm|s n m st m' r Ht Hn Hg Hc].
  - destruct (lexPath_tok _ _ _ _ (start_at _ _ Hl) Ht) as (l1 & E & Hs).
    destruct (member_complete _ _ _ _ (start_at _ _ Hs) Hm) as (o & l2 & E2 & -> & Hs2).
    exists l2. split; [assumption|]. intros n acc. rewrite path_loop_S, E. cbn -[p_member p_path_loop].
    rewrite E2. reflexivity.
  - destruct (lexPath_tok _ _ _ _ (start_at _ _ Hl) Ht) as (l1 & E & Hs).
    destruct (brackets_complete _ _ _ _ _ Hs Hg Hc) as (l2 & E2 & Hs2).
    exists l2. split; [assumption|]. intros n acc. rewrite path_loop_S, E. cbn -[p_brackets p_path_loop].
    rewrite E2. reflexivity.
  - destruct (lexPath_tok _ _ _ _ (start_at _ _ Hl) Ht) as (l1 & E & Hs).
    destruct (member_open _ _ _ _ (start_at _ _ Hs) Hm) as (t & l3 & E3 & Hat3 & Et).
    destruct (member_complete _ _ _ _ Hat3 Hm) as (o & l2 & E2 & -> & Hs2).
    exists l2. split; [assumption|]. intros n acc. rewrite path_loop_S, E.
    cbn -[p_member p_path_loop lookPath p_brackets lexPath nested].
    rewrite E3. cbn [obind]. rewrite Et, E2. cbn [obind]. rewrite nest_member'. reflexivity.
  - destruct (lexPath_tok _ _ _ _ (start_at _ _ Hl) Ht) as (l1 & E & Hs).
    destruct (lookPath_tok _ _ _ _ (start_at _ _ Hs) Hn) as (l2 & l3 & E2 & Hat2 & E3 & Hs3).
    destruct (brackets_complete _ _ _ _ _ Hs3 Hg Hc) as (l4 & E4 & Hs4).
    destruct (nest_sub _ _ _ Hg) as (o & Eo & En).
    exists l4. split; [assumption|]. intros k acc. rewrite path_loop_S, E.
    cbn -[p_member p_path_loop lookPath p_brackets lexPath nested nest_op].
    rewrite E2. cbn -[p_member p_path_loop lookPath p_brackets lexPath nested nest_op]. rewrite E3, E4.
    cbn [obind]. rewrite Eo. cbn [obind]. rewrite <- En. reflexivity.
Qed.

Lemma path_loop_complete : forall s p, gsteps s p -> forall acc l, start l s ->
  exists n l1, p_path_loop TX n acc l = OK (acc ++ p, l1).
Proof.
  intros s p H. induction H as [s Ht|s st m p Hst Hp IH]; intros acc l Hl.
  - destruct (lexPath_tok _ _ _ _ (start_at _ _ Hl) Ht) as (l1 & E & Hs).
    exists 1%nat, l1. rewrite path_loop_S, E. cbn. rewrite app_nil_r. reflexivity.
  - destruct (step_complete _ _ _ Hst _ Hl) as (l1 & Hs & E).
    destruct (IH (acc ++ [st]) l1 Hs) as (n & l2 & E2). exists (S n), l2. rewrite E, E2, <- app_assoc. reflexivity.
Qed.

Notation gpath := (g_path (o_parse_float TX) (o_re_ok TX) true).
Notation gscript := (g_script (o_parse_float TX) (o_re_ok TX) true).

Lemma start_new : forall s, nonneg s -> start (new_parser s) s.
Proof. intros s H. split; [assumption|]. split; reflexivity. Qed.

Theorem path_sound : forall s, nonneg s ->
  match ParsePath TX s with OK p => gpath s p | Fail e => clean e | _ => False end.
Proof.
  intros s H. unfold ParsePath, p_path.
  pose proof (expect_path_sound (new_parser s) s 36 (start_at _ _ (start_new s H))) as X.
  destruct (p_expect (lexPath TX (new_parser s)) (TChar 36)) as [l1|er| |]; cbn [obind]; auto.
  destruct X as (X1 & X2).
  pose proof (path_loop_sound (list_fuel l1) [] l1 (rest l1) X1 ltac:(unfold list_fuel, rest; lia)) as S.
  destruct (p_path_loop TX (list_fuel l1) [] l1) as [[p l2]|er| |]; simpl in *; auto.
  destruct S as (sts & -> & S).
  exists (rest l1). auto.
Qed.

Theorem path_complete : forall s p, nonneg s -> gpath s p -> ParsePath TX s = OK p.
Proof.
  intros s p H (m & Hd & Hp). unfold ParsePath, p_path.
  destruct (expect_path_complete _ _ 36 _ (start_at _ _ (start_new s H)) Hd) as (l1 & -> & Hs). cbn [obind].
  destruct (path_loop_complete _ _ Hp [] l1 Hs) as (n & l2 & E).
  assert (E2 : p_path_loop TX (list_fuel l1) [] l1 = OK (p, l2)).
  { apply (enough _ (fun n => p_path_loop TX n [] l1)) with (n := n); auto.
    - intro k. apply path_loop_mono.
    - assert (L : (len m < list_fuel l1)%nat).
      { destruct Hs as (_ & _ & Hs). unfold list_fuel, rest in *. rewrite Hs. lia. }
      pose proof (path_loop_sound (list_fuel l1) [] l1 m Hs L) as S. intro K. rewrite K in S. exact S. }
  rewrite E2. reflexivity.
Qed.

Lemma tok_eof : forall s lx l, readE TX s lx l -> lx_tok lx = TEOF -> etk s GEnd [].
Proof.
  intros s lx l H Ht. apply read_cases in H. destruct H as [(e & -> & _)|H H'|t -> H| -> H| -> H]; try discriminate.
  - destruct H as [->|[->| ->]]; discriminate.
  - destruct t as [p|v|z|f|nm|]; try discriminate.
    + apply etok_punct_in in H. simpl in Ht. exfalso. unfold expr_puncts in H. simpl in H.
      repeat (destruct H as [<-|H]; [discriminate|]). destruct H.
    + pose proof (etok_end _ _ _ _ H) as Hr. rewrite Hr in H. assumption.
Qed.

Theorem script_sound_all : forall s, nonneg s ->
  match ParseScriptExpression TX s with OK e => gscript s e | Fail e => clean e | _ => False end.
Proof.
  intros s H. unfold ParseScriptExpression. pose proof (script_sound _ _ (start_new s H)) as S.
  destruct (p_script TX (new_parser s)) as [[e l]|er| |]; simpl in *; auto.
  destruct S as (r & S1 & S2 & S3). destruct (lexExpr_at _ _ _ S1) as (lx & l1 & -> & Hr).
  destruct (tok_eqb (lx_tok lx) TEOF) eqn:Et; simpl; [|exact I].
  exists r. split; [assumption|]. eapply tok_eof; eauto. destruct (lx_tok lx); simpl in Et; try discriminate. reflexivity.
Qed.

Theorem script_complete_all : forall s e, nonneg s -> gscript s e -> ParseScriptExpression TX s = OK e.
Proof.
  intros s e H (r & He & Hr). unfold ParseScriptExpression.
  destruct (script_complete _ _ _ _ (start_new s H) He (or_introl Hr)) as (l1 & -> & Hat). cbn [obind].
  destruct (read_token _ _ _ _ _ Hat Hr) as (lx & l' & -> & _ & Hg & _).
  apply retag_same in Hg; [|discriminate]. subst lx. reflexivity.
Qed.
End path.
