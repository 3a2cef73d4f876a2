(** The expression parser accepts every text of the grammar. *)
From Verif Require Import SpecGrammar Lexer Parser LexProofs LexProofs2 LexProofs3 LexProofs4
  ParserProofs ParserSound.
Local Open Scope Z_scope.

(** ** More fuel does not change an answer *)
Definition below {A} (a b : P A) : Prop := a = OutOfFuel \/ a = b.

Lemma below_refl : forall A (a : P A), below a a.
Proof. right. reflexivity. Qed.

Lemma below_bind : forall A B (m m' : P A) (f f' : A * lexer -> P B), below m m' ->
  (forall x, below (f x) (f' x)) -> below (obind m f) (obind m' f').
Proof.
  intros A B m m' f f' [->| ->] Hf; [left; reflexivity|].
  destruct m' as [x|e| |]; simpl; try apply below_refl. apply Hf.
Qed.

Lemma below_bind_l : forall A B (m : outcome perr A) (f f' : A -> P B),
  (forall x, below (f x) (f' x)) -> below (obind m f) (obind m f').
Proof. intros A B m f f' Hf. destruct m as [x|e| |]; simpl; try apply below_refl. apply Hf. Qed.

Section fuel.
Variable TX : textoracles.

Record mono (n : nat) : Prop := {
  mono_expr : forall pri l, below (p_expr TX n pri l) (p_expr TX (S n) pri l);
  mono_loop : forall pri e l, below (p_expr_loop TX n pri e l) (p_expr_loop TX (S n) pri e l);
  mono_unary : forall o l, below (p_unary TX n o l) (p_unary TX (S n) o l);
  mono_primary : forall l, below (p_primary TX n l) (p_primary TX (S n) l);
  mono_ploop : forall e l, below (p_primary_loop TX n e l) (p_primary_loop TX (S n) e l);
  mono_app : forall o t args l, below (p_application TX n o t args l) (p_application TX (S n) o t args l);
  mono_list : forall args l, below (p_exprlist TX n args l) (p_exprlist TX (S n) args l);
  mono_primary1 : forall l, below (p_primary1 TX n l) (p_primary1 TX (S n) l)
}.

Lemma mono_all : forall n, mono n.
Proof.
  induction n as [|n [M1 M2 M3 M4 M5 M6 M7 M8]].
  { constructor; intros; left; reflexivity. }
  constructor; intros.
  - rewrite !p_expr_S. apply below_bind; [apply M4|]. intros [e l1]. apply M2.
  - rewrite !(p_expr_loop_S TX). apply below_bind_l. intros [t l1].
    destruct (precedence (tok2op t) >=? pri); [|apply below_refl].
    apply below_bind_l. intros [lx l2]. destruct (lx_err lx); [apply below_refl|].
    apply below_bind; [apply M1|]. intros [rhs l3]. apply M2.
  - rewrite !p_unary_S. apply below_bind; [apply M4|]. intros [a l1]. apply below_refl.
  - rewrite !p_primary_S. apply below_bind; [apply M8|]. intros [e l1]. apply M5.
  - rewrite !(p_primary_loop_S TX). apply below_bind_l. intros [t l1].
    destruct t; try apply below_refl.
    destruct (c =? 40).
    { destruct (negb (op_beq (opcode e) OpID)); [apply below_refl|].
      apply below_bind; [apply M6|]. intros [e' l3]. apply M5. }
    destruct (c =? 91).
    { apply below_bind; [apply M1|]. intros [ix l3]. apply below_bind_l. intro. apply M5. }
    destruct (c =? 46); [|apply below_refl]. cbv zeta.
    destruct (lexExpr TX (advanceExpr TX l1)) as [lx l3]. destruct (lx_err lx); [apply below_refl|].
    destruct (negb (tok_eqb (lx_tok lx) TID)); [apply below_refl|].
    apply below_bind_l. intro. apply M5.
  - rewrite !(p_application_S TX). apply below_bind_l. intros [t0 l1].
    apply below_bind.
    + destruct (negb (tok_eqb t0 t)); [apply M7|apply below_refl].
    + intros [a l2]. apply below_refl.
  - rewrite !(p_exprlist_S TX). apply below_bind; [apply M1|]. intros [e l1].
    apply below_bind_l. intros [t l2]. destruct (negb (tok_eqb t (TChar 44))); [apply below_refl|apply M7].
  - rewrite !(p_primary1_S TX). destruct (lexExpr TX l) as [lx l1].
    destruct (lx_err lx); [apply below_refl|]. destruct (lx_tok lx); try apply below_refl.
    destruct (c =? 45); [apply M3|]. destruct (c =? 33); [apply M3|].
    destruct (c =? 47); [apply below_refl|]. destruct (c =? 64); [apply below_refl|].
    destruct (c =? 36); [apply below_refl|].
    destruct (c =? 40). { apply below_bind; [apply M1|]. intros [e l2]. apply below_refl. }
    destruct (c =? 91); [apply M6|apply below_refl].
Qed.

Lemma more : forall A (f : nat -> P A), (forall n, below (f n) (f (S n))) ->
  forall n x, f n = OK x -> forall m, (n <= m)%nat -> f m = OK x.
Proof.
  intros A f Hf n x E m Hm. induction Hm; auto.
  destruct (Hf m) as [H|H]; congruence.
Qed.

Lemma more_expr : forall n pri l x m, p_expr TX n pri l = OK x -> (n <= m)%nat -> p_expr TX m pri l = OK x.
Proof. intros. eapply (more _ (fun n => p_expr TX n pri l)); eauto. intro k. apply (mono_expr _ (mono_all k)). Qed.
Lemma more_loop : forall n pri e l x m, p_expr_loop TX n pri e l = OK x -> (n <= m)%nat -> p_expr_loop TX m pri e l = OK x.
Proof. intros. eapply (more _ (fun n => p_expr_loop TX n pri e l)); eauto. intro k. apply (mono_loop _ (mono_all k)). Qed.
Lemma more_primary : forall n l x m, p_primary TX n l = OK x -> (n <= m)%nat -> p_primary TX m l = OK x.
Proof. intros. eapply (more _ (fun n => p_primary TX n l)); eauto. intro k. apply (mono_primary _ (mono_all k)). Qed.
Lemma more_ploop : forall n e l x m, p_primary_loop TX n e l = OK x -> (n <= m)%nat -> p_primary_loop TX m e l = OK x.
Proof. intros. eapply (more _ (fun n => p_primary_loop TX n e l)); eauto. intro k. apply (mono_ploop _ (mono_all k)). Qed.
Lemma more_app : forall n o t a l x m, p_application TX n o t a l = OK x -> (n <= m)%nat -> p_application TX m o t a l = OK x.
Proof. intros. eapply (more _ (fun n => p_application TX n o t a l)); eauto. intro k. apply (mono_app _ (mono_all k)). Qed.
Lemma more_list : forall n a l x m, p_exprlist TX n a l = OK x -> (n <= m)%nat -> p_exprlist TX m a l = OK x.
Proof. intros. eapply (more _ (fun n => p_exprlist TX n a l)); eauto. intro k. apply (mono_list _ (mono_all k)). Qed.
Lemma more_primary1 : forall n l x m, p_primary1 TX n l = OK x -> (n <= m)%nat -> p_primary1 TX m l = OK x.
Proof. intros. eapply (more _ (fun n => p_primary1 TX n l)); eauto. intro k. apply (mono_primary1 _ (mono_all k)). Qed.
End fuel.

Section complete.
Variable TX : textoracles.
Notation etk := (etok (o_parse_float TX) true).
Notation gx := (g_expr (o_parse_float TX) (o_re_ok TX) true).
Notation gu := (g_unary (o_parse_float TX) (o_re_ok TX) true).
Notation gp := (g_postfix (o_parse_float TX) (o_re_ok TX) true).
Notation ga := (g_atom (o_parse_float TX) (o_re_ok TX) true).
Notation gl := (g_list (o_parse_float TX) (o_re_ok TX) true).
Notation gi := (g_items (o_parse_float TX) (o_re_ok TX) true).
Notation bin := (binary_op (o_parse_float TX) true).
Notation at_ := (atE TX).
Notation reads := (readE TX).

(** the next token is to be read from [s], with nothing pushed back or a lexeme that is
    not tagged as an operator *)
Definition fresh (l : lexer) (s : bytes) : Prop :=
  nonneg s /\
  ((l_peek l = None /\ rd_after (l_rd l) = s) \/
   exists lx r0, l_peek l = Some lx /\ rd_after r0 = s /\ lexExpr_rd TX r0 = (lx, l_rd l)).

Lemma fresh_at : forall l s, fresh l s -> at_ l s.
Proof.
  intros l s [Hn [H|(lx & r0 & H1 & H2 & H3)]]; split; auto. right. exists lx. split; auto.
  split; [assumption|]. split; [reflexivity|]. exists lx, r0. repeat split; auto. left. reflexivity.
Qed.

Lemma none_fresh : forall l s, nonneg s -> l_peek l = None -> rest l = s -> fresh l s.
Proof. intros. split; auto. Qed.

Lemma read_token : forall l s t r, at_ l s -> etk s t r -> exists lx l',
  lexExpr TX l = (lx, l') /\ reads s lx l' /\ retag (lexeme_of t) lx /\ rest l' = r /\ fresh l' r.
Proof.
  intros l s t r H Ht. destruct (lexExpr_at _ _ _ H) as (lx & l' & E & Hr).
  exists lx, l'. split; [assumption|]. split; [assumption|].
  destruct Hr as (Hn & Hp & lx0 & r0 & R1 & R2 & R3).
  destruct (lexExpr_rd_app TX _ _ _ Ht r0 R1) as (r1 & E1 & E2). rewrite R2 in E1.
  injection E1 as -> <-. split; [assumption|]. split; [assumption|].
  apply none_fresh; auto. eapply etok_nonneg; eauto.
Qed.

Lemma read_fresh : forall l s t r, fresh l s -> etk s t r -> exists l',
  lexExpr TX l = (lexeme_of t, l') /\ l_peek l' = None /\ rest l' = r /\ fresh l' r.
Proof.
  intros l s t r H Ht. pose proof (etok_nonneg _ _ _ _ _ (proj1 H) Ht) as Hnr.
  destruct H as [Hn [[Hp Hs]|(lx & r0 & Hp & H1 & H2)]]; unfold lexExpr; rewrite Hp.
  - destruct (lexExpr_rd_app TX _ _ _ Ht (l_rd l) Hs) as (r1 & -> & E2).
    exists (mkLexer r1 None). repeat split; auto.
  - destruct (lexExpr_rd_app TX _ _ _ Ht r0 H1) as (r1 & E1 & E2). rewrite H2 in E1.
    injection E1 as -> <-. exists (mkLexer (l_rd l) None). repeat split; auto.
Qed.

Lemma retag_same : forall t lx, retag (lexeme_of t) lx -> (forall n, t <> GName n) -> lx = lexeme_of t.
Proof.
  intros t lx [H|[[H _]|[H _]]] Ht; auto; exfalso; destruct t; simpl in H; unfold lex_tok in H; inversion H;
    subst; eapply Ht; reflexivity.
Qed.

Lemma read_punct : forall l s p r, at_ l s -> etk s (GPunct p) r -> exists l',
  lexExpr TX l = (lex_tok (tok_of p), l') /\ l_peek l' = None /\ rest l' = r /\ fresh l' r.
Proof.
  intros l s p r H Ht. destruct (read_token _ _ _ _ H Ht) as (lx & l' & E & Hr & Hg & Hs & Hf).
  apply retag_same in Hg; [|discriminate]. subst lx. exists l'. repeat split; auto; try apply Hf. apply Hr.
Qed.

Lemma look_punct : forall l s p r, at_ l s -> etk s (GPunct p) r -> exists l1 l2,
  lookExpr TX l = OK (tok_of p, l1) /\ at_ l1 s /\ (fresh l s -> fresh l1 s) /\
  lexExpr TX l1 = (lex_tok (tok_of p), l2) /\ l_peek l2 = None /\ rest l2 = r /\ fresh l2 r.
Proof.
  intros l s p r H Ht. destruct (read_token _ _ _ _ H Ht) as (lx & l' & E & Hr & Hg & Hs & Hf).
  apply retag_same in Hg; [|discriminate]. subst lx.
  destruct (read_peek _ _ _ _ Hr) as (P0 & P1 & P2).
  exists (mkLexer (l_rd l') (Some (lexeme_of (GPunct p)))), l'. unfold lookExpr, p_look.
  rewrite E, P0. split; [reflexivity|]. split; [assumption|].
  split; [|repeat split; auto; [apply Hr|apply Hf|apply Hf]].
  intros [Hn _]. split; [assumption|]. right. destruct Hr as (_ & _ & lx0 & r0 & R1 & R2 & R3).
  destruct R3 as [R3|[[_ R3]|[_ R3]]]; [|discriminate R3|discriminate R3].
  subst lx0. exists (lexeme_of (GPunct p)), r0. auto.
Qed.

Lemma look_any : forall l s t r, fresh l s -> etk s t r -> exists l1,
  lookExpr TX l = OK (lx_tok (lexeme_of t), l1) /\ fresh l1 s.
Proof.
  intros l s t r H Ht. pose proof (proj1 H) as Hn.
  destruct (lookExpr_at _ _ _ (fresh_at _ _ H)) as (lx & l' & Hr & E).
  destruct (read_fresh _ _ _ _ H Ht) as (l2 & E2 & Hp & Hs & Hf).
  unfold lookExpr, p_look in *. rewrite E2 in *. unfold p_unget, unget in *. rewrite Hp in *.
  cbn [obind] in *. eexists. split; [destruct t; reflexivity|].
  split; [assumption|]. right.
  destruct H as [_ [[Hp' Hs']|(lx' & r0 & Hp' & H1 & H2)]]; unfold lexExpr in E2; rewrite Hp' in E2.
  - destruct (lexExpr_rd TX (l_rd l)) as [lx1 r1] eqn:E3. injection E2 as -> <-.
    exists (lexeme_of t), (l_rd l). auto.
  - injection E2 as -> <-. exists (lexeme_of t), r0. auto.
Qed.

(** what may follow a complete expression *)
Definition closes (s : bytes) : Prop :=
  etk s GEnd [] \/ exists c r, In c [41; 93; 44] /\ etk s (GPunct [c]) r.
Definition follow (k : nat) (s : bytes) : Prop :=
  closes s \/ exists o k' r, bin s o k' r /\ (k' <= k)%nat.

Lemma follow_le : forall k k' s, follow k s -> (k <= k')%nat -> follow k' s.
Proof. intros k k' s [H|(o & j & r & H & Hj)] Hk; [left; auto|right]. exists o, j, r. split; auto. lia. Qed.

(** looking for an operator *)
Lemma look_binary : forall l s o k r, at_ l s -> bin s o k r -> exists t l1 lx l2,
  lookOp TX l = OK (t, l1) /\ tok2op t = o /\ at_ l1 s /\
  lexOp TX l1 = OK (lx, l2) /\ lx_err lx = None /\ tok2op (lx_tok lx) = o /\ fresh l2 r.
Proof.
  intros l s o k r H Hb.
  assert (Ht : exists t, etk s t r /\ forall lx, retag (lexeme_of t) lx -> optag lx = lx ->
     lx_err lx = None /\ tok2op (lx_tok lx) = o).
  { destruct Hb as [s p o k r Hin Ht|s r Ht|s r Ht].
    - exists (GPunct p). split; [assumption|]. intros lx Hg _. apply retag_same in Hg; [|discriminate]. subst lx.
      split; [reflexivity|]. simpl in Hin.
      repeat (destruct Hin as [Hin|Hin]; [injection Hin as <- <- <-; reflexivity|]). destruct Hin.
    - exists (GName (b_of "in")). split; [assumption|]. intros lx [->|[[_ ->]|[X _]]] Ho.
      + exfalso. vm_compute in Ho. discriminate.
      + split; reflexivity.
      + vm_compute in X. discriminate.
    - exists (GName (b_of "nin")). split; [assumption|]. intros lx [->|[[X _]|[_ ->]]] Ho.
      + exfalso. vm_compute in Ho. discriminate.
      + vm_compute in X. discriminate.
      + split; reflexivity. }
  destruct Ht as (t & Ht & Hlx).
  destruct (lexOp_at _ _ _ H) as (lx0 & l0 & E0 & Hr0 & Ho0 & Hs0).
  destruct (lookOp_at _ _ _ H) as (lx & l' & Hr & Hlook & Hlex & Hlook2 & Hseen).
  assert (lx0 = lx /\ l0 = l').
  { unfold lookOp in Hlook. rewrite E0 in Hlook. cbn [obind] in Hlook.
    destruct (read_peek _ _ _ _ Hr0) as (P0 & _). rewrite P0 in Hlook. cbn [obind] in Hlook.
    injection Hlook as X1 X2 X3. subst lx0. split; [reflexivity|].
    destruct Hr as (_ & Hp & _), Hr0 as (_ & Hp0 & _). rewrite (lexer_eta _ Hp), (lexer_eta _ Hp0). congruence. }
  destruct H0 as [-> ->].
  destruct (read_peek _ _ _ _ Hr) as (P0 & P1 & P2).
  exists (lx_tok lx), (mkLexer (l_rd l') (Some lx)), lx, l'.
  pose proof Hr as (Hn & Hp & lx1 & r0 & R1 & R2 & R3).
  destruct (lexExpr_rd_app TX _ _ _ Ht r0 R1) as (r1 & E1 & E2). rewrite R2 in E1. injection E1 as -> <-.
  destruct (Hlx lx R3 Ho0) as [He Ho].
  split; [assumption|]. split; [assumption|]. split; [assumption|]. split; [assumption|].
  split; [assumption|]. split; [assumption|]. apply none_fresh; auto. eapply etok_nonneg; eauto.
Qed.

Lemma look_close : forall l s, at_ l s -> closes s -> exists t l1,
  lookOp TX l = OK (t, l1) /\ precedence (tok2op t) = -1 /\ at_ l1 s.
Proof.
  intros l s H Hc.
  assert (Ht : exists t r, etk s t r /\ (forall n, t <> GName n) /\
    precedence (tok2op (lx_tok (lexeme_of t))) = -1).
  { destruct Hc as [Hc|(c & r & Hin & Hc)].
    - exists GEnd, []. repeat split; auto. discriminate.
    - exists (GPunct [c]), r. repeat split; auto; try discriminate.
      simpl in Hin. repeat (destruct Hin as [<-|Hin]; [reflexivity|]). destruct Hin. }
  destruct Ht as (t & r & Ht & Hnn & Hp1).
  destruct (lookOp_at _ _ _ H) as (lx & l' & Hr & Hlook & Hlex & Hlook2 & Hseen).
  destruct (read_peek _ _ _ _ Hr) as (P0 & P1 & P2).
  exists (lx_tok lx), (mkLexer (l_rd l') (Some lx)). split; [assumption|]. split; [|assumption].
  destruct Hr as (Hn & Hp & lx1 & r0 & R1 & R2 & R3).
  destruct (lexExpr_rd_app TX _ _ _ Ht r0 R1) as (r1 & E1 & E2). rewrite R2 in E1. injection E1 as -> <-.
  apply retag_same in R3; auto. subst lx. assumption.
Qed.

(** the loop stops before a token that closes or an operator that binds less *)
Lemma loop_stops : forall l s e j, at_ l s ->
  (closes s \/ exists o k' r, bin s o k' r /\ (k' < j)%nat) ->
  exists l2, p_expr_loop TX 1 (Z.of_nat j) e l = OK (e, l2) /\ at_ l2 s.
Proof.
  intros l s e j H Hs. rewrite p_expr_loop_S. destruct Hs as [Hc|(o & k & r & Hb & Hk)].
  - destruct (look_close _ _ H Hc) as (t & l1 & -> & Hp & Hat). cbn [obind]. rewrite Hp.
    destruct (Z.geb_spec (-1) (Z.of_nat j)); [lia|]. eauto.
  - destruct (look_binary _ _ _ _ _ H Hb) as (t & l1 & lx & l2 & -> & Ho & Hat & _). cbn [obind].
    rewrite Ho. apply bin_precedence in Hb as [-> _].
    destruct (Z.geb_spec (Z.of_nat k) (Z.of_nat j)); [lia|]. eauto.
Qed.

(** the primary loop stops before anything that may follow an expression *)
Lemma look_stop : forall l s, at_ l s -> follow 6 s -> exists t l1, lookExpr TX l = OK (t, l1) /\
  at_ l1 s /\ t <> TChar 40 /\ t <> TChar 91 /\ t <> TChar 46.
Proof.
  intros l s H Hf.
  assert (Ht : exists t r, etk s t r /\ forall lx, retag (lexeme_of t) lx ->
    seen lx <> TChar 40 /\ seen lx <> TChar 91 /\ seen lx <> TChar 46).
  { destruct Hf as [[Hc|(c & r & Hin & Hc)]|(o & k & r & Hb & _)].
    - exists GEnd, []. split; [assumption|]. intros lx Hg. apply retag_same in Hg; [|discriminate].
      subst. repeat split; discriminate.
    - exists (GPunct [c]), r. split; [assumption|]. intros lx Hg. apply retag_same in Hg; [|discriminate].
      subst. simpl in Hin. repeat (destruct Hin as [<-|Hin]; [repeat split; discriminate|]). destruct Hin.
    - destruct Hb as [s p o k r Hin Ht|s r Ht|s r Ht].
      + exists (GPunct p), r. split; [assumption|]. intros lx Hg. apply retag_same in Hg; [|discriminate].
        subst. simpl in Hin.
        repeat (destruct Hin as [Hin|Hin]; [injection Hin as <- <- <-; repeat split; discriminate|]). destruct Hin.
      + eexists _, r. split; [eassumption|]. intros lx [->|[[_ ->]|[_ ->]]]; repeat split; discriminate.
      + eexists _, r. split; [eassumption|]. intros lx [->|[[_ ->]|[_ ->]]]; repeat split; discriminate. }
  destruct Ht as (t & r & Ht & Hlx).
  destruct (read_token _ _ _ _ H Ht) as (lx & l' & E & Hr & Hg & Hs & Hf').
  destruct (read_peek _ _ _ _ Hr) as (P0 & P1 & P2).
  exists (seen lx), (mkLexer (l_rd l') (Some lx)). unfold lookExpr, p_look. rewrite E, P0.
  split; [reflexivity|]. split; [assumption|]. apply Hlx. assumption.
Qed.

Lemma ploop_stops : forall l s e, at_ l s -> follow 6 s ->
  exists l2, p_primary_loop TX 1 e l = OK (e, l2) /\ at_ l2 s.
Proof.
  intros l s e H Hf. destruct (look_stop _ _ H Hf) as (t & l1 & E & Hat & N1 & N2 & N3).
  exists l1. split; [|assumption]. rewrite p_primary_loop_S, E. cbn [obind].
  destruct t; try reflexivity.
  destruct (Z.eqb_spec c 40); [congruence|]. destruct (Z.eqb_spec c 91); [congruence|].
  destruct (Z.eqb_spec c 46); [congruence|]. reflexivity.
Qed.

(** the first token of an expression does not close a list *)
Definition opens (s : bytes) : Prop :=
  exists t r, etk s t r /\ t <> GPunct [41] /\ t <> GPunct [93].

Lemma g_opens : (forall k s e r, gx k s e r -> opens s) /\ (forall s e r, gu s e r -> opens s) /\
  (forall s e r, gp s e r -> opens s) /\ (forall s e r, ga s e r -> opens s) /\
  (forall c s l r, gl c s l r -> True) /\ (forall s l r, gi s l r -> opens s).
Proof.
  apply g_expr_mutind; auto; intros; unfold punct in *;
    try (eexists _, _; split; [eassumption|split; discriminate]).
Qed.

Notation clz c := (etk c).

Definition CE (k : nat) (s : bytes) (e : expr) (r : bytes) : Prop :=
  follow k r -> forall j l, (j <= k)%nat -> fresh l s -> exists l1, at_ l1 r /\
    forall x, (exists n, p_expr_loop TX n (Z.of_nat j) e l1 = OK x) ->
              exists n, p_expr TX n (Z.of_nat j) l = OK x.
Definition CU (s : bytes) (e : expr) (r : bytes) : Prop :=
  follow 6 r -> forall l, fresh l s -> exists l1 n, at_ l1 r /\ p_primary TX n l = OK (e, l1).
Definition CP (s : bytes) (e : expr) (r : bytes) : Prop :=
  forall l, fresh l s -> exists l1, at_ l1 r /\
    forall x, (exists n, p_primary_loop TX n e l1 = OK x) -> exists n, p_primary TX n l = OK x.
Definition CA (s : bytes) (e : expr) (r : bytes) : Prop :=
  forall l, fresh l s -> exists l1 n, at_ l1 r /\ p_primary1 TX n l = OK (e, l1).
Definition CL (c : string) (s : bytes) (kids : list expr) (r : bytes) : Prop :=
  forall d o args l, b_of c = [d] -> d = 41 \/ d = 93 -> fresh l s ->
    exists l1 n, at_ l1 r /\ p_application TX n o (TChar d) args l = OK (EInner o (args ++ kids), l1).
Definition CI (s : bytes) (kids : list expr) (r : bytes) : Prop :=
  forall d r', d = 41 \/ d = 93 -> etk r (GPunct [d]) r' -> forall args l, fresh l s ->
    exists l1 n, at_ l1 r /\ p_exprlist TX n args l = OK (args ++ kids, l1).

(** a whole expression followed by a token that closes *)
Lemma CE_closes : forall s e r l, CE 0 s e r -> closes r -> fresh l s ->
  exists l1 n, at_ l1 r /\ p_expr TX n 0 l = OK (e, l1).
Proof.
  intros s e r l H Hc Hl. destruct (H (or_introl Hc) 0%nat l (le_n _) Hl) as (l1 & Hat & K).
  destruct (loop_stops l1 r e 0 Hat (or_introl Hc)) as (l2 & E & Hat2).
  destruct (K (e, l2) (ex_intro _ _ E)) as [n En]. exists l2, n. auto.
Qed.

Lemma expect_punct : forall l s d r, at_ l s -> etk s (GPunct [d]) r ->
  exists l', p_expect (lexExpr TX l) (TChar d) = OK l' /\ fresh l' r.
Proof.
  intros l s d r H Ht. destruct (read_punct _ _ _ _ H Ht) as (l' & E & Hp & Hs & Hf).
  exists l'. rewrite E. unfold p_expect. simpl. rewrite Z.eqb_refl. auto.
Qed.

Lemma primary1_neg : forall n l l1, lexExpr TX l = (lex_tok (TChar 45), l1) ->
  p_primary1 TX (S n) l = p_unary TX n OpNeg l1.
Proof. intros n l l1 E. rewrite p_primary1_S, E. reflexivity. Qed.
Lemma primary1_not : forall n l l1, lexExpr TX l = (lex_tok (TChar 33), l1) ->
  p_primary1 TX (S n) l = p_unary TX n OpNot l1.
Proof. intros n l l1 E. rewrite p_primary1_S, E. reflexivity. Qed.

Lemma complete_all : (forall k s e r, gx k s e r -> CE k s e r) /\ (forall s e r, gu s e r -> CU s e r) /\
  (forall s e r, gp s e r -> CP s e r) /\ (forall s e r, ga s e r -> CA s e r) /\
  (forall c s l r, gl c s l r -> CL c s l r) /\ (forall s l r, gi s l r -> CI s l r).
Proof.
  apply g_expr_mutind.
  - (* GUp *) intros k s e r Hk _ IH Hf j l Hj Hl. apply IH; auto. eapply follow_le; eauto.
  - (* GBin *)
    intros k s a m o m' b r Ha IHa Hb Hrhs IHb Hf j l Hj Hl.
    destruct (IHa (or_intror (ex_intro _ o (ex_intro _ k (ex_intro _ m' (conj Hb (le_n _)))))) j l Hj Hl)
      as (l1 & Hat1 & K1).
    destruct (look_binary _ _ _ _ _ Hat1 Hb) as (t & l2 & lx & l3 & E1 & E2 & Hat2 & E3 & E4 & E5 & Hf3).
    destruct (IHb (follow_le _ _ _ Hf (Nat.le_succ_diag_r _)) (S k) l3 (le_n _) Hf3) as (l4 & Hat4 & K4).
    destruct (loop_stops l4 r b (S k) Hat4) as (l5 & E6 & Hat5).
    { destruct Hf as [Hf|(o' & k' & r' & Hb' & Hk')]; [left; assumption|right].
      exists o', k', r'. split; [assumption|]. lia. }
    destruct (K4 (b, l5) (ex_intro _ _ E6)) as [n4 En4].
    exists l5. split; [assumption|]. intros x [n En]. apply K1.
    exists (S (n + n4)). rewrite p_expr_loop_S, E1. cbn [obind]. rewrite E2.
    destruct (bin_precedence _ _ _ _ _ Hb) as [Hp _]. rewrite Hp.
    destruct (Z.geb_spec (Z.of_nat k) (Z.of_nat j)); [|lia].
    rewrite E3. cbn [obind]. rewrite E4, E5. unfold associativity. rewrite Hp.
    replace (Z.of_nat k + 1) with (Z.of_nat (S k)) by lia.
    rewrite (more_expr _ _ _ _ _ (n + n4) En4) by lia. cbn [obind].
    eapply more_loop; [exact En|lia].
  - (* GUnary *)
    intros s e r Hu IH Hf j l Hj Hl. destruct (IH Hf l Hl) as (l1 & n & Hat & E).
    exists l1. split; [assumption|]. intros x [n' E']. exists (S (n + n')). rewrite p_expr_S.
    rewrite (more_primary _ _ _ _ (n + n') E) by lia. cbn [obind]. eapply more_loop; [exact E'|lia].
  - (* GNeg *)
    intros s m e r Ht Hu IH Hf l Hl. destruct (read_fresh _ _ _ _ Hl Ht) as (l1 & E1 & _ & _ & Hf1).
    destruct (IH Hf l1 Hf1) as (l2 & n & Hat & E).
    destruct (ploop_stops l2 r (EInner OpNeg [e]) Hat Hf) as (l3 & E3 & Hat3).
    exists l3, (S (S (S (S n)))). split; [assumption|]. rewrite p_primary_S, (primary1_neg _ _ _ E1), p_unary_S. rewrite (more_primary _ _ _ _ (S n) E) by lia. cbn [obind].
    eapply more_ploop; [exact E3|lia].
  - (* GNot *)
    intros s m e r Ht Hu IH Hf l Hl. destruct (read_fresh _ _ _ _ Hl Ht) as (l1 & E1 & _ & _ & Hf1).
    destruct (IH Hf l1 Hf1) as (l2 & n & Hat & E).
    destruct (ploop_stops l2 r (EInner OpNot [e]) Hat Hf) as (l3 & E3 & Hat3).
    exists l3, (S (S (S (S n)))). split; [assumption|]. rewrite p_primary_S, (primary1_not _ _ _ E1), p_unary_S. rewrite (more_primary _ _ _ _ (S n) E) by lia. cbn [obind].
    eapply more_ploop; [exact E3|lia].
  - (* GPost *)
    intros s e r Hp IH Hf l Hl. destruct (IH l Hl) as (l1 & Hat & K).
    destruct (ploop_stops l1 r e Hat Hf) as (l2 & E & Hat2).
    destruct (K _ (ex_intro _ _ E)) as [n En]. exists l2, n. auto.
  - (* GAtom *)
    intros s e r Ha IH l Hl. destruct (IH l Hl) as (l1 & n & Hat & E). exists l1. split; [assumption|].
    intros x [n' E']. exists (S (n + n')). rewrite p_primary_S.
    rewrite (more_primary1 _ _ _ _ (n + n') E) by lia. cbn [obind]. eapply more_ploop; [exact E'|lia].
  - (* GCall *)
    intros s f m m' l0 r Hp IHp Ht Hl0 IHl l Hl. destruct (IHp l Hl) as (l1 & Hat1 & K).
    destruct (look_punct _ _ _ _ Hat1 Ht) as (l2 & l3 & E2 & Hat2 & _ & E3 & _ & _ & Hf3).
    destruct (IHl 41 OpCall [EName f] l3 eq_refl (or_introl eq_refl) Hf3) as (l4 & n & Hat4 & E4).
    exists l4. split; [assumption|]. intros x [n' E']. apply K. exists (S (n + n')).
    rewrite p_primary_loop_S, E2. cbn. unfold advanceExpr. rewrite E3. cbn [snd].
    rewrite (more_app _ _ _ _ _ _ _ (n + n') E4) by lia. cbn [obind]. eapply more_ploop; [exact E'|lia].
  - (* GIndex *)
    intros s a m m' e m'' r Hp IHp Ht He IHe Ht2 l Hl. destruct (IHp l Hl) as (l1 & Hat1 & K).
    destruct (look_punct _ _ _ _ Hat1 Ht) as (l2 & l3 & E2 & Hat2 & _ & E3 & _ & _ & Hf3).
    assert (Hc : closes m'') by (right; exists 93, r; split; [simpl; auto|exact Ht2]).
    destruct (CE_closes _ _ _ l3 IHe Hc Hf3) as (l4 & n & Hat4 & E4).
    destruct (expect_punct _ _ 93 _ Hat4 Ht2) as (l5 & E5 & Hf5).
    exists l5. split; [apply fresh_at; assumption|]. intros x [n' E']. apply K. exists (S (n + n')).
    rewrite p_primary_loop_S, E2. cbn. unfold advanceExpr. rewrite E3. cbn [snd].
    rewrite (more_expr _ _ _ _ _ (n + n') E4) by lia. cbn [obind]. rewrite E5. cbn [obind].
    eapply more_ploop; [exact E'|lia].
  - (* GDot *)
    intros s a m m' nm r Hp IHp Ht Hn l Hl. destruct (IHp l Hl) as (l1 & Hat1 & K).
    destruct (look_punct _ _ _ _ Hat1 Ht) as (l2 & l3 & E2 & Hat2 & _ & E3 & _ & _ & Hf3).
    destruct (read_fresh _ _ _ _ Hf3 Hn) as (l4 & E4 & _ & _ & Hf4).
    exists l4. split; [apply fresh_at; assumption|]. intros x [n' E']. apply K. exists (S n').
    rewrite p_primary_loop_S, E2. cbn. unfold advanceExpr. rewrite E3. cbn [snd]. rewrite E4.
    cbn. assumption.
  - (* GRegexp *)
    intros s m t v r Ht Hm Hb Ho l Hl. destruct (read_fresh _ _ _ _ Hl Ht) as (l1 & E1 & Hp & Hs & Hf1).
    unfold rest in Hs. subst m.
    destruct (lexRegexp_loop_app t v Hb [] (rd_before (l_rd l1)) r) as [b' E2].
    exists (mkLexer (mkRd b' r) None), 1%nat. split.
    + apply fresh_at. apply none_fresh; auto. destruct Hf1 as [Hn _].
      apply nonneg_app_r in Hn. inversion Hn; assumption.
    + rewrite p_primary1_S, E1. cbn. unfold lexRegexp. rewrite Hs, E2, Hp. cbn. rewrite Ho. reflexivity.
  - (* GCurrent *)
    intros s r Ht l Hl. destruct (read_fresh _ _ _ _ Hl Ht) as (l1 & E1 & Hp & Hs & Hf1).
    exists l1, 1%nat. split; [apply fresh_at; assumption|]. rewrite p_primary1_S, E1. reflexivity.
  - (* GRoot *)
    intros s r Ht l Hl. destruct (read_fresh _ _ _ _ Hl Ht) as (l1 & E1 & Hp & Hs & Hf1).
    exists l1, 1%nat. split; [apply fresh_at; assumption|]. rewrite p_primary1_S, E1. reflexivity.
  - (* GParen *)
    intros s m e m' r Ht He IHe Ht2 l Hl. destruct (read_fresh _ _ _ _ Hl Ht) as (l1 & E1 & Hp & Hs & Hf1).
    assert (Hc : closes m') by (right; exists 41, r; split; [simpl; auto|exact Ht2]).
    destruct (CE_closes _ _ _ l1 IHe Hc Hf1) as (l4 & n & Hat4 & E4).
    destruct (expect_punct _ _ 41 _ Hat4 Ht2) as (l5 & E5 & Hf5).
    exists l5, (S n). split; [apply fresh_at; assumption|]. rewrite p_primary1_S, E1. cbn.
    rewrite E4. cbn [obind]. rewrite E5. reflexivity.
  - (* GArray *)
    intros s m l0 r Ht Hl0 IHl l Hl. destruct (read_fresh _ _ _ _ Hl Ht) as (l1 & E1 & Hp & Hs & Hf1).
    destruct (IHl 93 OpArray [] l1 eq_refl (or_intror eq_refl) Hf1) as (l4 & n & Hat4 & E4).
    exists l4, (S n). split; [assumption|]. rewrite p_primary1_S, E1. cbn. assumption.
  - (* GNameAtom *)
    intros s nm r Ht l Hl. destruct (read_fresh _ _ _ _ Hl Ht) as (l1 & E1 & Hp & Hs & Hf1).
    exists l1, 1%nat. split; [apply fresh_at; assumption|]. rewrite p_primary1_S, E1.
    cbn [lexeme_of lx_err lx_tok lx_s lx_val obind]. unfold name_expr. fold kw_true kw_false kw_null.
    destruct (beqb nm kw_true); auto. destruct (beqb nm kw_false); auto. destruct (beqb nm kw_null); auto.
  - intros s z r Ht l Hl. destruct (read_fresh _ _ _ _ Hl Ht) as (l1 & E1 & Hp & Hs & Hf1).
    exists l1, 1%nat. split; [apply fresh_at; assumption|]. rewrite p_primary1_S, E1. reflexivity.
  - intros s f r Ht l Hl. destruct (read_fresh _ _ _ _ Hl Ht) as (l1 & E1 & Hp & Hs & Hf1).
    exists l1, 1%nat. split; [apply fresh_at; assumption|]. rewrite p_primary1_S, E1. reflexivity.
  - intros s v r Ht l Hl. destruct (read_fresh _ _ _ _ Hl Ht) as (l1 & E1 & Hp & Hs & Hf1).
    exists l1, 1%nat. split; [apply fresh_at; assumption|]. rewrite p_primary1_S, E1. reflexivity.
  - (* GListNil *)
    intros c s r Ht d o args l Hcd Hd Hl. unfold punct in Ht. rewrite Hcd in Ht.
    destruct (look_punct _ _ _ _ (fresh_at _ _ Hl) Ht) as (l2 & l3 & E2 & Hat2 & _ & E3 & _ & _ & Hf3).
    exists l3, 1%nat. split; [apply fresh_at; assumption|]. rewrite p_application_S, E2. cbn [obind].
    cbn [tok_of tok_eqb]. rewrite Z.eqb_refl. cbn [negb obind]. rewrite E3. unfold p_expect. cbn.
    rewrite Z.eqb_refl. cbn. rewrite app_nil_r. reflexivity.
  - (* GListCons *)
    intros c s l0 m r Hi IHi Ht d o args l Hcd Hd Hl. unfold punct in Ht. rewrite Hcd in Ht.
    destruct (proj2 (proj2 (proj2 (proj2 (proj2 g_opens)))) _ _ _ Hi) as (t & r' & Ht' & N1 & N2).
    destruct (look_any _ _ _ _ Hl Ht') as (l2 & E2 & Hf2).
    destruct (IHi d r Hd Ht args l2 Hf2) as (l3 & n & Hat3 & E3).
    destruct (expect_punct _ _ d _ Hat3 Ht) as (l5 & E5 & Hf5).
    exists l5, (S n). split; [apply fresh_at; assumption|]. rewrite p_application_S, E2. cbn [obind].
    destruct (tok_eqb (lx_tok (lexeme_of t)) (TChar d)) eqn:Et.
    { exfalso. assert (lx_tok (lexeme_of t) = TChar d) as Hx.
      { destruct (lx_tok (lexeme_of t)); simpl in Et; try discriminate. apply Z.eqb_eq in Et. congruence. }
      apply lexeme_char in Hx. destruct Hd; subst; congruence. }
    cbn [negb]. rewrite E3. cbn [obind]. rewrite E5. reflexivity.
  - (* GItemsOne *)
    intros s e r He IHe d r' Hd Ht args l Hl.
    assert (Hc : closes r) by (right; exists d, r'; split; [simpl; destruct Hd; auto|exact Ht]).
    destruct (CE_closes _ _ _ l IHe Hc Hl) as (l4 & n & Hat4 & E4).
    destruct (look_punct _ _ _ _ Hat4 Ht) as (l2 & l3 & E2 & Hat2 & _ & E3 & _ & _ & Hf3).
    exists l2, (S n). split; [assumption|]. rewrite p_exprlist_S, E4. cbn [obind]. rewrite E2. cbn [obind].
    destruct Hd; subst d; reflexivity.
  - (* GItemsMore *)
    intros s e m m' l0 r He IHe Ht Hi IHi d r' Hd Ht' args l Hl.
    assert (Hc : closes m) by (right; exists 44, m'; split; [simpl; auto|exact Ht]).
    destruct (CE_closes _ _ _ l IHe Hc Hl) as (l4 & n & Hat4 & E4).
    destruct (look_punct _ _ _ _ Hat4 Ht) as (l2 & l3 & E2 & Hat2 & _ & E3 & _ & _ & Hf3).
    destruct (IHi d r' Hd Ht' (args ++ [e]) l3 Hf3) as (l5 & n' & Hat5 & E5).
    exists l5, (S (n + n')). split; [assumption|]. rewrite p_exprlist_S.
    rewrite (more_expr _ _ _ _ _ (n + n') E4) by lia. cbn [obind]. rewrite E2. cbn.
    unfold advanceExpr. rewrite E3. cbn [snd].
    rewrite (more_list _ _ _ _ _ (n + n') E5) by lia. rewrite <- app_assoc. reflexivity.
Qed.
End complete.
