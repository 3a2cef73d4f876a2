(** An error that gives an offset depends only on the text up to that place. *)
From Verif Require Import Syntax SpecGrammar Lexer Parser SpecErrors LexProofs LexProofs2 ParserProofs LexReason ReasonProofs LexDeterm ParserExact.
Local Open Scope Z_scope.

Section two.
Variable TX : textoracles.
Variables p q q' : bytes.
Hypothesis Hq : q <> [].
Hypothesis Hs : nonneg (p ++ q).
Hypothesis Hq' : nonneg q'.
Let s := p ++ q.
Let N := length p.
Notation on := (on TX s).
Notation res := (res TX s).
Notation any := (fun _ => True).

Definition lrel (l l' : lexer) : Prop := rel N q q' (l_rd l) (l_rd l') /\ l_peek l' = l_peek l.
(** related, unless beyond the common part *)
Definition near (l l' : lexer) : Prop := (at_ l < N)%nat -> lrel l l'.

Definition agree {A} (x x' : P A) : Prop :=
  match x with
  | OK (a, l1) => (at_ l1 < N)%nat -> x' = OutOfFuel \/ exists l1', x' = OK (a, l1') /\ lrel l1 l1'
  | Fail e => forall o, offset_of e = Some o -> o + 1 < Z.of_nat N -> x' = OutOfFuel \/ x' = Fail e
  | _ => True
  end.
Definition both {A} (k : nat) (Q : A -> Prop) (x x' : P A) : Prop := res k Q x /\ agree x x'.

Lemma beyond : forall A k Q (x x' : P A), (N <= k)%nat -> res k Q x -> agree x x'.
Proof.
  intros A k Q x x' L H. destruct x as [[a l1]|e| |]; cbn in *; try exact I.
  - destruct H as (_ & H & _). lia.
  - destruct H as [_ H]. intros o Ho Lo. specialize (H o Ho). lia.
Qed.

Lemma both_beyond : forall A k Q (x x' x'' : P A), (N <= k)%nat -> both k Q x x'' -> both k Q x x'.
Proof. intros A k Q x x' x'' L [H _]. split; [exact H|eapply beyond; eassumption]. Qed.

Lemma rel_ex : forall l, on l -> (at_ l < N)%nat -> exists l', lrel l l'.
Proof.
  intros [[b a] pk] [H _] L. unfold at_, pos in L. cbn [l_rd rd_before] in L. unfold text in H. cbn [l_rd rd_before rd_after] in H.
  exists (mkLexer (mkRd b (skipn (length b) p ++ q')) pk). split; [|reflexivity]. cbn [l_rd].
  exists b, (skipn (length b) p). split; [|split; [reflexivity|rewrite skipn_length; unfold N in *; lia]].
  f_equal. assert (E : skipn (length (rev b)) (rev b ++ a) = skipn (length (rev b)) (p ++ q)) by (rewrite H; reflexivity).
  rewrite skipn_app, skipn_all, Nat.sub_diag in E. cbn in E. rewrite E, rev_length, skipn_app.
  replace (length b - length p)%nat with 0%nat by (unfold N in L; lia). reflexivity.
Qed.

Lemma near_ex : forall l, on l -> exists l', near l l'.
Proof.
  intros l H. destruct (le_lt_dec N (at_ l)) as [L|L].
  - exists l. intro. lia.
  - destruct (rel_ex l H L) as [l' H']. exists l'. intros _. exact H'.
Qed.

Lemma both_bind : forall A B k Q R (m m' : P A) (f f' : A -> lexer -> P B), both k Q m m' ->
  (forall a l1 l1', on l1 -> Q a -> near l1 l1' -> both (at_ l1) R (f a l1) (f' a l1')) ->
  both k R (let! (a, l1) := m in f a l1) (let! (a, l1) := m' in f' a l1).
Proof.
  intros A B k Q R m m' f f' [H G] K.
  assert (Hr : res k R (let! (a, l1) := m in f a l1)).
  { eapply res_bind; [exact H|]. intros a l1 _ H1 _ Ha. destruct (near_ex l1 H1) as (l1' & N1).
    destruct (K a l1 l1' H1 Ha N1) as [K1 _]. exact K1. }
  split; [exact Hr|]. destruct m as [[a l1]|e| |]; cbn [obind] in *; try exact I.
  - destruct H as (H1 & H2 & H3). destruct (le_lt_dec N (at_ l1)) as [L|L].
    + destruct (near_ex l1 H1) as (l1' & N1). destruct (K a l1 l1' H1 H3 N1) as [K1 _]. eapply beyond; eassumption.
    + destruct (G L) as [-> |(l1' & -> & R1)]; cbn [obind].
      * destruct (f a l1) as [[b l2]|e| |]; cbn; auto.
      * apply K; auto. intros _. exact R1.
  - intros o Ho Lo. destruct (G o Ho Lo) as [-> | ->]; cbn; auto.
Qed.

Lemma both_le : forall A k k' Q (m m' : P A), (k <= k')%nat -> both k' Q m m' -> both k Q m m'.
Proof. intros A k k' Q m m' L [H G]. split; [eapply res_le; eassumption|exact G]. Qed.

Lemma both_pure : forall A B k R (m : outcome perr A) (f f' : A -> P B), (forall e, m <> Fail e) ->
  (forall a, m = OK a -> both k R (f a) (f' a)) -> both k R (let! a := m in f a) (let! a := m in f' a).
Proof.
  intros A B k R m f f' H K. destruct m as [a|e| |]; cbn; try (split; exact I); [apply K; reflexivity|destruct (H e); reflexivity].
Qed.

Lemma both_ok : forall A k (Q : A -> Prop) a l l', on l -> (k <= at_ l)%nat -> Q a -> near l l' -> both k Q (OK (a, l)) (OK (a, l')).
Proof. intros A k Q a l l' H1 H2 H3 H4. split; [cbn; auto|]. intro L. right. exists l'. auto. Qed.

Lemma both_any : forall A k (Q : A -> Prop) x x', both k Q x x' -> both k any x x'.
Proof. intros A k Q x x' [H1 H2]. split; [eapply res_any, H1|exact H2]. Qed.

Lemma both_fail : forall A k Q e, res k Q (Fail e : P A) -> both k Q (Fail e) (Fail e).
Proof. intros A k Q e H. split; [exact H|]. intros o _ _. auto. Qed.

Lemma both_quiet : forall A k Q e x', res k Q (Fail e : P A) -> offset_of e = None -> both k Q (Fail e) x'.
Proof. intros A k Q e x' H E. split; [exact H|]. intros o Ho. congruence. Qed.

Lemma both_fail_at : forall A k Q e e' l, res k Q (Fail e : P A) -> offset_of e = Some (last_byte (at_ l)) ->
  ((at_ l < N)%nat -> e' = e) -> both k Q (Fail e) (Fail e').
Proof.
  intros A k Q e e' l H E K. split; [exact H|]. intros o Ho Lo. right. f_equal. apply K.
  rewrite E in Ho. injection Ho as <-. unfold last_byte in Lo. lia.
Qed.

Lemma near_offset : forall l l', near l l' -> (at_ l < N)%nat -> l_offset l' = l_offset l.
Proof. intros l l' H L. destruct (H L) as [R _]. apply (rel_offset _ _ _ _ _ R). Qed.

Lemma both_fuel : forall A k Q (x : P A), res k Q x -> both k Q x OutOfFuel.
Proof. intros A k Q x H. split; [exact H|]. destruct x as [[a l]|e| |]; cbn; auto. Qed.

(** a lexeme *)
Lemma lex_both : forall (lex : lexer -> lexeme * lexer) A R l l' (f f' : lexeme -> lexer -> P A),
  (lex = lexPath TX \/ lex = lexExpr TX) -> on l -> near l l' ->
  (forall lx l1 l1', on l1 -> l_peek l1 = None -> (at_ l <= at_ l1)%nat -> lexok TX s (at_ l1) lx -> near l1 l1' ->
     both (at_ l1) R (f lx l1) (f' lx l1')) ->
  both (at_ l) R (let (lx, l1) := lex l in f lx l1) (let (lx, l1) := lex l' in f' lx l1).
Proof.
  intros lex A R l l' f f' Hl Ho Hn K. destruct (lex l) as [lx l1] eqn:E. destruct (lex l') as [lx' l1'] eqn:E'.
  assert (G : on l1 /\ l_peek l1 = None /\ (at_ l <= at_ l1)%nat /\ lexok TX s (at_ l1) lx).
  { destruct Hl as [-> | ->]; [eapply lexPath_on|eapply lexExpr_on]; eassumption. }
  destruct G as (G1 & G2 & G3 & G4). apply (both_le _ _ (at_ l1)); [exact G3|].
  destruct (le_lt_dec N (at_ l1)) as [L|L].
  - eapply both_beyond; [exact L|]. apply (K lx l1 l1); auto. intro. lia.
  - destruct (Hn ltac:(lia)) as [Rr Rp].
    assert (Q : lx' = lx /\ lrel l1 l1').
    { destruct Hl as [-> | ->]; unfold lexPath, lexExpr in E, E'; rewrite Rp in E'; destruct (l_peek l).
      - injection E as <- <-. injection E' as <- <-. split; [reflexivity|]. split; [exact Rr|reflexivity].
      - pose proof (lexPath_same TX N q q' Hq _ _ Hq' ltac:(destruct Ho as [Ho _]; rewrite Ho; exact Hs) Rr) as S.
        destruct (lexPath_rd TX (l_rd l)) as [x r]. destruct (lexPath_rd TX (l_rd l')) as [x' r'].
        injection E as <- <-. injection E' as <- <-. destruct (S L) as [S1 S2]. cbn in *. subst. split; [reflexivity|]. split; [exact S2|reflexivity].
      - injection E as <- <-. injection E' as <- <-. split; [reflexivity|]. split; [exact Rr|reflexivity].
      - pose proof (lexExpr_same TX N q q' Hq _ _ Hq' ltac:(destruct Ho as [Ho _]; rewrite Ho; exact Hs) Rr) as S.
        destruct (lexExpr_rd TX (l_rd l)) as [x r]. destruct (lexExpr_rd TX (l_rd l')) as [x' r'].
        injection E as <- <-. injection E' as <- <-. destruct (S L) as [S1 S2]. cbn in *. subst. split; [reflexivity|]. split; [exact S2|reflexivity]. }
    destruct Q as [-> Q]. apply K; auto. intros _. exact Q.
Qed.

Lemma unget_near : forall lx l1 l1', near l1 l1' -> on l1 -> l_peek l1 = None -> lexok TX s (at_ l1) lx ->
  exists l2, p_unget lx l1 = OK l2 /\ on l2 /\ at_ l2 = at_ l1 /\
  (N <= at_ l1 \/ exists l2', p_unget lx l1' = OK l2' /\ near l2 l2')%nat.
Proof.
  intros lx l1 l1' Hn H1 H2 H3. unfold p_unget, unget. rewrite H2. eexists. split; [reflexivity|].
  split; [split; [apply H1|exact H3]|]. split; [reflexivity|].
  destruct (le_lt_dec N (at_ l1)) as [L|L]; [left; exact L|]. right. destruct (Hn L) as [R E]. rewrite E, H2.
  eexists. split; [reflexivity|]. intros _. split; [exact R|reflexivity].
Qed.

Lemma look_both_again : forall look A R l l' (f f' : token -> lexer -> P A),
  (look = lookPath TX \/ look = lookExpr TX) -> on l -> near l l' ->
  (forall t l1 l1', look l1 = OK (t, l1) -> look l1' = OK (t, l1') -> on l1 -> tok_at TX s (at_ l1) t -> near l1 l1' -> both (at_ l1) R (f t l1) (f' t l1')) ->
  both (at_ l) R (let! (t, l1) := look l in f t l1) (let! (t, l1) := look l' in f' t l1).
Proof.
  intros look A R l l' f f' Hl Ho Hn K.
  set (g := fun (f : token -> lexer -> P A) lx l1 => let! l2 := p_unget lx l1 in f (match lx_err lx with Some _ => TError | None => lx_tok lx end) l2).
  assert (E : exists lex, (lex = lexPath TX \/ lex = lexExpr TX) /\
    forall l f, (let! (t, l1) := look l in f t l1) = (let (lx, l1) := lex l in g f lx l1)).
  { destruct Hl as [-> | ->]; [exists (lexPath TX)|exists (lexExpr TX)]; (split; [auto|]); intros l0 f0;
      unfold lookPath, lookExpr, p_look, g; [destruct (lexPath TX l0)|destruct (lexExpr TX l0)];
      destruct (p_unget _ _); reflexivity. }
  destruct E as (lex & Hlex & E). rewrite !E. apply lex_both; auto.
  intros lx l1 l1' H1 H2 H3 H4 N1. unfold g. destruct (unget_near lx l1 l1' N1 H1 H2 H4) as (l2 & E2 & O2 & A2 & X).
  rewrite E2. cbn [obind].
  assert (T : tok_at TX s (at_ l2) (match lx_err lx with Some _ => TError | None => lx_tok lx end)).
  { rewrite A2. pose proof (lexok_tok_at _ _ _ _ H4) as T. unfold lexok in H4. destruct (lx_err lx); [|exact T].
    destruct H4 as (_ & _ & E4). rewrite E4 in T. exact T. }
  assert (AG : forall l0 l2, p_unget lx l0 = OK l2 ->
    look l2 = OK (match lx_err lx with Some _ => TError | None => lx_tok lx end, l2)).
  { intros l0 l3 E0. unfold p_unget, unget in E0. destruct (l_peek l0); [discriminate E0|]. injection E0 as <-.
    destruct Hl as [-> | ->]; reflexivity. }
  rewrite <- A2. destruct X as [X|(l2' & E2' & N2)].
  - eapply both_beyond; [lia|]. apply (K _ l2 l2); eauto. intro. lia.
  - rewrite E2'. cbn [obind]. apply K; eauto.
Qed.

Lemma look_both : forall look A R l l' (f f' : token -> lexer -> P A),
  (look = lookPath TX \/ look = lookExpr TX) -> on l -> near l l' ->
  (forall t l1 l1', on l1 -> tok_at TX s (at_ l1) t -> near l1 l1' -> both (at_ l1) R (f t l1) (f' t l1')) ->
  both (at_ l) R (let! (t, l1) := look l in f t l1) (let! (t, l1) := look l' in f' t l1).
Proof. intros look A R l l' f f' Hl Ho Hn K. apply look_both_again; auto. Qed.

Lemma lexOp_both : forall A R l l' (f f' : lexeme -> lexer -> P A), on l -> near l l' ->
  (forall lx l1 l1', on l1 -> l_peek l1 = None -> (at_ l <= at_ l1)%nat -> lexok TX s (at_ l1) lx -> near l1 l1' ->
     both (at_ l1) R (f lx l1) (f' lx l1')) ->
  both (at_ l) R (let! (lx, l1) := lexOp TX l in f lx l1) (let! (lx, l1) := lexOp TX l' in f' lx l1).
Proof.
  intros A R l l' f f' Ho Hn K.
  set (g := fun (f : lexeme -> lexer -> P A) lx l1 =>
    let! lx' := match (match lx_err lx with Some _ => TError | None => lx_tok lx end) with
      | TID => let! v := lx_s lx in
         OK (mkLex (if beqb v kw_in then TIn else if beqb v kw_nin then TNin else TID) (lx_val lx) (lx_err lx))
      | tok => OK (mkLex tok (lx_val lx) (lx_err lx)) end in f lx' l1).
  assert (E : forall l f, (let! (lx, l1) := lexOp TX l in f lx l1) = (let (lx, l1) := lexExpr TX l in g f lx l1)).
  { intros l0 f0. unfold lexOp, g. destruct (lexExpr TX l0) as [lx l1]. cbv zeta.
    destruct (match lx_err lx with Some _ => TError | None => lx_tok lx end); try reflexivity.
    destruct (lx_s lx); reflexivity. }
  rewrite !E. apply lex_both; auto. intros lx l1 l1' H1 H2 H3 H4 N1. unfold g. apply both_pure.
  - intro e. destruct (match lx_err lx with Some _ => TError | None => lx_tok lx end); try discriminate.
    unfold lx_s. destruct (lx_val lx); discriminate.
  - intros lx' E'. apply K; auto.
    assert (G : lexOp TX (mkLexer (l_rd l1) (Some lx)) = OK (lx', mkLexer (l_rd l1) None)).
    { unfold lexOp, lexExpr. cbn [l_peek l_rd]. cbv zeta.
      destruct (match lx_err lx with Some _ => TError | None => lx_tok lx end); cbn [obind] in *; try (injection E' as <-; reflexivity).
      destruct (lx_s lx); cbn [obind] in *; try discriminate E'. injection E' as <-. reflexivity. }
    assert (O : on (mkLexer (l_rd l1) (Some lx))) by (split; [apply H1|exact H4]).
    pose proof (lexOp_on TX s Hs _ O) as X. rewrite G in X. apply X.
Qed.

Lemma lookOp_both : forall A R l l' (f f' : token -> lexer -> P A), on l -> near l l' ->
  (forall t l1 l1', on l1 -> near l1 l1' -> both (at_ l1) R (f t l1) (f' t l1')) ->
  both (at_ l) R (let! (t, l1) := lookOp TX l in f t l1) (let! (t, l1) := lookOp TX l' in f' t l1).
Proof.
  intros A R l l' f f' Ho Hn K.
  set (g := fun (f : token -> lexer -> P A) lx l1 => let! l2 := p_unget lx l1 in f (lx_tok lx) l2).
  assert (E : forall l f, (let! (t, l1) := lookOp TX l in f t l1) = (let! (lx, l1) := lexOp TX l in g f lx l1)).
  { intros l0 f0. unfold lookOp, g. destruct (lexOp TX l0) as [[lx l1]|e| |]; cbn; try reflexivity.
    destruct (p_unget lx l1); reflexivity. }
  rewrite !E. apply lexOp_both; auto. intros lx l1 l1' H1 H2 H3 H4 N1. unfold g.
  destruct (unget_near lx l1 l1' N1 H1 H2 H4) as (l2 & E2 & O2 & A2 & X). rewrite E2. cbn [obind]. rewrite <- A2.
  destruct X as [X|(l2' & E2' & N2)].
  - eapply both_beyond; [lia|]. apply (K _ l2 l2); auto. intro. lia.
  - rewrite E2'. cbn [obind]. apply K; auto.
Qed.

Lemma expect_both : forall (lex : lexer -> lexeme * lexer) A R l l' c (f f' : lexer -> P A),
  (lex = lexPath TX \/ lex = lexExpr TX) -> on l -> near l l' -> c = 36 \/ c = 41 \/ c = 93 ->
  (forall l1 l1', on l1 -> near l1 l1' -> both (at_ l1) R (f l1) (f' l1')) ->
  both (at_ l) R (let! l2 := p_expect (lex l) (TChar c) in f l2) (let! l2 := p_expect (lex l') (TChar c) in f' l2).
Proof.
  intros lex A R l l' c f f' Hl Ho Hn Hc K.
  assert (E : forall l (f : lexer -> P A), (let! l2 := p_expect (lex l) (TChar c) in f l2) =
    let (lx, l1) := lex l in let! l2 := p_expect (lx, l1) (TChar c) in f l2) by (intros l0 f0; destruct (lex l0); reflexivity).
  rewrite !E. apply lex_both; auto. intros lx l1 l1' H1 H2 H3 H4 N1.
  assert (Rr : res (at_ l1) R (let! l2 := p_expect (lx, l1) (TChar c) in f l2)).
  { eapply expect_res; eauto. intros _. destruct (K l1 l1' H1 N1) as [K1 _]. exact K1. }
  unfold p_expect in *. destruct (lx_err lx) as [e|]; cbn [obind] in *.
  - eapply both_fail_at; [exact Rr|cbn; rewrite off_at; reflexivity|]. intro L. rewrite (near_offset _ _ N1 L). reflexivity.
  - destruct (tok_eqb (lx_tok lx) (TChar c)); cbn [obind] in *; [apply K; auto|].
    eapply both_fail_at; [exact Rr|cbn; rewrite off_at; reflexivity|]. intro L. rewrite (near_offset _ _ N1 L). reflexivity.
Qed.

Lemma advance_both : forall A R l l' (f f' : lexer -> P A), on l -> near l l' ->
  (forall l1 l1', on l1 -> near l1 l1' -> both (at_ l1) R (f l1) (f' l1')) ->
  both (at_ l) R (f (advanceExpr TX l)) (f' (advanceExpr TX l')).
Proof.
  intros A R l l' f f' Ho Hn K.
  assert (E : forall l (f : lexer -> P A), f (advanceExpr TX l) = let (_, l1) := lexExpr TX l in f l1)
    by (intros l0 f0; unfold advanceExpr; destruct (lexExpr TX l0); reflexivity).
  rewrite !E. apply lex_both; auto.
Qed.

Definition R0 n := forall n' pri l l', on l -> near l l' -> both (at_ l) xop (p_expr TX n pri l) (p_expr TX n' pri l').
Definition R1 n := forall n' pri e l l', xop e -> on l -> near l l' -> both (at_ l) xop (p_expr_loop TX n pri e l) (p_expr_loop TX n' pri e l').
Definition R2 n := forall n' o l l', ~ step_op o -> on l -> near l l' -> both (at_ l) xop (p_unary TX n o l) (p_unary TX n' o l').
Definition R3 n := forall n' l l', on l -> near l l' -> both (at_ l) xop (p_primary TX n l) (p_primary TX n' l').
Definition R4 n := forall n' e l l', xop e -> on l -> near l l' -> both (at_ l) xop (p_primary_loop TX n e l) (p_primary_loop TX n' e l').
Definition R5 n := forall n' o c args l l', ~ step_op o -> c = 41 \/ c = 93 -> on l -> near l l' ->
  both (at_ l) xop (p_application TX n o (TChar c) args l) (p_application TX n' o (TChar c) args l').
Definition R6 n := forall n' list_ l l', on l -> near l l' -> both (at_ l) any (p_exprlist TX n list_ l) (p_exprlist TX n' list_ l').
Definition R7 n := forall n' l l', on l -> near l l' -> both (at_ l) xop (p_primary1 TX n l) (p_primary1 TX n' l').

Ltac xo := unfold xop, step_op; cbn; intuition discriminate.
Ltac fin := apply both_ok; [assumption|lia|first [exact I|assumption|xo]|assumption].
Ltac fuel := apply both_fuel; apply parse_expr_res; assumption.

Lemma parse_expr_both : forall n, R0 n /\ R1 n /\ R2 n /\ R3 n /\ R4 n /\ R5 n /\ R6 n /\ R7 n.
Proof.
  induction n as [|n (I0 & I1 & I2 & I3 & I4 & I5 & I6 & I7)];
    [split; [|split; [|split; [|split; [|split; [|split; [|split]]]]]]; repeat intro; split; exact I|].
  split; [|split; [|split; [|split; [|split; [|split; [|split]]]]]].
  - intros n' pri l l' Ho Hn. destruct n' as [|n']; [fuel|]. cbn [p_expr].
    eapply both_bind; [apply I3; assumption|]. intros e l1 l1' H1 X1 N1. apply I1; assumption.
  - intros n' pri e l l' Xe Ho Hn. destruct n' as [|n']; [fuel|]. cbn [p_expr_loop].
    apply lookOp_both; [assumption..|]. intros t l1 l1' H1 N1. destruct (precedence (tok2op t) >=? pri); [|fin].
    apply lexOp_both; [assumption..|]. intros lx l2 l2' H2 P2 L2 G2 N2. destruct (lx_err lx) as [er|] eqn:Ee.
    { apply both_fail. eapply fail_err; [exact H2|lia|exact G2|exact Ee]. }
    cbv zeta. eapply both_bind; [apply I0; assumption|]. intros rhs l3 l3' H3 _ N3. apply I1; [apply tok2op_step|assumption..].
  - intros n' o l l' Xe Ho Hn. destruct n' as [|n']; [fuel|]. cbn [p_unary].
    eapply both_bind; [apply I3; assumption|]. intros e l1 l1' H1 _ N1. fin.
  - intros n' l l' Ho Hn. destruct n' as [|n']; [fuel|]. cbn [p_primary].
    eapply both_bind; [apply I7; assumption|]. intros e l1 l1' H1 X1 N1. apply I4; assumption.
  - intros n' e l l' Xe Ho Hn. pose proof (parse_expr_res TX s Hs (S n)) as (_ & _ & _ & _ & X4 & _).
    destruct n' as [|n']; [apply both_fuel, X4; assumption|]. specialize (X4 e). cbn [p_primary_loop].
    apply look_both; [auto|assumption..|]. intros t l1 l1' H1 Ht N1. destruct t; try fin.
    assert (Hc : In c s) by (destruct Ht as [Ht|[Ht _]]; [eapply ends_in; [exact Hs|exact Ht]|discriminate Ht]).
    destruct (Z.eqb_spec c 40) as [-> |_]; [|destruct (Z.eqb_spec c 91) as [-> |_]; [|destruct (Z.eqb_spec c 46) as [-> |_]]].
    + destruct (op_beq (opcode e) OpID) eqn:Eo; cbn [negb].
      * cbv zeta. apply (advance_both expr xop l1 l1'
          (fun l2 => let! (e', l3) := p_application TX n OpCall (TChar 41) [e] l2 in p_primary_loop TX n e' l3)
          (fun l2 => let! (e', l3) := p_application TX n' OpCall (TChar 41) [e] l2 in p_primary_loop TX n' e' l3)); [assumption..|].
        intros l2 l2' H2 N2. eapply both_bind; [apply I5; [xo|auto..]|]. intros e' l3 l3' H3 X3 N3. apply I4; assumption.
      * apply both_fail. split; [|discriminate]. apply ReCall; [|exact Xe|exact Hc]. intros K. rewrite K in Eo. discriminate Eo.
    + cbv zeta. apply (advance_both expr xop l1 l1'
          (fun l2 => let! (ix, l3) := p_expr TX n 0 l2 in let! l4 := p_expect (lexExpr TX l3) (TChar 93) in p_primary_loop TX n (EInner OpIndex [e; ix]) l4)
          (fun l2 => let! (ix, l3) := p_expr TX n' 0 l2 in let! l4 := p_expect (lexExpr TX l3) (TChar 93) in p_primary_loop TX n' (EInner OpIndex [e; ix]) l4)); [assumption..|].
      intros l2 l2' H2 N2. eapply both_bind; [apply I0; assumption|]. intros ix l3 l3' H3 _ N3.
      apply (expect_both (lexExpr TX)); auto; intros; apply I4; [xo|assumption..].
    + cbv zeta. apply (advance_both expr xop l1 l1'
          (fun l2 => let (lx, l3) := lexExpr TX l2 in match lx_err lx with Some er => Fail er | None =>
             if negb (tok_eqb (lx_tok lx) TID) then Fail ENoSelId else let! v := lx_s lx in p_primary_loop TX n (EInner OpDot [e; EName v]) l3 end)
          (fun l2 => let (lx, l3) := lexExpr TX l2 in match lx_err lx with Some er => Fail er | None =>
             if negb (tok_eqb (lx_tok lx) TID) then Fail ENoSelId else let! v := lx_s lx in p_primary_loop TX n' (EInner OpDot [e; EName v]) l3 end)); [assumption..|].
      intros l2 l2' H2 N2. apply (lex_both (lexExpr TX)); auto. intros lx l3 l3' H3 P3 L3 G3 N3.
      destruct (lx_err lx) as [er|] eqn:Ee.
      { apply both_fail. eapply fail_err; [exact H3|lia|exact G3|exact Ee]. }
      destruct (negb (tok_eqb (lx_tok lx) TID)).
      { apply both_fail. split; [|discriminate]. apply ReField. exact Hc. }
      apply both_pure; [intros er; unfold lx_s; destruct (lx_val lx); discriminate|]. intros a _. apply I4; [xo|assumption..].
    + fin.
  - intros n' o c args l l' Xe Hc Ho Hn. destruct n' as [|n']; [apply both_fuel; apply parse_expr_res; assumption|]. cbn [p_application].
    apply look_both; [auto|assumption..|]. intros t l1 l1' H1 Ht N1. apply (both_bind _ _ _ any).
    { destruct (negb (tok_eqb t (TChar c))); [apply I6; assumption|fin]. }
    intros args' l2 l2' H2 _ N2. apply (expect_both (lexExpr TX)); [auto|assumption|assumption|tauto|]. intros. fin.
  - intros n' list_ l l' Ho Hn. destruct n' as [|n']; [fuel|]. cbn [p_exprlist].
    eapply both_bind; [apply I0; assumption|]. intros e l1 l1' H1 _ N1. cbv zeta.
    apply look_both; [auto|assumption..|]. intros t l2 l2' H2 _ N2.
    destruct (negb (tok_eqb t (TChar 44))); [fin|].
    apply (advance_both (list expr) any l2 l2' (p_exprlist TX n (list_ ++ [e])) (p_exprlist TX n' (list_ ++ [e]))); [assumption..|].
    intros. apply I6; assumption.
  - intros n' l l' Ho Hn. destruct n' as [|n']; [fuel|]. cbn [p_primary1].
    assert (X : res (at_ l) xop (p_primary1 TX (S n) l)) by (apply parse_expr_res; assumption). cbn [p_primary1] in X.
    apply (lex_both (lexExpr TX)); auto. intros lx l1 l1' H1 P1 L1 G1 N1.
    destruct (lx_err lx) as [er|] eqn:Ee.
    { apply both_fail. eapply fail_err; [exact H1|lia|exact G1|exact Ee]. }
    clear X. 
    assert (X : res (at_ l1) xop (p_primary1 TX (S n) (mkLexer (l_rd l1) (Some lx)))).
    { change (at_ l1) with (at_ (mkLexer (l_rd l1) (Some lx))). apply (parse_expr_res TX s Hs (S n)). split; [apply H1|exact G1]. }
    cbn [p_primary1] in X. unfold lexExpr in X. cbn [l_peek l_rd] in X.
    assert (E1 : mkLexer (l_rd l1) None = l1) by (destruct l1; cbn in *; rewrite P1; reflexivity). rewrite E1, Ee in X.
    destruct (lx_tok lx) eqn:Et; try (apply both_fail; exact X).
    + destruct (Z.eqb_spec c 45); [apply I2; [xo|assumption..]|]. destruct (Z.eqb_spec c 33); [apply I2; [xo|assumption..]|].
      destruct (Z.eqb_spec c 47) as [-> |_].
      { unfold lexRegexp in *.
        destruct (lexRegexp_loop 47 [] (rd_before (l_rd l1)) (rd_after (l_rd l1))) as [x r] eqn:El.
        destruct (lx_err x) as [er|] eqn:Ex.
        { apply both_quiet; [exact X|]. apply regexp_loop_over with (n := length (rd_after (l_rd l1))) in El as (_ & _ & [Y|Y]); [congruence| |lia].
          rewrite Ex in Y. injection Y as ->. reflexivity. }
        unfold lx_s in *. destruct (lx_val x) as [|v| |] eqn:Ev; cbn [obind] in *; try (split; [exact X|exact I]).
        destruct (o_re_ok TX v) eqn:Eo; [|apply both_quiet; [exact X|reflexivity]].
        split; [exact X|]. intros L2. right. unfold at_ in L2. cbn [l_rd] in L2.
        pose proof (regexp_loop_over (length (rd_after (l_rd l1))) _ _ _ _ _ (le_n _) El) as (_ & Lr & _).
        destruct (N1 ltac:(unfold at_, pos; lia)) as [(b & u & E2 & E3 & E4) E5].
        rewrite E3. rewrite E2 in El. cbn [rd_before rd_after] in *.
        destruct (regexp_same N q q' Hq (length u) _ _ _ _ _ (le_n _) El E4 L2) as (r' & F1 & F2).
        rewrite F1, Ex, Ev. cbn [obind]. rewrite Eo, E5. eexists. split; [reflexivity|]. split; [exact F2|reflexivity]. }
      destruct (Z.eqb_spec c 64); [fin|]. destruct (Z.eqb_spec c 36); [fin|].
      destruct (Z.eqb_spec c 40).
      { eapply both_bind; [apply I0; assumption|]. intros ex l2 l2' H2 X2 N2. apply (expect_both (lexExpr TX)); auto. intros. fin. }
      destruct (Z.eqb_spec c 91); [apply I5; [xo|auto..]|]. apply both_fail. exact X.
    + apply both_pure; [intros er; unfold lx_s; destruct (lx_val lx); discriminate|]. intros v _.
      destruct (beqb v kw_true); [fin|]. destruct (beqb v kw_false); [fin|]. destruct (beqb v kw_null); fin.
    + apply both_pure; [intros er; unfold lx_s; destruct (lx_val lx); discriminate|]. intros v _. fin.
    + apply both_pure; [intros er; unfold lx_i; destruct (lx_val lx); discriminate|]. intros v _. fin.
    + apply both_pure; [intros er; unfold lx_f; destruct (lx_val lx); discriminate|]. intros v _. fin.
Qed.

Lemma script_both : forall l l', on l -> near l l' -> both (at_ l) any (p_script TX l) (p_script TX l').
Proof. intros l l' Ho Hn. eapply both_any. apply parse_expr_both; assumption. Qed.

Lemma paren_both : forall l l', on l -> near l l' -> both (at_ l) any (p_paren TX l) (p_paren TX l').
Proof.
  intros l l' Ho Hn. unfold p_paren. eapply both_bind; [apply script_both; assumption|]. intros e l1 l1' H1 _ N1.
  apply (expect_both (lexPath TX)); auto. intros. fin.
Qed.

Lemma fail_tok_both : forall A Q l l' t, tok_at TX s (at_ l) t -> on l -> near l l' ->
  both (A := A) (at_ l) Q (Fail (EUnexpectedTok t (l_offset l))) (Fail (EUnexpectedTok t (l_offset l'))).
Proof.
  intros A Q l l' t Ht Ho Hn. eapply both_fail_at with (l := l); [|cbn; rewrite off_at; reflexivity|].
  - rewrite off_at. apply fail_tok; [exact Ht|lia|apply on_le with (TX := TX), Ho].
  - intro L. rewrite (near_offset _ _ Hn L). reflexivity.
Qed.

Lemma slice_val_both : forall l l', on l -> near l l' -> both (at_ l) any (p_slice_val TX l) (p_slice_val TX l').
Proof.
  intros l l' Ho Hn. unfold p_slice_val. apply (lex_both (lexPath TX)); auto. intros lx l1 l1' H1 P1 L1 G1 N1.
  pose proof (lexok_tok_at _ _ _ _ G1) as T. 
  destruct (lx_tok lx) eqn:Et; try (apply fail_tok_both; assumption).
  - destruct (Z.eqb_spec c 40); [|apply fail_tok_both; assumption].
    eapply both_bind; [apply paren_both; assumption|]. intros ex l2 l2' H2 _ N2. fin.
  - apply both_pure; [intros er; unfold lx_i; destruct (lx_val lx); discriminate|]. intros v _. fin.
Qed.

Lemma slice_tail_both : forall a b l l', on l -> In 58 s -> near l l' -> both (at_ l) any (p_slice_tail TX a b l) (p_slice_tail TX a b l').
Proof.
  intros a b l l' Ho Hc Hn. unfold p_slice_tail. apply look_both_again; [auto|assumption..|]. intros t l1 l1' El El' H1 Ht N1.
  destruct (is_end_tok t) eqn:M1; [fin|]. destruct (tok_eqb t (TChar 58)) eqn:M2.
  - apply (lex_both (lexPath TX)); auto. intros lx l2 l2' H2 P2 L2 G2 N2.
    apply look_both; [auto|assumption..|]. intros t2 l3 l3' H3 Ht2 N3.
    destruct (is_end_tok t2); [fin|]. eapply both_bind; [apply slice_val_both; assumption|]. intros ex l4 l4' H4 _ N4. fin.
  - rewrite El, El'. cbn [obind]. eapply both_fail_at with (l := l1); [|cbn; rewrite off_at; reflexivity|].
    + rewrite off_at. apply slice_tok; [exact Ht|lia|apply on_le with (TX := TX), H1|assumption..].
    + intro L. rewrite (near_offset _ _ N1 L). reflexivity.
Qed.

Lemma slice_both : forall a l l', on l -> In 58 s -> near l l' -> both (at_ l) any (p_slice TX a l) (p_slice TX a l').
Proof.
  intros a l l' Ho Hc Hn. unfold p_slice. apply look_both; [auto|assumption..|]. intros t l1 l1' H1 Ht N1.
  apply (both_bind _ _ _ any).
  - destruct (is_end_tok t); [fin|]. destruct (negb (tok_eqb t (TChar 58))).
    + eapply both_bind; [apply slice_val_both; assumption|]. intros ex l2 l2' H2 _ N2. apply slice_tail_both; assumption.
    + apply slice_tail_both; assumption.
  - intros sl l2 l2' H2 _ N2. fin.
Qed.

Lemma val_both : forall l l', on l -> near l l' -> both (at_ l) any (p_val TX l) (p_val TX l').
Proof.
  intros l l' Ho Hn. unfold p_val. apply (lex_both (lexPath TX)); auto. intros lx l1 l1' H1 P1 L1 G1 N1.
  pose proof (lexok_tok_at _ _ _ _ G1) as T. destruct (lx_err lx) as [er|] eqn:Ee.
  { apply both_fail. eapply fail_err; [exact H1|lia|exact G1|exact Ee]. }
  destruct (lx_tok lx) eqn:Et; try (apply fail_tok_both; assumption).
  - destruct (Z.eqb_spec c 42); [fin|]. destruct (Z.eqb_spec c 40).
    { eapply both_bind; [apply paren_both; assumption|]. intros ex l2 l2' H2 _ N2.
      apply look_both; [auto|assumption..|]. intros t l3 l3' H3 Ht N3. destruct (tok_eqb t (TChar 58)) eqn:Ec; [|fin]. pose proof (colon_in TX s Hs _ _ Ht Ec) as Hcol.
      apply (lex_both (lexPath TX)); auto. intros lx' l4 l4' H4 _ _ _ N4. apply slice_both; assumption. }
    destruct (Z.eqb_spec c 58) as [-> |_]; [apply slice_both; [assumption|eapply colon_in; [exact Hs|exact T|reflexivity]|assumption]|apply fail_tok_both; assumption].
  - apply both_pure; [intros er; unfold lx_s; destruct (lx_val lx); discriminate|]. intros v _. fin.
  - apply both_pure; [intros er; unfold lx_s; destruct (lx_val lx); discriminate|]. intros v _. fin.
  - apply both_pure; [intros er; unfold lx_i; destruct (lx_val lx); discriminate|]. intros v _.
    apply look_both; [auto|assumption..|]. intros t l3 l3' H3 Ht N3. destruct (tok_eqb t (TChar 58)) eqn:Ec; [|fin]. pose proof (colon_in TX s Hs _ _ Ht Ec) as Hcol.
    apply (lex_both (lexPath TX)); auto. intros lx' l4 l4' H4 _ _ _ N4. apply slice_both; assumption.
  - eapply both_bind; [apply paren_both; assumption|]. intros ex l2 l2' H2 _ N2. fin.
Qed.

(** a list of values: the plain form of the lemma on reasons *)
Lemma val_list_res0 : forall n acc l, on l -> res (at_ l) any (p_val_list TX n acc l).
Proof.
  induction n as [|n IH]; intros acc l Ho; [exact I|]. cbn [p_val_list].
  eapply res_bind; [apply val_res; assumption|]. intros st l1 _ H1 _ _.
  apply look_bind; [exact Hs|auto|exact H1|lia|]. intros t l2 _ H2 _ Ht.
  destruct (negb (tok_eqb t (TChar 44))); [apply res_ok; auto|].
  destruct (lexPath TX l2) as [lx' l4] eqn:E. eapply lexPath_on in E as (H4 & P4 & L4 & G4); [|exact Hs|exact H2].
  eapply res_le; [exact L4|]. apply IH, H4.
Qed.

Lemma val_list_both : forall n n' acc l l', on l -> near l l' ->
  both (at_ l) any (p_val_list TX n acc l) (p_val_list TX n' acc l').
Proof.
  induction n as [|n IH]; intros n' acc l l' Ho Hn; [split; exact I|].
  destruct n' as [|n']; [apply both_fuel, val_list_res0; assumption|]. cbn [p_val_list].
  eapply both_bind; [apply val_both; assumption|]. intros st l1 l1' H1 _ N1.
  apply look_both; [auto|assumption..|]. intros t l2 l2' H2 _ N2.
  destruct (negb (tok_eqb t (TChar 44))); [fin|]. apply (lex_both (lexPath TX)); auto.
Qed.

Lemma subscript_both : forall l l', on l -> near l l' -> both (at_ l) any (p_subscript TX l) (p_subscript TX l').
Proof.
  intros l l' Ho Hn. split; [apply subscript_res; assumption|]. pose proof (subscript_res TX s Hs l Ho) as X. unfold p_subscript in *.
  destruct (val_list_both (list_fuel l) (list_fuel l') [] l l' Ho Hn) as [K1 K2].
  destruct (p_val_list TX (list_fuel l) [] l) as [[steps l1]|e| |]; cbn [obind] in *; try exact I.
  - destruct (subscript_step steps) as [st|e| |] eqn:Es; cbn [obind] in *; try exact I.
    + intros L. destruct (K2 L) as [-> |(l1' & -> & R)]; [left; reflexivity|]. right. cbn [obind]. rewrite Es. cbn. eauto.
    + assert (offset_of e = None) as Eo; [|intros o Hoo; congruence].
      unfold subscript_step in Es. destruct (if 1 <? Z.of_nat (length steps) then union_bad steps else None); [injection Es as <-; reflexivity|].
      destruct steps as [|s0 r]; [discriminate Es|]. pose proof (union_args_ok (s0 :: r)) as V.
      destruct (st_op s0); try discriminate Es; destruct (union_args (s0 :: r)) as [|e'| |]; cbn in Es; try discriminate Es; destruct (V e'); reflexivity.
  - intros o Hoo Lo. destruct (K2 o Hoo Lo) as [-> | ->]; cbn; auto.
Qed.

Lemma brackets_both : forall l l', on l -> near l l' -> both (at_ l) any (p_brackets TX l) (p_brackets TX l').
Proof.
  intros l l' Ho Hn. unfold p_brackets. eapply both_bind; [apply subscript_both; assumption|]. intros st l1 l1' H1 _ N1.
  apply (expect_both (lexPath TX)); auto. intros. fin.
Qed.

Lemma member_both : forall l l', on l -> near l l' -> both (at_ l) any (p_member TX l) (p_member TX l').
Proof.
  intros l l' Ho Hn. unfold p_member. apply (lex_both (lexPath TX)); auto. intros lx l1 l1' H1 P1 L1 G1 N1.
  pose proof (lexok_tok_at _ _ _ _ G1) as T. destruct (lx_err lx) as [er|] eqn:Ee.
  { apply both_fail. eapply fail_err; [exact H1|lia|exact G1|exact Ee]. }
  destruct (lx_tok lx) eqn:Et; try (apply fail_tok_both; assumption).
  - destruct (Z.eqb_spec c 42); [fin|]. destruct (Z.eqb_spec c 40); [|apply fail_tok_both; assumption].
    eapply both_bind; [apply paren_both; assumption|]. intros ex l2 l2' H2 _ N2. fin.
  - apply both_pure; [intros er; unfold lx_s; destruct (lx_val lx); discriminate|]. intros v _. fin.
  - apply both_pure; [intros er; unfold lx_i; destruct (lx_val lx); discriminate|]. intros v _. fin.
Qed.

Lemma path_loop_both : forall n n' acc l l', on l -> near l l' ->
  both (at_ l) any (p_path_loop TX n acc l) (p_path_loop TX n' acc l').
Proof.
  induction n as [|n IH]; intros n' acc l l' Ho Hn; [split; exact I|].
  destruct n' as [|n']; [apply both_fuel, path_loop_res; assumption|].
  cbn [p_path_loop]. apply (lex_both (lexPath TX)); auto. intros lx l1 l1' H1 P1 L1 G1 N1.
  assert (X : res (at_ l1) any (p_path_loop TX (S n) acc (mkLexer (l_rd l1) (Some lx)))).
  { change (at_ l1) with (at_ (mkLexer (l_rd l1) (Some lx))). apply (path_loop_res TX s Hs). split; [apply H1|exact G1]. }
  cbn [p_path_loop] in X. unfold lexPath at 1 in X. cbn [l_peek l_rd] in X.
  assert (E1 : mkLexer (l_rd l1) None = l1) by (destruct l1; cbn in *; rewrite P1; reflexivity). rewrite E1 in X.
  destruct (lx_tok lx) eqn:Et; try (apply both_fail; exact X).
  - destruct (Z.eqb_spec c 46).
    { eapply both_bind; [apply member_both; assumption|]. intros m l2 l2' H2 _ N2. apply IH; assumption. }
    destruct (Z.eqb_spec c 91); [|apply both_fail; exact X].
    eapply both_bind; [apply brackets_both; assumption|]. intros m l2 l2' H2 _ N2. apply IH; assumption.
  - destruct (lx_err lx) as [er|]; [apply both_fail; exact X|split; exact I].
  - fin.
  - apply look_both; [auto|assumption..|]. intros t l2 l2' H2 Ht N2. destruct (tok_eqb t (TChar 91)).
    + apply (lex_both (lexPath TX)); auto. intros lx' l3 l3' H3 _ _ _ N3.
      eapply both_bind; [apply brackets_both; assumption|]. intros m l4 l4' H4 _ N4.
      apply both_pure; [intro; destruct (st_op m); discriminate|]. intros o _. apply IH; assumption.
    + eapply both_bind; [apply member_both; assumption|]. intros m l4 l4' H4 _ N4. apply IH; assumption.
Qed.

Lemma new_near : near (new_parser (p ++ q)) (new_parser (p ++ q')).
Proof.
  intros _. split; [|reflexivity]. exists [], p. split; [reflexivity|]. split; reflexivity.
Qed.

Lemma path_determ : forall e o, ParsePath TX (p ++ q) = Fail e -> offset_of e = Some o -> o + 1 < Z.of_nat N ->
  ParsePath TX (p ++ q') <> OutOfFuel -> ParsePath TX (p ++ q') = Fail e.
Proof.
  intros e o H Ho Lo Hf.
  assert (K : both 0 any (p_path TX (new_parser (p ++ q))) (p_path TX (new_parser (p ++ q')))).
  { unfold p_path. apply (expect_both (lexPath TX) path any (new_parser (p ++ q)) (new_parser (p ++ q')) 36
      (fun l1 => p_path_loop TX (list_fuel l1) [] l1) (fun l1 => p_path_loop TX (list_fuel l1) [] l1));
      [auto|split; [reflexivity|exact I]|apply new_near|auto|]. intros. apply path_loop_both; assumption. }
  destruct K as [_ K]. unfold ParsePath in *.
  destruct (p_path TX (new_parser (p ++ q))) as [[x l]|e'| |]; cbn in H; try discriminate H. injection H as ->.
  destruct (K o Ho Lo) as [E|E]; rewrite E in *; cbn in *; [congruence|reflexivity].
Qed.

Lemma script_determ : forall e o, ParseScriptExpression TX (p ++ q) = Fail e -> offset_of e = Some o -> o + 1 < Z.of_nat N ->
  ParseScriptExpression TX (p ++ q') <> OutOfFuel -> ParseScriptExpression TX (p ++ q') = Fail e.
Proof.
  intros e o H Ho Lo Hf.
  set (fin := fun (e : expr) l => let (lx, l1) := lexExpr TX l in
     if negb (tok_eqb (lx_tok lx) TEOF) then Fail (EMissingOp (l_offset l1) (lx_tok lx)) else OK (e, l1)).
  assert (E : forall t, ParseScriptExpression TX t = let! (e, _) := (let! (e, l) := p_script TX (new_parser t) in fin e l) in OK e).
  { intro t. unfold ParseScriptExpression, fin. destruct (p_script TX (new_parser t)) as [[x l]|e'| |]; cbn; try reflexivity.
    destruct (lexExpr TX l) as [lx l1]. destruct (negb (tok_eqb (lx_tok lx) TEOF)); reflexivity. }
  assert (K : both 0 any (let! (e, l) := p_script TX (new_parser (p ++ q)) in fin e l) (let! (e, l) := p_script TX (new_parser (p ++ q')) in fin e l)).
  { eapply both_bind; [apply (script_both (new_parser (p ++ q)) (new_parser (p ++ q'))); [split; [reflexivity|exact I]|apply new_near]|].
    intros x l1 l1' H1 _ N1. unfold fin. apply (lex_both (lexExpr TX)); auto. intros lx l2 l2' H2 P2 L2 G2 N2.
    destruct (tok_eqb (lx_tok lx) TEOF) eqn:Et; cbn [negb]; [apply both_ok; auto|].
    eapply both_fail_at with (l := l2); [|cbn; rewrite off_at; reflexivity|].
    - rewrite off_at. split; [|intros o' Ho'; cbn in Ho'; eapply last_byte_le; [reflexivity|congruence]].
      destruct (lexok_tok_at _ _ _ _ G2) as [T|(T & er & T1 & T2)].
      + apply ReOperator; [|exact T]. intro X. rewrite X in Et. discriminate Et.
      + rewrite T. eapply ReOperatorErr; [exact T1|eapply on_le; exact H2|exact T2].
    - intro L. rewrite (near_offset _ _ N2 L). reflexivity. }
  destruct K as [_ K]. rewrite E in H, Hf |- *.
  destruct (let! (e, l) := p_script TX (new_parser (p ++ q)) in fin e l) as [[x l]|e'| |]; cbn in H; try discriminate H. injection H as ->.
  destruct (K o Ho Lo) as [X|X]; rewrite X in *; cbn in *; [congruence|reflexivity].
Qed.
End two.

Lemma path_why : forall TX s e, is_bytes s -> ParsePath TX s = Fail e -> reason TX s e.
Proof. intros TX s e H. apply path_reason, bytes_nonneg, H. Qed.
Lemma script_why : forall TX s e, is_bytes s -> ParseScriptExpression TX s = Fail e -> reason TX s e.
Proof. intros TX s e H. apply script_reason, bytes_nonneg, H. Qed.

Lemma last_byte_range : forall (s : bytes) k, (k <= length s)%nat -> 0 <= last_byte k <= last_byte (length s).
Proof. intros s k H. unfold last_byte. lia. Qed.
Lemma ends_le : forall s k t, ends s k t -> (k <= length s)%nat.
Proof. intros s k t (a & w & b & -> & _ & -> & _). rewrite !app_length. lia. Qed.

Lemma reason_offset : forall TX s e o, reason TX s e -> offset_of e = Some o -> 0 <= o <= last_byte (length s).
Proof.
  intros TX s e o H E.
  destruct H; cbn in E; try discriminate E; injection E as <-;
    try (apply last_byte_range; first [assumption|eapply ends_le; eassumption]);
    subst s; rewrite ?app_length; unfold last_byte; rewrite ?app_length; cbn [length]; rewrite ?app_length; lia.
Qed.

Lemma offset_range : forall TX s e o, is_bytes s ->
  ParsePath TX s = Fail e \/ ParseScriptExpression TX s = Fail e ->
  offset_of e = Some o -> 0 <= o <= last_byte (length s).
Proof.
  intros TX s e o H [K|K]; apply reason_offset with (TX := TX); [apply path_why|apply script_why]; assumption.
Qed.

Lemma split_start : forall n s s', same_start n s s' -> (n < length s)%nat ->
  exists p q q', s = p ++ q /\ s' = p ++ q' /\ length p = n /\ q <> [].
Proof.
  intros n s s' [H _] L. exists (firstn n s), (skipn n s), (skipn n s').
  split; [symmetry; apply firstn_skipn|]. split; [rewrite <- H; symmetry; apply firstn_skipn|].
  split; [apply firstn_length_le; lia|]. intro E. apply (f_equal (@length Z)) in E. rewrite skipn_length in E. cbn in E. lia.
Qed.

Lemma path_upto : forall TX s s' e o, is_bytes s -> is_bytes s' -> ParsePath TX s = Fail e -> offset_of e = Some o ->
  same_start (Z.to_nat (o + 2)) s s' -> ParsePath TX s' = Fail e.
Proof.
  intros TX s s' e o Hs Hs' H Ho S.
  pose proof (reason_offset TX s e o (path_why TX s e Hs H) Ho) as [R _].
  destruct (le_lt_dec (length s) (Z.to_nat (o + 2))) as [L|L]; [rewrite (proj2 S L); exact H|].
  destruct (split_start _ _ _ S L) as (p & q & q' & -> & -> & Lp & Hq).
  apply path_determ with (q := q) (o := o); try assumption.
  - apply bytes_nonneg, Hs.
  - apply bytes_nonneg in Hs'. apply nonneg_app_r in Hs'. exact Hs'.
  - lia.
  - destruct (path_total TX _ Hs') as [(x & K)|(x & K & _)]; rewrite K; discriminate.
Qed.

Lemma script_upto : forall TX s s' e o, is_bytes s -> is_bytes s' -> ParseScriptExpression TX s = Fail e -> offset_of e = Some o ->
  same_start (Z.to_nat (o + 2)) s s' -> ParseScriptExpression TX s' = Fail e.
Proof.
  intros TX s s' e o Hs Hs' H Ho S.
  pose proof (reason_offset TX s e o (script_why TX s e Hs H) Ho) as [R _].
  destruct (le_lt_dec (length s) (Z.to_nat (o + 2))) as [L|L]; [rewrite (proj2 S L); exact H|].
  destruct (split_start _ _ _ S L) as (p & q & q' & -> & -> & Lp & Hq).
  apply script_determ with (q := q) (o := o); try assumption.
  - apply bytes_nonneg, Hs.
  - apply bytes_nonneg in Hs'. apply nonneg_app_r in Hs'. exact Hs'.
  - lia.
  - destruct (script_total TX _ Hs') as [(x & K)|(x & K & _)]; rewrite K; discriminate.
Qed.
