(** Every syntax error has a reason in the text. *)
From Verif Require Import Syntax SpecGrammar Lexer Parser SpecErrors LexProofs LexProofs2 ParserProofs LexReason.
Local Open Scope Z_scope.

Lemma tok_eqb_char : forall t c, tok_eqb t (TChar c) = true <-> t = TChar c.
Proof.
  intros t c. split; [|intros ->; cbn; apply Z.eqb_refl].
  intro H. destruct t; simpl in H; try discriminate. apply Z.eqb_eq in H. congruence.
Qed.


Section reasons.
Variable TX : textoracles.
Variable s : bytes.
Hypothesis Hs : nonneg s.
Notation rsn := (reason TX s).

(** a lexer over the text [s] *)
Definition on (l : lexer) : Prop :=
  text (l_rd l) = s /\ match l_peek l with Some lx => lexok TX s (pos (l_rd l)) lx | None => True end.
Definition at_ (l : lexer) : nat := pos (l_rd l).

(** what a parsing function does *)
Definition res {A} (k : nat) (Q : A -> Prop) (x : P A) : Prop :=
  match x with
  | OK (a, l1) => on l1 /\ (k <= at_ l1)%nat /\ Q a
  | Fail e => rsn e /\ (forall o, offset_of e = Some o -> Z.of_nat k <= o + 1)
  | _ => True
  end.
Notation any := (fun _ => True).

Lemma on_le : forall l, on l -> (at_ l <= length s)%nat.
Proof. intros l [H _]. rewrite <- H. apply pos_le. Qed.

Lemma res_bind : forall A B k Q R (m : P A) (f : A -> lexer -> P B), res k Q m ->
  (forall a l1, m = OK (a, l1) -> on l1 -> (k <= at_ l1)%nat -> Q a -> res (at_ l1) R (f a l1)) ->
  res k R (let! (a, l1) := m in f a l1).
Proof.
  intros A B k Q R m f H K. destruct m as [[a l1]|e| |]; cbn in *; [|exact H|exact I|exact I].
  destruct H as (H1 & H2 & H3). specialize (K a l1 eq_refl H1 H2 H3). unfold res in *.
  destruct (f a l1) as [[b l2]|e| |]; try exact I.
  - destruct K as (K1 & K2 & K3). split; [exact K1|]. split; [lia|exact K3].
  - destruct K as (K1 & K2). split; [exact K1|]. intros o Ho. specialize (K2 o Ho). lia.
Qed.

Lemma res_le : forall A k k' Q (m : P A), (k <= k')%nat -> res k' Q m -> res k Q m.
Proof.
  intros A k k' Q m L H. destruct m as [[a l1]|e| |]; cbn in *; try exact I.
  - destruct H as (H1 & H2 & H3). split; [exact H1|]. split; [lia|exact H3].
  - destruct H as (H1 & H2). split; [exact H1|]. intros o Ho. specialize (H2 o Ho). lia.
Qed.

Lemma res_pure : forall A B k R (m : outcome perr A) (f : A -> P B), (forall e, m <> Fail e) ->
  (forall a, m = OK a -> res k R (f a)) -> res k R (let! a := m in f a).
Proof. intros A B k R m f H K. destruct m as [a|e| |]; cbn; try exact I; [apply K; reflexivity|destruct (H e); reflexivity]. Qed.

Lemma res_ok : forall A k (Q : A -> Prop) a l, on l -> (k <= at_ l)%nat -> Q a -> res k Q (OK (a, l)).
Proof. cbn. auto. Qed.

Lemma res_any : forall A k (Q : A -> Prop) m, res k Q m -> res k any m.
Proof. intros A k Q [[a l]|e| |] H; cbn in *; try exact I; [|exact H]. destruct H as (? & ? & ?). auto. Qed.

Lemma lexPath_on : forall l lx l1, on l -> lexPath TX l = (lx, l1) ->
  on l1 /\ l_peek l1 = None /\ (at_ l <= at_ l1)%nat /\ lexok TX s (at_ l1) lx.
Proof.
  intros l lx l1 [Ht Hp] H. unfold lexPath in H. destruct (l_peek l) as [p|].
  - injection H as <- <-. split; [split; [exact Ht|exact I]|]. split; [reflexivity|]. split; [unfold at_; cbn; lia|exact Hp].
  - destruct (lexPath_rd TX (l_rd l)) as [x r] eqn:E. injection H as <- <-.
    pose proof (lexPath_good TX (l_rd l)) as G. rewrite E, Ht in G. destruct (G Hs) as (G1 & G2 & G3). cbn [fst snd] in *.
    rewrite Ht in G1. rewrite Ht in G3.
    split; [split; [exact G1|exact I]|]. split; [reflexivity|]. split; [exact G2|exact G3].
Qed.

Lemma lexExpr_on : forall l lx l1, on l -> lexExpr TX l = (lx, l1) ->
  on l1 /\ l_peek l1 = None /\ (at_ l <= at_ l1)%nat /\ lexok TX s (at_ l1) lx.
Proof.
  intros l lx l1 [Ht Hp] H. unfold lexExpr in H. destruct (l_peek l) as [p|].
  - injection H as <- <-. split; [split; [exact Ht|exact I]|]. split; [reflexivity|]. split; [unfold at_; cbn; lia|exact Hp].
  - destruct (lexExpr_rd TX (l_rd l)) as [x r] eqn:E. injection H as <- <-.
    pose proof (lexExpr_good TX (l_rd l)) as G. rewrite E, Ht in G. destruct (G Hs) as (G1 & G2 & G3). cbn [fst snd] in *.
    rewrite Ht in G1. rewrite Ht in G3.
    split; [split; [exact G1|exact I]|]. split; [reflexivity|]. split; [exact G2|exact G3].
Qed.

(** a lexeme that was read: its error, or its token *)
Lemma lexok_err : forall k lx e, lexok TX s k lx -> lx_err lx = Some e ->
  rsn e /\ (forall o, offset_of e = Some o -> o = last_byte k) /\ lx_tok lx = TError.
Proof. intros k lx e H E. unfold lexok in H. rewrite E in H. exact H. Qed.
Lemma ends_of : forall k t v, ends_with TX s k t v -> ends s k t.
Proof. intros k t v (a & w & b & H1 & H2 & _ & H3 & H4). exists a, w, b. auto. Qed.
Lemma ends_name : forall k v, ends_with TX s k TID (LStr v) -> exists a b, s = a ++ v ++ b /\ k = length (a ++ v).
Proof.
  intros k v (a & w & b & H1 & _ & Hv & H3 & _). inversion Hv; subst; [exists a, b; auto|].
  intuition discriminate.
Qed.
Lemma lexok_val : forall k lx, lexok TX s k lx -> lx_tok lx <> TError -> ends_with TX s k (lx_tok lx) (lx_val lx).
Proof.
  intros k lx H E. unfold lexok in H. destruct (lx_err lx) as [e|]; [destruct H as (_ & _ & H); contradiction|exact H].
Qed.
Lemma lexok_tok : forall k lx, lexok TX s k lx -> lx_tok lx <> TError -> lx_err lx = None /\ ends s k (lx_tok lx).
Proof.
  intros k lx H E. unfold lexok in H. destruct (lx_err lx) as [e|]; [destruct H as (_ & _ & H); contradiction|].
  split; [reflexivity|eapply ends_of, H].
Qed.
Lemma lexok_none : forall k lx, lexok TX s k lx -> lx_err lx = None -> ends s k (lx_tok lx).
Proof. intros k lx H E. unfold lexok in H. rewrite E in H. eapply ends_of, H. Qed.

Lemma last_byte_le : forall j k o, (j <= k)%nat -> o = last_byte k -> Z.of_nat j <= o + 1.
Proof. intros j k o H ->. unfold last_byte. lia. Qed.

Lemma fail_err : forall A k Q l1 lx e, on l1 -> (k <= at_ l1)%nat -> lexok TX s (at_ l1) lx -> lx_err lx = Some e ->
  @res A k Q (Fail e).
Proof.
  intros A k Q l1 lx e Ho L H E. apply lexok_err with (e := e) in H as (H1 & H2 & _); [|exact E].
  split; [exact H1|]. intros o Hoo. eapply last_byte_le; [exact L|apply H2; exact Hoo].
Qed.

Lemma off_at : forall l, l_offset l = last_byte (at_ l).
Proof. intro l. apply offset_last. Qed.

(** tokens read ahead *)
Definition tok_at (k : nat) (t : token) : Prop :=
  ends s k t \/ (t = TError /\ exists e, rsn e /\ (forall o, offset_of e = Some o -> o = last_byte k)).

Lemma lexok_tok_at : forall k lx, lexok TX s k lx -> tok_at k (lx_tok lx).
Proof.
  intros k lx H. unfold lexok in H. destruct (lx_err lx) as [e|]; [|left; eapply ends_of, H].
  destruct H as (H1 & H2 & H3). right. split; [exact H3|]. exists e. auto.
Qed.

Lemma p_look_res : forall l r, (forall lx l1, r = (lx, l1) -> on l1 /\ l_peek l1 = None /\ (at_ l <= at_ l1)%nat /\ lexok TX s (at_ l1) lx) ->
  match p_look r with
  | OK (t, l1) => on l1 /\ (at_ l <= at_ l1)%nat /\ tok_at (at_ l1) t
  | Fail _ => False
  | _ => True
  end.
Proof.
  intros l [lx l1] H. destruct (H lx l1 eq_refl) as ([H1 _] & H2 & H3 & H4). unfold p_look, p_unget, unget. rewrite H2. cbn.
  split; [split; [exact H1|exact H4]|]. split; [exact H3|].
  pose proof (lexok_tok_at _ _ H4) as K. unfold lexok in H4. destruct (lx_err lx); [|exact K].
  destruct H4 as (_ & _ & E). rewrite E in K. exact K.
Qed.

Lemma look_bind : forall (look : lexer -> P token) A k R l (f : token -> lexer -> P A),
  (look = lookPath TX \/ look = lookExpr TX) ->
  on l -> (k <= at_ l)%nat ->
  (forall t l1, look l = OK (t, l1) -> on l1 -> (at_ l <= at_ l1)%nat -> tok_at (at_ l1) t -> res (at_ l1) R (f t l1)) ->
  res k R (let! (t, l1) := look l in f t l1).
Proof.
  intros look A k R l f Hl Ho L K.
  assert (G : match look l with
    | OK (t, l1) => on l1 /\ (at_ l <= at_ l1)%nat /\ tok_at (at_ l1) t
    | Fail _ => False | _ => True end).
  { destruct Hl as [-> | ->]; apply p_look_res; intros lx l1 E; [apply lexPath_on|apply lexExpr_on]; assumption. }
  destruct (look l) as [[t l1]|e| |] eqn:E; cbn; [|destruct G|exact I|exact I].
  destruct G as (G1 & G2 & G3). apply (res_le _ _ (at_ l1)); [lia|]. apply K; auto.
Qed.

Lemma lexOp_on : forall l, on l ->
  match lexOp TX l with
  | OK (lx, l1) => on l1 /\ l_peek l1 = None /\ (at_ l <= at_ l1)%nat /\ lexok TX s (at_ l1) lx
  | Fail _ => False
  | _ => True
  end.
Proof.
  intros l Ho. unfold lexOp. destruct (lexExpr TX l) as [lx l1] eqn:E.
  apply lexExpr_on in E as (H1 & H2 & H3 & H4); [|exact Ho]. unfold lexok in H4.
  destruct (lx_err lx) as [e|] eqn:Ee.
  - cbn. split; [exact H1|]. split; [exact H2|]. split; [exact H3|]. unfold lexok. cbn.
    destruct H4 as (A & B & _). auto.
  - destruct (lx_tok lx) eqn:Et;
      try (cbn; split; [exact H1|]; split; [exact H2|]; split; [exact H3|]; unfold lexok; cbn; rewrite ?Et in *; exact H4).
    unfold lx_s. destruct (lx_val lx) as [|v| |] eqn:Ev; cbn [obind]; try exact I.
    split; [exact H1|]. split; [exact H2|]. split; [exact H3|]. unfold lexok. cbn [lx_err lx_tok lx_val].
    pose proof (ends_name _ _ H4) as (a & b & Hv & Hk).
    destruct (beqb v kw_in) eqn:Ei; [|destruct (beqb v kw_nin) eqn:En].
    + apply beqb_true in Ei. exists a, v, b. split; [exact Hv|].
      split; [|split; [apply VlWord; auto|split; [exact Hk|discriminate]]].
      rewrite Ei. apply SpTwo. cbn. auto 20.
    + apply beqb_true in En. exists a, v, b. split; [exact Hv|].
      split; [|split; [apply VlWord; auto|split; [exact Hk|discriminate]]].
      rewrite En. apply SpTwo. cbn. auto 20.
    + exact H4.
Qed.

Lemma expect_res : forall A k R lx l1 c (f : lexer -> P A),
  on l1 -> l_peek l1 = None -> (k <= at_ l1)%nat -> lexok TX s (at_ l1) lx -> c = 36 \/ c = 41 \/ c = 93 ->
  (lx_tok lx = TChar c -> res (at_ l1) R (f l1)) ->
  res k R (let! l2 := p_expect (lx, l1) (TChar c) in f l2).
Proof.
  intros A k R lx l1 c f H1 H2 H3 H4 Hc K. unfold p_expect. pose proof (on_le _ H1) as L.
  destruct (lx_err lx) as [e|] eqn:Ee; cbn.
  - apply lexok_err with (e := e) in H4 as (A1 & A2 & _); [|exact Ee]. rewrite off_at. split.
    + apply ReExpectedErr; assumption.
    + intros o Ho. eapply last_byte_le; [exact H3|congruence].
  - destruct (tok_eqb (lx_tok lx) (TChar c)) eqn:Et; cbn.
    + apply (res_le _ _ (at_ l1)); [exact H3|]. apply K, tok_eqb_char, Et.
    + rewrite off_at. split.
      * apply ReExpected; [exact Hc| |apply lexok_none; assumption].
        intro E. apply tok_eqb_char in E. congruence.
      * intros o Ho. eapply last_byte_le; [exact H3|congruence].
Qed.

Lemma unget_on : forall lx l1 l2, on l1 -> lexok TX s (at_ l1) lx -> p_unget lx l1 = OK l2 -> on l2 /\ at_ l2 = at_ l1.
Proof.
  intros lx l1 l2 [H1 _] H2 H. unfold p_unget, unget in H. destruct (l_peek l1); [discriminate H|]. injection H as <-.
  split; [split; [exact H1|exact H2]|reflexivity].
Qed.

Lemma lookOp_on : forall l, on l ->
  match lookOp TX l with
  | OK (t, l1) => on l1 /\ (at_ l <= at_ l1)%nat
  | Fail _ => False
  | _ => True
  end.
Proof.
  intros l Ho. unfold lookOp. pose proof (lexOp_on l Ho) as H.
  destruct (lexOp TX l) as [[lx l1]|e| |]; cbn; try exact H.
  destruct H as (H1 & H2 & H3 & H4). destruct (p_unget lx l1) as [l2|e| |] eqn:E; cbn; try exact I.
  - apply unget_on in E as [E1 E2]; [|assumption..]. rewrite E2. auto.
  - unfold p_unget in E. destruct (unget lx l1); discriminate E.
Qed.

Lemma advance_on : forall l, on l -> on (advanceExpr TX l) /\ (at_ l <= at_ (advanceExpr TX l))%nat.
Proof.
  intros l Ho. unfold advanceExpr. destruct (lexExpr TX l) as [lx l1] eqn:E.
  apply lexExpr_on in E as (H1 & _ & H3 & _); auto.
Qed.

(** the regular-expression literal *)
Lemma regexp_loop_over : forall n a acc b lx r, (length a <= n)%nat -> lexRegexp_loop 47 acc b a = (lx, r) ->
  text r = rev b ++ a /\ (length b <= pos r)%nat /\
  (lx_err lx = None \/ lx_err lx = Some EUnclosedRE).
Proof.
  induction n as [|n IH]; intros a acc b lx r Hn H.
  { destruct a; [|simpl in Hn; lia]. cbn [lexRegexp_loop] in H. injection H as <- <-. cbn. auto. }
  destruct a as [|c a]; cbn [lexRegexp_loop] in H.
  { injection H as <- <-. cbn. auto. }
  assert (Ht : forall d, rev (d :: b) ++ a = rev b ++ d :: a) by (intro d; cbn; rewrite <- app_assoc; reflexivity).
  destruct (Z.eqb_spec c 47) as [->|Hc].
  { injection H as <- <-. split; [apply Ht|]. split; [unfold pos; cbn; lia|cbn; auto]. }
  destruct a as [|d a].
  { cbn [lexRegexp_loop] in H. injection H as <- <-. split; [apply Ht|]. split; [unfold pos; cbn; lia|cbn; auto]. }
  destruct ((c =? 92) && (d =? 47)) eqn:E.
  - apply IH in H as (H1 & H2 & H3); [|simpl in *; lia]. cbn in H1. rewrite <- !app_assoc in H1.
    split; [exact H1|]. split; [cbn in H2; lia|exact H3].
  - apply IH in H as (H1 & H2 & H3); [|simpl in *; lia]. rewrite Ht in H1.
    split; [exact H1|]. split; [cbn in H2; lia|exact H3].
Qed.

Lemma ends_char : forall k c, ends s k (TChar c) -> exists a b, s = a ++ c :: b /\ k = S (length a).
Proof.
  intros k c (a & w & b & H1 & H2 & H3 & _). remember (TChar c) as t eqn:Et.
  destruct H2; try discriminate Et.
  - injection Et as ->. exists a, b. split; [exact H1|]. rewrite app_length in H3. cbn in H3. lia.
  - subst t. cbn in H. repeat (destruct H as [H|H]; [discriminate H|]). destruct H.
Qed.

Lemma ends_in : forall k c, ends s k (TChar c) -> In c s.
Proof. intros k c H. apply ends_char in H as (a & b & -> & _). apply in_or_app. right. left. reflexivity. Qed.

(** the text before a state *)
Lemma on_split : forall l a c b, on l -> s = a ++ c :: b -> at_ l = S (length a) -> rd_after (l_rd l) = b.
Proof.
  intros l a c b [Ht _] Es El. unfold text in Ht. unfold at_, pos in El.
  rewrite Es in Ht. replace (a ++ c :: b) with ((a ++ [c]) ++ b) in Ht by (rewrite <- app_assoc; reflexivity).
  assert (L : length (rev (rd_before (l_rd l))) = length (a ++ [c])) by (rewrite rev_length, app_length; cbn; lia).
  revert Ht L. generalize (rev (rd_before (l_rd l))) (a ++ [c]) (rd_after (l_rd l)). clear.
  induction l as [|x l IH]; intros [|y l'] t H L; try discriminate L; [exact H|].
  injection H as _ H. injection L as L. eapply IH; eassumption.
Qed.

(** the operator of an expression is not one of a step *)
Definition xop (e : expr) : Prop := ~ step_op (opcode e).
Ltac xo := unfold xop, step_op; cbn; intuition discriminate.

Definition R0 n := forall pri l, on l -> res (at_ l) xop (p_expr TX n pri l).
Definition R1 n := forall pri e l, xop e -> on l -> res (at_ l) xop (p_expr_loop TX n pri e l).
Definition R2 n := forall o l, ~ step_op o -> on l -> res (at_ l) xop (p_unary TX n o l).
Definition R3 n := forall l, on l -> res (at_ l) xop (p_primary TX n l).
Definition R4 n := forall e l, xop e -> on l -> res (at_ l) xop (p_primary_loop TX n e l).
Definition R5 n := forall o c args l, ~ step_op o -> c = 41 \/ c = 93 -> on l -> res (at_ l) xop (p_application TX n o (TChar c) args l).
Definition R6 n := forall list_ l, on l -> res (at_ l) any (p_exprlist TX n list_ l).
Definition R7 n := forall l, on l -> res (at_ l) xop (p_primary1 TX n l).

Lemma tok2op_step : forall t, ~ step_op (tok2op t).
Proof.
  intros t. assert (G : In (tok2op t) [OpMul; OpAdd; OpSub; OpDiv; OpMod; OpLT; OpGT; OpMatch; OpError; OpEQ; OpNE; OpLE; OpGE; OpAnd; OpOr; OpIn; OpNin]).
  { destruct t; cbn [tok2op]; try (cbn; tauto). repeat (match goal with |- context [if ?b then _ else _] => destruct b; [cbn; tauto|] end). cbn; tauto. }
  cbn in G. intro K. unfold step_op in K. repeat (destruct G as [G|G]; [rewrite <- G in K; cbn in K; intuition discriminate|]). exact G.
Qed.

Ltac bind H := eapply res_bind; [apply H; assumption|].

Lemma parse_expr_res : forall n, R0 n /\ R1 n /\ R2 n /\ R3 n /\ R4 n /\ R5 n /\ R6 n /\ R7 n.
Proof.
  induction n as [|n (I0 & I1 & I2 & I3 & I4 & I5 & I6 & I7)]; [repeat split; repeat intro; exact I|].
  split; [|split; [|split; [|split; [|split; [|split; [|split]]]]]].
  - intros pri l Ho. cbn [p_expr]. bind I3. intros e l1 _ H1 _ X1. apply I1; assumption.
  - intros pri e l Xe Ho. cbn [p_expr_loop]. pose proof (lookOp_on l Ho) as H.
    destruct (lookOp TX l) as [[t l1]|er| |]; cbn [obind]; try exact I; [|destruct H].
    destruct H as [H1 L1]. destruct (precedence (tok2op t) >=? pri).
    2:{ apply res_ok; auto. }
    pose proof (lexOp_on l1 H1) as H. destruct (lexOp TX l1) as [[lx l2]|er| |]; cbn [obind]; try exact I; [|destruct H].
    destruct H as (H2 & _ & L2 & H4). destruct (lx_err lx) as [er|] eqn:Ee.
    { eapply fail_err; [exact H2| |exact H4|exact Ee]. lia. }
    cbv zeta. apply (res_le _ _ (at_ l2)); [lia|]. bind I0. intros rhs l3 _ H3 _ _. apply I1; [apply tok2op_step|exact H3].
  - intros o l Xe Ho. cbn [p_unary]. bind I3. intros e l1 _ H1 _ _. apply res_ok; auto.
  - intros l Ho. cbn [p_primary]. bind I7. intros e l1 _ H1 _ X1. apply I4; assumption.
  - intros e l Xe Ho. cbn [p_primary_loop]. apply look_bind; [auto|exact Ho|lia|].
    intros t l1 _ H1 L1 Ht. destruct t; try (apply res_ok; auto).
    assert (Hc : In c s) by (destruct Ht as [Ht|[Ht _]]; [eapply ends_in, Ht|discriminate Ht]).
    destruct (advance_on l1 H1) as [H2 L2].
    destruct (Z.eqb_spec c 40) as [-> |_]; [|destruct (Z.eqb_spec c 91) as [-> |_]; [|destruct (Z.eqb_spec c 46) as [-> |_]]].
    + destruct (op_beq (opcode e) OpID) eqn:Eo; cbn [negb].
      * cbv zeta. apply (res_le _ _ _ _ _ L2). eapply res_bind; [apply I5; [xo|auto..]|].
        intros e' l3 _ H3 _ X3. apply I4; assumption.
      * split; [|discriminate]. apply ReCall; [|exact Xe|exact Hc]. intros K. rewrite K in Eo. discriminate Eo.
    + cbv zeta. apply (res_le _ _ _ _ _ L2). bind I0. intros ix l3 _ H3 _ _.
      destruct (lexExpr TX l3) as [lx l4] eqn:E. apply lexExpr_on in E as (H4 & P4 & L4 & G4); [|exact H3].
      apply (res_le _ _ (at_ l3)); [lia|]. apply expect_res; auto. intros _. apply I4; [xo|exact H4].
    + cbv zeta. apply (res_le _ _ _ _ _ L2). destruct (lexExpr TX (advanceExpr TX l1)) as [lx l3] eqn:E.
      apply lexExpr_on in E as (H4 & P4 & L4 & G4); [|exact H2].
      destruct (lx_err lx) as [er|] eqn:Ee.
      { eapply fail_err; [exact H4|exact L4|exact G4|exact Ee]. }
      destruct (negb (tok_eqb (lx_tok lx) TID)).
      { split; [|discriminate]. apply ReField. exact Hc. }
      apply res_pure; [intros er; unfold lx_s; destruct (lx_val lx); discriminate|]. intros a _.
      apply (res_le _ _ (at_ l3)); [lia|]. apply I4; [xo|exact H4].
    + apply res_ok; auto.
  - intros o c args l Xe Hc Ho. cbn [p_application]. apply look_bind; [auto|exact Ho|lia|].
    intros t l1 _ H1 L1 Ht. apply (res_bind _ _ _ any).
    { destruct (negb (tok_eqb t (TChar c))); [apply I6, H1|apply res_ok; auto]. }
    intros args' l2 _ H2 _ _. destruct (lexExpr TX l2) as [lx l3] eqn:E.
    apply lexExpr_on in E as (H4 & P4 & L4 & G4); [|exact H2].
    apply expect_res; try assumption; [tauto|]. intros _. apply res_ok; auto.
  - intros list_ l Ho. cbn [p_exprlist]. bind I0. intros e l1 _ H1 _ _. cbv zeta.
    apply look_bind; [auto|exact H1|lia|]. intros t l2 _ H2 _ _.
    destruct (negb (tok_eqb t (TChar 44))); [apply res_ok; auto|].
    destruct (advance_on l2 H2) as [H3 L3]. apply (res_le _ _ _ _ _ L3). apply I6, H3.
  - intros l Ho. cbn [p_primary1]. destruct (lexExpr TX l) as [lx l1] eqn:E.
    apply lexExpr_on in E as (H1 & P1 & L1 & G1); [|exact Ho].
    destruct (lx_err lx) as [er|] eqn:Ee.
    { eapply fail_err; [exact H1|exact L1|exact G1|exact Ee]. }
    pose proof (lexok_none _ _ G1 Ee) as T1. apply (res_le _ _ _ _ _ L1).
    assert (FT : forall t, lx_tok lx = t ->
      ~ In t [TID; TString; TInt; TReal; TChar 45; TChar 33; TChar 47; TChar 64; TChar 36; TChar 40; TChar 91] ->
      @res expr (at_ l1) xop (Fail (ETerm t))).
    { intros t <- Ht. split; [|discriminate]. eapply ReTerm; [exact T1|exact Ht]. }
    destruct (lx_tok lx) eqn:Et; try (apply FT; [reflexivity|cbn; intuition discriminate]).
    + destruct (Z.eqb_spec c 45); [apply I2; [xo|exact H1]|]. destruct (Z.eqb_spec c 33); [apply I2; [xo|exact H1]|].
      destruct (Z.eqb_spec c 47) as [-> |Hc47].
      { destruct (lexRegexp 47 l1) as [lr l2] eqn:Er. unfold lexRegexp in Er.
        destruct (lexRegexp_loop 47 [] (rd_before (l_rd l1)) (rd_after (l_rd l1))) as [x r] eqn:El.
        injection Er as <- <-. pose proof El as El'. apply regexp_loop_over with (n := length (rd_after (l_rd l1))) in El as (Tr & Lr & Xr); [|lia].
        assert (H2 : on (mkLexer r (l_peek l1))).
        { rewrite P1. split; [|exact I]. cbn [l_rd]. rewrite Tr. apply H1. }
        destruct (ends_char _ _ T1) as (a & b & Es & Ek). pose proof (on_split _ _ _ _ H1 Es Ek) as Ea.
        destruct Xr as [Xr|Xr]; rewrite Xr.
        - apply res_pure; [intros er; unfold lx_s; destruct (lx_val x); discriminate|].
          intros v Hv. destruct (o_re_ok TX v) eqn:Eo; [apply res_ok; [auto|auto|xo]|].
          split; [|discriminate]. rewrite off_at, Ek, last_byte_S.
          apply lexRegexp_loop_ok with (n := length (rd_after (l_rd l1))) in El' as [(w & ->)|(t & w & Et' & Hb & ->)]; [discriminate Xr| |lia].
          cbn in Hv. injection Hv as <-. eapply ReRegexp; [|exact Hb|exact Eo].
          rewrite Es. rewrite Ea in Et'. rewrite Et'. reflexivity.
        - split; [|discriminate]. eapply ReOpenRegexp; [exact Es|]. intros u v w -> Hb.
          apply lexRegexp_loop_app with (acc := []) (b := rd_before (l_rd l1)) (r := w) in Hb as (b' & Hb).
          rewrite Ea in El'. rewrite Hb in El'. injection El' as <- <-. discriminate Xr. }
      destruct (Z.eqb_spec c 64); [apply res_ok; [auto|auto|xo]|]. destruct (Z.eqb_spec c 36); [apply res_ok; [auto|auto|xo]|].
      destruct (Z.eqb_spec c 40).
      { bind I0. intros ex l2 _ H2 _ X2. destruct (lexExpr TX l2) as [lx' l3] eqn:E.
        apply lexExpr_on in E as (H4 & P4 & L4 & G4); [|exact H2].
        apply expect_res; auto. intros _. apply res_ok; auto. }
      destruct (Z.eqb_spec c 91); [apply I5; [xo|auto..]|]. apply FT; [reflexivity|]. cbn. intuition congruence.
    + apply res_pure; [intros er; unfold lx_s; destruct (lx_val lx); discriminate|]. intros v _.
      destruct (beqb v kw_true); [apply res_ok; [auto|auto|xo]|]. destruct (beqb v kw_false); [apply res_ok; [auto|auto|xo]|].
      destruct (beqb v kw_null); (apply res_ok; [auto|auto|xo]).
    + apply res_pure; [intros er; unfold lx_s; destruct (lx_val lx); discriminate|]. intros v _. apply res_ok; [auto|auto|xo].
    + apply res_pure; [intros er; unfold lx_i; destruct (lx_val lx); discriminate|]. intros v _. apply res_ok; [auto|auto|xo].
    + apply res_pure; [intros er; unfold lx_f; destruct (lx_val lx); discriminate|]. intros v _. apply res_ok; [auto|auto|xo].
Qed.

Lemma script_res : forall l, on l -> res (at_ l) any (p_script TX l).
Proof. intros l Ho. eapply res_any. apply parse_expr_res, Ho. Qed.

Lemma paren_res : forall l, on l -> res (at_ l) any (p_paren TX l).
Proof.
  intros l Ho. unfold p_paren. bind script_res. intros e l1 _ H1 _ _.
  destruct (lexPath TX l1) as [lx l2] eqn:E. apply lexPath_on in E as (H4 & P4 & L4 & G4); [|exact H1].
  apply expect_res; auto. intros _. apply res_ok; auto.
Qed.

Lemma fail_tok : forall A k Q k' t, tok_at k' t -> (k <= k')%nat -> (k' <= length s)%nat ->
  @res A k Q (Fail (EUnexpectedTok t (last_byte k'))).
Proof.
  intros A k Q k' t H L L'. split.
  - destruct H as [H|(-> & e & H1 & H2)]; [apply ReUnexpected, H|eapply ReUnexpectedErr; eassumption].
  - cbn. intros o Ho. eapply last_byte_le; [exact L|congruence].
Qed.

Lemma slice_val_res : forall l, on l -> res (at_ l) any (p_slice_val TX l).
Proof.
  intros l Ho. unfold p_slice_val. destruct (lexPath TX l) as [lx l1] eqn:E.
  apply lexPath_on in E as (H1 & P1 & L1 & G1); [|exact Ho].
  assert (F : forall t, lx_tok lx = t -> @res bound (at_ l) any (Fail (EUnexpectedTok t (l_offset l1)))).
  { intros t <-. rewrite off_at. apply fail_tok; [apply lexok_tok_at, G1|exact L1|apply on_le, H1]. }
  destruct (lx_tok lx) eqn:Et; try (apply F; reflexivity).
  - destruct (Z.eqb_spec c 40); [|apply F; reflexivity]. apply (res_le _ _ _ _ _ L1).
    bind paren_res. intros ex l2 _ H2 _ _. apply res_ok; auto.
  - apply res_pure; [intros er; unfold lx_i; destruct (lx_val lx); discriminate|]. intros v _. apply res_ok; auto.
Qed.

Lemma slice_tok : forall A k Q k' t, tok_at k' t -> (k <= k')%nat -> (k' <= length s)%nat -> In 58 s ->
  is_end_tok t = false -> tok_eqb t (TChar 58) = false -> @res A k Q (Fail (ESliceTok t (last_byte k'))).
Proof.
  intros A k Q k' t H L L' Hc N1 N2. split.
  - destruct H as [H|(-> & e & H1 & H2)]; [apply ReSlice; [exact H| |exact Hc]|eapply ReSliceErr; eassumption].
    intro K. cbn in K. repeat (destruct K as [<-|K]; [first [discriminate N2|discriminate N1]|]). exact K.
  - cbn. intros o Ho. eapply last_byte_le; [exact L|congruence].
Qed.

Lemma look_again : forall l t l1, lookPath TX l = OK (t, l1) -> lookPath TX l1 = OK (t, l1).
Proof.
  intros l t l1. unfold lookPath, p_look. destruct (lexPath TX l) as [lx l0]. unfold p_unget, unget.
  destruct (l_peek l0); [discriminate|]. cbn. intro H. injection H as <- <-. reflexivity.
Qed.

Lemma colon_in : forall k t, tok_at k t -> tok_eqb t (TChar 58) = true -> In 58 s.
Proof.
  intros k t H E. apply tok_eqb_char in E. subst t. destruct H as [H|[H _]]; [eapply ends_in, H|discriminate H].
Qed.

Lemma slice_tail_res : forall a b l, on l -> In 58 s -> res (at_ l) any (p_slice_tail TX a b l).
Proof.
  intros a b l Ho Hc. unfold p_slice_tail. apply look_bind; [auto|exact Ho|lia|]. intros t l1 El H1 _ Ht.
  destruct (is_end_tok t) eqn:N1; [apply res_ok; auto|]. destruct (tok_eqb t (TChar 58)) eqn:N2.
  - destruct (lexPath TX l1) as [lx l2] eqn:E. apply lexPath_on in E as (H2 & P2 & L2 & G2); [|exact H1].
    apply look_bind; [auto|exact H2|lia|]. intros t2 l3 _ H3 _ Ht2.
    destruct (is_end_tok t2); [apply res_ok; auto|]. bind slice_val_res. intros e l4 _ H4 _ _. apply res_ok; auto.
  - apply look_bind; [auto|exact H1|lia|]. intros t2 l3 El2 H3 _ Ht2. rewrite off_at.
    apply look_again in El. rewrite El in El2. injection El2 as <- <-.
    apply slice_tok; [exact Ht2|lia|apply on_le, H3|assumption..].
Qed.

Lemma slice_res : forall a l, on l -> In 58 s -> res (at_ l) (fun st => st_op st = OpSelect) (p_slice TX a l).
Proof.
  intros a l Ho Hc. unfold p_slice. apply look_bind; [auto|exact Ho|lia|]. intros t l1 _ H1 _ Ht.
  apply (res_bind _ _ _ any).
  - destruct (is_end_tok t); [apply res_ok; auto|]. destruct (negb (tok_eqb t (TChar 58))).
    + bind slice_val_res. intros ex l2 _ H2 _ _. apply slice_tail_res; assumption.
    + apply slice_tail_res; assumption.
  - intros sl l2 _ H2 _ _. apply res_ok; auto.
Qed.

(** the operator of an element of a list, and the text that shows it *)
Definition shown (st : pstep) : Prop :=
  forall x, In (st_op st, x) [(OpWild, 42); (OpExp, 40); (OpFilter, 40)] -> In x s.

Lemma shown_plain : forall st, ~ In (st_op st) [OpWild; OpExp; OpFilter] -> shown st.
Proof. intros st H x Hx. exfalso. apply H. cbn in Hx |- *. destruct Hx as [E|[E|[E|[]]]]; injection E as E _; auto. Qed.

Lemma val_res : forall l, on l -> res (at_ l) shown (p_val TX l).
Proof.
  intros l Ho. unfold p_val. destruct (lexPath TX l) as [lx l1] eqn:E.
  apply lexPath_on in E as (H1 & P1 & L1 & G1); [|exact Ho].
  destruct (lx_err lx) as [er|] eqn:Ee.
  { eapply fail_err; [exact H1|exact L1|exact G1|exact Ee]. }
  apply (res_le _ _ _ _ _ L1). pose proof (lexok_none _ _ G1 Ee) as T1.
  assert (F : forall t, lx_tok lx = t -> @res pstep (at_ l1) shown (Fail (EUnexpectedTok t (l_offset l1)))).
  { intros t <-. rewrite off_at. apply fail_tok; [apply lexok_tok_at, G1|lia|apply on_le, H1]. }
  assert (SR : forall a l, on l -> In 58 s -> res (at_ l) shown (p_slice TX a l)).
  { intros a l' Ho' Hc. pose proof (slice_res a l' Ho' Hc) as K. destruct (p_slice TX a l') as [[st l2]|e| |]; try exact K.
    destruct K as (K1 & K2 & K3). split; [exact K1|]. split; [exact K2|]. apply shown_plain. rewrite K3. cbn. intuition discriminate. }
  destruct (lx_tok lx) eqn:Et; try (apply F; reflexivity).
  - destruct (Z.eqb_spec c 42) as [-> |_].
    { apply res_ok; auto. intros x Hx. cbn in Hx. destruct Hx as [Hx|[Hx|[Hx|[]]]]; try discriminate Hx.
      injection Hx as <-. eapply ends_in, T1. }
    destruct (Z.eqb_spec c 40) as [-> |_].
    { bind paren_res. intros ex l2 _ H2 _ _. apply look_bind; [auto|exact H2|lia|]. intros t l3 _ H3 _ Ht.
      destruct (tok_eqb t (TChar 58)) eqn:Ec.
      - destruct (lexPath TX l3) as [lx' l4] eqn:E. apply lexPath_on in E as (H4 & P4 & L4 & G4); [|exact H3].
        apply (res_le _ _ _ _ _ L4). apply SR; [exact H4|eapply colon_in; eassumption].
      - apply res_ok; auto. intros x Hx. cbn in Hx. destruct Hx as [Hx|[Hx|[Hx|[]]]]; try discriminate Hx.
        injection Hx as <-. eapply ends_in, T1. }
    destruct (Z.eqb_spec c 58) as [-> |_]; [apply SR; [exact H1|eapply ends_in, T1]|apply F; reflexivity].
  - apply res_pure; [intros er; unfold lx_s; destruct (lx_val lx); discriminate|]. intros v _. apply res_ok; auto.
    apply shown_plain. cbn. intuition discriminate.
  - apply res_pure; [intros er; unfold lx_s; destruct (lx_val lx); discriminate|]. intros v _. apply res_ok; auto.
    apply shown_plain. cbn. intuition discriminate.
  - apply res_pure; [intros er; unfold lx_i; destruct (lx_val lx); discriminate|]. intros v _.
    apply look_bind; [auto|exact H1|lia|]. intros t l3 _ H3 _ Ht.
    destruct (tok_eqb t (TChar 58)) eqn:Ec.
    + destruct (lexPath TX l3) as [lx' l4] eqn:E. apply lexPath_on in E as (H4 & P4 & L4 & G4); [|exact H3].
      apply (res_le _ _ _ _ _ L4). apply SR; [exact H4|eapply colon_in; eassumption].
    + apply res_ok; auto. apply shown_plain. cbn. intuition discriminate.
  - bind paren_res. intros ex l2 _ H2 _ _. apply res_ok; auto.
    intros x Hx. cbn in Hx. destruct Hx as [Hx|[Hx|[Hx|[]]]]; try discriminate Hx. injection Hx as <-.
    destruct T1 as (a & w & b & Es & Hw & _ & _). remember TFilter as t eqn:Ett. destruct Hw; try discriminate Ett.
    subst t. rewrite Es. apply in_or_app. right. apply in_or_app. left. cbn in H.
    repeat (destruct H as [H|H]; [try discriminate H; injection H as <-; right; left; reflexivity|]). destruct H.
Qed.

Lemma val_list_res : forall n acc l, on l -> Forall shown acc -> (acc <> [] -> In 44 s) ->
  res (at_ l) (fun l => Forall shown l /\ ((1 < length l)%nat -> In 44 s)) (p_val_list TX n acc l).
Proof.
  induction n as [|n IH]; intros acc l Ho Ha Hc; [exact I|]. cbn [p_val_list]. bind val_res.
  intros st l1 _ H1 _ Hst. apply look_bind; [auto|exact H1|lia|]. intros t l2 _ H2 _ Ht.
  assert (Ha' : Forall shown (acc ++ [st])) by (apply Forall_app; auto).
  destruct (tok_eqb t (TChar 44)) eqn:Et; cbn [negb].
  - destruct (lexPath TX l2) as [lx' l4] eqn:E. apply lexPath_on in E as (H4 & P4 & L4 & G4); [|exact H2].
    apply (res_le _ _ _ _ _ L4). apply IH; [exact H4|exact Ha'|]. intros _.
    apply tok_eqb_char in Et. subst t. destruct Ht as [Ht|[Ht _]]; [eapply ends_in, Ht|discriminate Ht].
  - apply res_ok; auto. split; [exact Ha'|]. rewrite app_length. cbn. intro L. apply Hc. intros ->. cbn in L. lia.
Qed.

Lemma union_args_ok : forall l e, union_args l <> Fail e.
Proof.
  induction l as [|x l IH]; cbn; intro e; [discriminate|].
  destruct (st_args x) as [|a [|]]; try discriminate. destruct (union_args l); cbn; try discriminate. exact (IH e).
Qed.

Lemma subscript_res : forall l, on l -> res (at_ l) any (p_subscript TX l).
Proof.
  intros l Ho. unfold p_subscript. eapply res_bind; [apply val_list_res; [exact Ho|constructor|congruence]|].
  intros steps l1 _ H1 _ [Hs1 Hc]. unfold subscript_step.
  destruct (if 1 <? Z.of_nat (length steps) then union_bad steps else None) as [o|] eqn:E.
  - destruct (Z.ltb_spec 1 (Z.of_nat (length steps))); [|discriminate E]. cbn. split; [|discriminate].
    specialize (Hc ltac:(lia)). clear H H1 l1 Ho l.
    induction Hs1 as [|st r Hst _ IHr]; cbn in E; [discriminate E|].
    destruct (st_op st) eqn:Eo; try (apply IHr, E); injection E as <-;
      (eapply ReUnion; [|apply Hst; rewrite Eo|exact Hc]); cbn; auto.
  - clear E. destruct steps as [|s0 r]; [exact I|].
    destruct (st_op s0); try (cbn [obind]; apply res_ok; auto; fail);
      (apply res_pure; [|intros; apply res_ok; auto]; intros e K; pose proof (union_args_ok (s0 :: r)) as V;
       destruct (union_args (s0 :: r)) as [|e'| |]; cbn in K; try discriminate K; apply (V e'); reflexivity).
Qed.

Lemma brackets_res : forall l, on l -> res (at_ l) any (p_brackets TX l).
Proof.
  intros l Ho. unfold p_brackets. bind subscript_res. intros st l1 _ H1 _ _.
  destruct (lexPath TX l1) as [lx l2] eqn:E. apply lexPath_on in E as (H4 & P4 & L4 & G4); [|exact H1].
  apply expect_res; auto. intros _. apply res_ok; auto.
Qed.

Lemma member_res : forall l, on l -> res (at_ l) any (p_member TX l).
Proof.
  intros l Ho. unfold p_member. destruct (lexPath TX l) as [lx l1] eqn:E.
  apply lexPath_on in E as (H1 & P1 & L1 & G1); [|exact Ho].
  destruct (lx_err lx) as [er|] eqn:Ee.
  { eapply fail_err; [exact H1|exact L1|exact G1|exact Ee]. }
  apply (res_le _ _ _ _ _ L1).
  assert (F : forall t, lx_tok lx = t -> @res (option pval) (at_ l1) any (Fail (EUnexpectedTok t (l_offset l1)))).
  { intros t <-. rewrite off_at. apply fail_tok; [apply lexok_tok_at, G1|lia|apply on_le, H1]. }
  destruct (lx_tok lx) eqn:Et; try (apply F; reflexivity).
  - destruct (Z.eqb_spec c 42); [apply res_ok; auto|]. destruct (Z.eqb_spec c 40); [|apply F; reflexivity].
    bind paren_res. intros ex l2 _ H2 _ _. apply res_ok; auto.
  - apply res_pure; [intros er; unfold lx_s; destruct (lx_val lx); discriminate|]. intros v _. apply res_ok; auto.
  - apply res_pure; [intros er; unfold lx_i; destruct (lx_val lx); discriminate|]. intros v _. apply res_ok; auto.
Qed.

Lemma path_loop_res : forall n acc l, on l -> res (at_ l) any (p_path_loop TX n acc l).
Proof.
  induction n as [|n IH]; intros acc l Ho; [exact I|]. cbn [p_path_loop].
  destruct (lexPath TX l) as [lx l1] eqn:E. apply lexPath_on in E as (H1 & P1 & L1 & G1); [|exact Ho].
  assert (F : forall t, lx_tok lx = t -> ~ In t [TError; TEOF; TNest; TChar 46; TChar 91] ->
    @res path (at_ l) any (Fail (EUnexpectedLex t (lx_val lx)))).
  { intros t <- Hne. cbn in Hne. split; [|discriminate]. eapply ReStep; [|cbn; tauto].
    apply (lexok_val _ _ G1). intro K. apply Hne. left. congruence. }
  destruct (lx_tok lx) eqn:Et; try (apply F; [reflexivity|cbn; intuition discriminate]).
  - destruct (Z.eqb_spec c 46).
    { apply (res_le _ _ _ _ _ L1). bind member_res. intros m l2 _ H2 _ _. apply IH, H2. }
    destruct (Z.eqb_spec c 91); [|apply F; [reflexivity|cbn; intuition congruence]].
    apply (res_le _ _ _ _ _ L1). bind brackets_res. intros m l2 _ H2 _ _. apply IH, H2.
  - destruct (lx_err lx) as [er|] eqn:Ee; [|exact I].
    eapply fail_err; [exact H1|exact L1|exact G1|exact Ee].
  - apply res_ok; auto.
  - apply (res_le _ _ _ _ _ L1). apply look_bind; [auto|exact H1|lia|]. intros t l2 _ H2 _ Ht.
    destruct (tok_eqb t (TChar 91)).
    + destruct (lexPath TX l2) as [lx' l3] eqn:E. apply lexPath_on in E as (H3 & P3 & L3 & G3); [|exact H2].
      apply (res_le _ _ _ _ _ L3). bind brackets_res. intros m l4 _ H4 _ _.
      apply res_pure; [intro; destruct (st_op m); discriminate|]. intros o _. apply IH, H4.
    + bind member_res. intros m l4 _ H4 _ _. apply IH, H4.
Qed.

Lemma new_on : on (new_parser s). Proof. split; [reflexivity|exact I]. Qed.

Lemma path_reason : forall e, ParsePath TX s = Fail e -> rsn e.
Proof.
  intros e H. unfold ParsePath, p_path in H.
  assert (K : res 0 any (let! l1 := p_expect (lexPath TX (new_parser s)) (TChar 36) in p_path_loop TX (list_fuel l1) [] l1)).
  { destruct (lexPath TX (new_parser s)) as [lx l1] eqn:E. apply lexPath_on in E as (H1 & P1 & L1 & G1); [|apply new_on].
    apply expect_res; auto with arith. intros _. apply path_loop_res, H1. }
  destruct (let! l1 := p_expect (lexPath TX (new_parser s)) (TChar 36) in p_path_loop TX (list_fuel l1) [] l1) as [[p l]|e'| |];
    cbn in H; try discriminate H. injection H as <-. apply K.
Qed.

Lemma script_reason : forall e, ParseScriptExpression TX s = Fail e -> rsn e.
Proof.
  intros e H. unfold ParseScriptExpression in H. pose proof (script_res _ new_on) as K.
  destruct (p_script TX (new_parser s)) as [[x l]|e'| |]; cbn in H; try discriminate H.
  - destruct K as (K1 & _). destruct (lexExpr TX l) as [lx l1] eqn:E. apply lexExpr_on in E as (H1 & P1 & L1 & G1); [|exact K1].
    destruct (tok_eqb (lx_tok lx) TEOF) eqn:Et; cbn in H; [discriminate H|]. injection H as <-. rewrite off_at.
    pose proof (lexok_tok_at _ _ G1) as T. destruct T as [T|(T & er & T1 & T2)].
    + apply ReOperator; [|exact T]. intro X. rewrite X in Et. discriminate Et.
    + rewrite T. eapply ReOperatorErr; [exact T1|apply on_le, H1|exact T2].
  - injection H as <-. apply K.
Qed.
End reasons.
