(** Logical operators, comparison, membership, match and failure. *)
From Verif Require Import F64 Syntax Value Fns Machine SpecSyntax CoderProofs SpecOp OpProofs SpecExpr FloatProofs ArithProofs.
Local Open Scope Z_scope.

(** ** failure *)

Lemma failure_nothing : forall v, failure v <-> isNothing v = true.
Proof.
  intros v. split; [intros (k & ->); reflexivity|]. destruct v; try discriminate. intros _. eexists; reflexivity.
Qed.
Lemma not_failure : forall v, ~ failure v -> isNothing v = false.
Proof. intros v H. rewrite failure_nothing in H. destruct (isNothing v); [congruence|reflexivity]. Qed.

Lemma strict_failure : forall W o a b, strict o -> failure a \/ failure b -> computes W o [a; b] (VErr KFailure).
Proof.
  intros W o a b Ho H.
  assert (N : isNothing a || isNothing b = true).
  { destruct H as [H|H]; apply failure_nothing in H; rewrite H; [reflexivity|apply orb_true_r]. }
  assert (N' : isNothing b || isNothing a = true) by (rewrite orb_comm; exact N).
  unfold strict in Ho. cbn [In] in Ho.
  apply computes2; [intuition (subst; auto)|].
  repeat destruct Ho as [<-|Ho]; try contradiction; cbn [binop]; f_equal;
    unfold op_dot, op_index, op_match, op_in, relation; rewrite ?N, ?N'; reflexivity.
Qed.

Lemma neg_failure : forall W a, failure a -> computes W OpNeg [a] (VErr KFailure).
Proof. intros W a (k & ->). apply computes1; [auto|reflexivity]. Qed.

(** ** truth *)
Lemma f_eqb_zero : forall f, f_eqb f f_zero = match f with S754_zero _ => true | _ => false end.
Proof. intros [s|[]| |[] m e]; reflexivity. Qed.
Lemma f_eqb_nzero : forall f, f_eqb f (f_neg f_zero) = match f with S754_zero _ => true | _ => false end.
Proof. intros [s|[]| |[] m e]; reflexivity. Qed.

Lemma falsy_cvb : forall W v, falsy W v <-> cvb W v = false.
Proof.
  intros W v. split.
  - intros H. destruct H as [ |v (k & ->)| | | |s| | |s E|s z E1 E2|E]; cbn [cvb]; try reflexivity.
    + rewrite E. reflexivity.
    + unfold parse_float. rewrite E1, E2, f_eqb_zero. reflexivity.
    + unfold parse_float. cbn [parse_int]. rewrite E. reflexivity.
  - destruct v; cbn [cvb]; intros H; try discriminate H.
    + apply FaNull.
    + rewrite H. apply FaFalse.
    + destruct (Z.eqb_spec z 0); [subst; apply FaInt|discriminate H].
    + destruct (Z.eqb_spec z 0); [subst; apply FaInt64|discriminate H].
    + rewrite f_eqb_zero, f_eqb_nzero in H. destruct f; cbn in H; try discriminate H; [apply FaZero|apply FaNan].
    + destruct s; [apply FaStr|discriminate H].
    + destruct (parse_int s) eqn:E.
      * destruct (Z.eqb_spec z 0); [subst; apply FaNumInt; exact E|discriminate H].
      * unfold parse_float in H. destruct (o_parse_float (w_text W) s) eqn:E2.
        -- rewrite f_eqb_zero in H. destruct f; try discriminate H. eapply FaNumReal; eassumption.
        -- destruct s; [apply FaNumEmpty; exact E2|discriminate H].
    + apply FaFailure. eexists; reflexivity.
Qed.

Lemma not_falsy_cvb : forall W v, ~ falsy W v <-> cvb W v = true.
Proof. intros W v. rewrite falsy_cvb. destruct (cvb W v); split; congruence. Qed.

Lemma or_computes : forall W a b v, or_value W a b v -> computes W OpOr [a; b] v.
Proof.
  intros W a b v H. apply computes2; [auto|]. cbn [binop]. do 2 f_equal. unfold op_or.
  destruct H as [H|H HN|Ha Hb].
  - apply not_falsy_cvb in H. assert (isNothing a = false) by (destruct a; try reflexivity; discriminate H).
    rewrite H0, H. reflexivity.
  - apply falsy_cvb in H. rewrite H. rewrite andb_false_r. 
    replace (isNothing a && isNothing b) with false; [reflexivity|]. symmetry.
    destruct HN as [N|N]; apply not_failure in N; rewrite N; [reflexivity|apply andb_false_r].
  - apply failure_nothing in Ha. apply failure_nothing in Hb. rewrite Ha, Hb. reflexivity.
Qed.

Lemma failure_falsy : forall W v, failure v -> falsy W v.
Proof. intros. apply FaFailure. assumption. Qed.

Lemma failure_dec : forall v, failure v \/ ~ failure v.
Proof. intros v. rewrite failure_nothing. destruct (isNothing v); [left; reflexivity|right; discriminate]. Qed.
Lemma falsy_dec : forall W v, falsy W v \/ ~ falsy W v.
Proof. intros W v. rewrite falsy_cvb. destruct (cvb W v); [right; discriminate|left; reflexivity]. Qed.

Lemma or_total : forall W a b, exists v, or_value W a b v.
Proof.
  intros W a b. destruct (falsy_dec W a) as [F|F]; [|exists a; apply OrLeft; exact F].
  destruct (failure_dec a); [destruct (failure_dec b)|].
  - eexists. apply OrNeither; assumption.
  - eexists. apply OrRight; auto.
  - eexists. apply OrRight; auto.
Qed.

Lemma and_computes : forall W a b v, and_value W a b v -> computes W OpAnd [a; b] v.
Proof.
  intros W a b v H. apply computes2; [auto|]. cbn [binop]. do 2 f_equal. unfold op_and.
  destruct H as [H|H].
  - apply falsy_cvb in H. rewrite H, orb_true_r. reflexivity.
  - apply not_falsy_cvb in H. assert (isNothing a = false) by (destruct a; try reflexivity; discriminate H).
    rewrite H0, H. reflexivity.
Qed.

Lemma and_total : forall W a b, exists v, and_value W a b v.
Proof. intros W a b. destruct (falsy_dec W a); eexists; [apply AndLeft|apply AndRight]; assumption. Qed.

Lemma not_computes : forall W a, (falsy W a /\ computes W OpNot [a] (VBool true)) \/
  (~ falsy W a /\ computes W OpNot [a] (VBool false)).
Proof.
  intros W a. destruct (falsy_dec W a) as [H|H]; [left|right]; (split; [exact H|]);
    (apply computes1; [auto|]); cbn [unop]; do 2 f_equal.
  - apply falsy_cvb in H. rewrite H. reflexivity.
  - apply not_falsy_cvb in H. rewrite H. reflexivity.
Qed.

(** ** order *)
Lemma bltb_lex : forall s t, bltb s t = true <-> lex_lt s t.
Proof.
  induction s as [|c s IH]; intros [|d t]; cbn [bltb].
  - split; [discriminate|intros H; inversion H].
  - split; [constructor|reflexivity].
  - split; [discriminate|intros H; inversion H].
  - rewrite orb_true_iff, andb_true_iff, Z.ltb_lt, Z.eqb_eq, IH. split.
    + intros [L|[-> L]]; [apply LxByte|apply LxSame]; assumption.
    + intros H. inversion H; subst; auto.
Qed.

Lemma lex_irrefl : forall s, ~ lex_lt s s.
Proof. induction s as [|c s IH]; intros H; inversion H; subst; [lia|auto]. Qed.
Lemma lex_trans : forall s t u, lex_lt s t -> lex_lt t u -> lex_lt s u.
Proof.
  intros s t u H. revert u. induction H; intros u K; inversion K; subst; first [apply LxNil | apply LxByte; lia | apply LxSame; auto].
Qed.
Lemma lex_total : forall s t, lex_lt s t \/ s = t \/ lex_lt t s.
Proof.
  induction s as [|c s IH]; intros [|d t].
  - auto.
  - left; constructor.
  - right; right; constructor.
  - destruct (Z.lt_trichotomy c d) as [L|[->|L]].
    + left; constructor; exact L.
    + destruct (IH t) as [K|[->|K]]; [left|right; left|right; right]; try reflexivity; apply LxSame; exact K.
    + right; right; constructor; exact L.
Qed.
Lemma bltb_false : forall s t, bltb s t = false <-> lex_lt t s \/ t = s.
Proof.
  intros s t. split.
  - intros H. destruct (lex_total s t) as [K|[->|K]]; auto. apply bltb_lex in K. congruence.
  - intros H. destruct (bltb s t) eqn:E; [|reflexivity]. apply bltb_lex in E. exfalso.
    destruct H as [H| ->]; [eapply lex_irrefl, lex_trans; eassumption|eapply lex_irrefl; eassumption].
Qed.

Lemma f_swap : forall x y, SFcompare y x = option_map CompOpp (SFcompare x y).
Proof.
  intros [s|s| |s m e] [s'|s'| |s' m' e']; try destruct s; try destruct s'; try reflexivity; cbn [SFcompare option_map];
    rewrite (Z.compare_antisym e e'); destruct (e ?= e'); cbn [CompOpp]; try reflexivity;
    change (Pos.compare_cont Eq m' m) with (Pos.compare m' m); change (Pos.compare_cont Eq m m') with (Pos.compare m m');
    rewrite (Pos.compare_antisym m m'); destruct (Pos.compare m m'); reflexivity.
Qed.

Definition zrel (o : op) : Z -> Z -> bool :=
  match o with OpLT => Z.ltb | OpLE => Z.leb | OpGE => Z.geb | _ => Z.gtb end.
Definition frel (o : op) : f64 -> f64 -> bool :=
  match o with OpLT => f_ltb | OpLE => f_leb | OpGE => fun x y => f_leb y x | _ => fun x y => f_ltb y x end.
Definition brel (o : op) : bytes -> bytes -> bool :=
  match o with OpLT => bltb | OpLE => bleb | OpGE => fun x y => bleb y x | _ => fun x y => bltb y x end.

Lemma rel_binop : forall W o a b, rel_op o -> binop W o a b = Some (OK (relation W a b (zrel o) (frel o) (brel o))).
Proof. intros W o a b H. unfold rel_op in H. cbn [In] in H. repeat destruct H as [<-|H]; try contradiction; reflexivity. Qed.

Lemma zrel_holds : forall o x y, rel_op o -> (zrel o x y = true <-> holds o (x < y) (x = y) (y < x)).
Proof.
  intros o x y H. unfold rel_op in H. cbn [In] in H. repeat destruct H as [<-|H]; try contradiction; cbn [zrel holds].
  - apply Z.ltb_lt.
  - rewrite Z.leb_le. lia.
  - rewrite Z.gtb_lt. lia.
  - rewrite Z.geb_le. lia.
Qed.
Lemma brel_holds : forall o x y, rel_op o -> (brel o x y = true <-> holds o (lex_lt x y) (x = y) (lex_lt y x)).
Proof.
  intros o x y H. unfold rel_op in H. cbn [In] in H. repeat destruct H as [<-|H]; try contradiction; cbn [brel holds]; unfold bleb.
  - apply bltb_lex.
  - rewrite negb_true_iff. apply bltb_false.
  - apply bltb_lex.
  - rewrite negb_true_iff, bltb_false. intuition.
Qed.
Lemma frel_holds : forall o x y, rel_op o -> (frel o x y = true <-> holds o (f_lt x y) (f_eq x y) (f_lt y x)).
Proof.
  intros o x y H. unfold rel_op in H. cbn [In] in H.
  assert (S := f_swap x y).
  repeat destruct H as [<-|H]; try contradiction; cbn [frel holds]; unfold f_ltb, f_leb, SFltb, SFleb, f_lt, f_eq;
    try rewrite S; destruct (SFcompare x y) as [[]|]; cbn [option_map CompOpp]; intuition (try congruence; try discriminate).
Qed.

Lemma int_simple : forall v x, int_of v x -> isNothing v = false /\ isSimple v = true /\ isString v = false.
Proof. intros v x H. destruct H; auto. Qed.
Lemma float_simple : forall v x, float_of v x -> isNothing v = false /\ isSimple v = true /\ isString v = false.
Proof. intros v x H. destruct H as [f|v z H]; [auto|]. eapply int_simple; eassumption. Qed.

Lemma compares_computes : forall W o a b P, rel_op o -> ~ failure a -> ~ failure b -> compares o a b P ->
  exists r, computes W o [a; b] (VBool r) /\ (r = true <-> P).
Proof.
  intros W o a b P Ho Na Nb H. apply not_failure in Na. apply not_failure in Nb.
  assert (K : forall r, relation W a b (zrel o) (frel o) (brel o) = VBool r -> computes W o [a; b] (VBool r)).
  { intros r E. apply computes2; [left; unfold rel_op in Ho; cbn [In] in Ho; repeat destruct Ho as [<-|Ho]; try contradiction; reflexivity|].
    rewrite rel_binop by exact Ho. rewrite E. reflexivity. }
  assert (Fz : forall P Q, ((P : bool) = true <-> Q) -> (P = true <-> Q)) by auto.
  unfold relation in K. rewrite Na, Nb in K. cbn [orb] in K.
  destruct H as [s t -> ->|x y Hx Hy|x y Hf Hx Hy|Hn].
  - exists (brel o s t). split; [apply K; reflexivity|]. apply brel_holds. exact Ho.
  - exists (zrel o x y). split; [|apply zrel_holds; exact Ho]. apply K.
    destruct (int_simple _ _ Hx) as (_ & S1 & T1). destruct (int_simple _ _ Hy) as (_ & S2 & T2).
    destruct (int_of_cvi W _ _ Hx) as (C1 & _ & F1). destruct (int_of_cvi W _ _ Hy) as (C2 & _ & F2).
    rewrite S1, S2, T1, T2, F1, F2, C1, C2. reflexivity.
  - exists (frel o x y). split; [|apply frel_holds; exact Ho]. apply K.
    destruct (float_simple _ _ Hx) as (_ & S1 & T1). destruct (float_simple _ _ Hy) as (_ & S2 & T2).
    destruct (float_of_cvf W _ _ Hx) as (C1 & _). destruct (float_of_cvf W _ _ Hy) as (C2 & _).
    rewrite S1, S2, T1, T2, C1, C2. cbn [orb andb negb].
    replace (isFloat a || isFloat b) with true; [reflexivity|].
    destruct Hf as [(u & ->)|(u & ->)]; [reflexivity|]. symmetry. apply orb_true_r.
  - exists false. split; [|split; [discriminate|contradiction]]. apply K.
    assert (S : forall v, ~ numeric v -> (forall s, v <> VStr s) -> isSimple v = false).
    { intros v N1 N2. apply not_numeric in N1. destruct v; try reflexivity; try discriminate N1. exfalso; eapply N2; reflexivity. }
    destruct Hn as [[N1 N2]|[[N1 N2]|[[(s & ->) (f & Hf)]|[(f & Hf) (s & ->)]]]].
    + rewrite (S a) by assumption. reflexivity.
    + rewrite (S b) by assumption. rewrite andb_false_r. reflexivity.
    + destruct (float_simple _ _ Hf) as (_ & S1 & T1). rewrite S1, T1. reflexivity.
    + destruct (float_simple _ _ Hf) as (_ & S1 & T1). rewrite S1, T1. reflexivity.
Qed.

Lemma compares_total : forall o a b, exists P, compares o a b P.
Proof.
  intros o a b.
  assert (C : forall v, (exists s, v = VStr s) \/ (exists z, int_of v z) \/ is_float v \/ (~ numeric v /\ forall s, v <> VStr s)).
  { intros v. destruct (arith_cases v) as [H|[H|H]]; auto. destruct v; try (right; right; right; split; [exact H|discriminate]). eauto. }
  destruct (C a) as [(s & ->)|[(x & Hx)|[(x & ->)|N]]]; destruct (C b) as [(t & ->)|[(y & Hy)|[(y & ->)|M]]];
    try (eexists; apply CmOther; tauto).
  - eexists. eapply CmStr; reflexivity.
  - eexists. apply CmOther. right; right; left. split; [eauto|]. eexists. apply FoInt; eassumption.
  - eexists. apply CmOther. right; right; left. split; [eauto|]. eexists. apply FoFloat.
  - eexists. apply CmOther. right; right; right. split; [|eauto]. eexists. apply FoInt; eassumption.
  - eexists. eapply CmInt; eassumption.
  - eexists. eapply CmFloat; [right; exists y; reflexivity | apply FoInt; eassumption | apply FoFloat].
  - eexists. apply CmOther. right; right; right. split; [|eauto]. eexists. apply FoFloat.
  - eexists. eapply CmFloat; [left; exists x; reflexivity | apply FoFloat | apply FoInt; eassumption].
  - eexists. eapply CmFloat; [left; exists x; reflexivity | apply FoFloat | apply FoFloat].
Qed.

(** two strings, or two integers *)

Lemma eqVal_comparable : forall W a b, comparable a b ->
  eqVal W a b = match a, b with VStr s, VStr t => beqb s t | _, _ => cvi W a =? cvi W b end.
Proof.
  intros W a b [(s & t & -> & ->)|(x & y & Hx & Hy)]; [reflexivity|].
  destruct Hx; destruct Hy; reflexivity.
Qed.

Lemma computes_fun : forall W o vs v w, computes W o vs v -> computes W o vs w ->
  (exists p root ord m s, op_of_num (order_op ord) = Some o /\ order_small_int ord = Z.of_nat (length vs) /\
     on_stack m (s ++ vs) /\ exec W p root ord m <> Panics) -> v = w.
Proof.
  intros W o vs v w H K (p & root & ord & m & s & E1 & E2 & S & _).
  destruct (H (m_tick m) p root ord m s E1 E2 S eq_refl) as (m1 & X1 & (_ & S1) & _).
  destruct (K (m_tick m) p root ord m s E1 E2 S eq_refl) as (m2 & X2 & (_ & S2) & _).
  rewrite X1 in X2. injection X2 as <-. rewrite S1 in S2. apply app_inv_head in S2. congruence.
Qed.

Lemma trichotomy : forall W a b, comparable a b -> exists l e g,
  computes W OpLT [a; b] (VBool l) /\ computes W OpEQ [a; b] (VBool e) /\ computes W OpGT [a; b] (VBool g) /\
  computes W OpLE [a; b] (VBool (negb g)) /\ computes W OpGE [a; b] (VBool (negb l)) /\
  ((l = true /\ e = false /\ g = false) \/ (l = false /\ e = true /\ g = false) \/ (l = false /\ e = false /\ g = true)).
Proof.
  intros W a b H.
  assert (E := eqVal_comparable W a b H).
  destruct H as [(s & t & -> & ->)|(x & y & Hx & Hy)].
  - exists (bltb s t), (beqb s t), (bltb t s).
    repeat (match goal with |- _ /\ _ => split end); try (apply computes2; [auto|reflexivity]).
    destruct (lex_total s t) as [L|[->|L]].
    + left. split; [apply bltb_lex; exact L|]. split.
      * destruct (beqb s t) eqn:Q; [|reflexivity]. apply beqb_eq in Q. subst. exfalso; eapply lex_irrefl; exact L.
      * apply bltb_false. auto.
    + right; left. split; [apply bltb_false; auto|]. split; [apply beqb_eq; reflexivity|apply bltb_false; auto].
    + right; right. split; [apply bltb_false; auto|]. split.
      * destruct (beqb s t) eqn:Q; [|reflexivity]. apply beqb_eq in Q. subst. exfalso; eapply lex_irrefl; exact L.
      * apply bltb_lex. exact L.
  - assert (E' : eqVal W a b = (x =? y)).
    { rewrite E. destruct (int_of_cvi W _ _ Hx) as (C1 & _). destruct (int_of_cvi W _ _ Hy) as (C2 & _).
      rewrite C1, C2. destruct Hx; reflexivity. }
    exists (x <? y), (x =? y), (y <? x).
    assert (R : forall o, rel_op o -> computes W o [a; b] (VBool (zrel o x y))).
    { intros o Ho. apply computes2; [left; unfold rel_op in Ho; cbn [In] in Ho; repeat destruct Ho as [<-|Ho]; try contradiction; reflexivity|].
      rewrite rel_binop by exact Ho. do 2 f_equal. unfold relation.
      destruct (int_simple _ _ Hx) as (N1 & S1 & T1). destruct (int_simple _ _ Hy) as (N2 & S2 & T2).
      destruct (int_of_cvi W _ _ Hx) as (C1 & _ & F1). destruct (int_of_cvi W _ _ Hy) as (C2 & _ & F2).
      rewrite N1, N2, S1, S2, T1, T2, F1, F2, C1, C2. reflexivity. }
    unfold rel_op in R. split; [apply (R OpLT); cbn; auto|]. split.
    { apply computes2; [auto|]. cbn [binop]. rewrite E'. reflexivity. }
    split; [rewrite <- Z.gtb_ltb; apply (R OpGT); cbn; auto|].
    split; [replace (negb (y <? x)) with (x <=? y); [apply (R OpLE); cbn; auto|]|].
    { rewrite Z.leb_antisym. reflexivity. }
    split; [replace (negb (x <? y)) with (x >=? y); [apply (R OpGE); cbn; auto|]|].
    { rewrite Z.geb_leb, Z.leb_antisym. reflexivity. }
    destruct (Z.ltb_spec x y), (Z.eqb_spec x y), (Z.ltb_spec y x); try lia; auto.
Qed.

(** ** membership *)
Lemma search_spec : forall W l v f, searchJSON W l v f = (if existsb (fun el => eqVal W el v) l then f else negb f).
Proof.
  induction l as [|x l IH]; intros v f; cbn [searchJSON existsb]; [reflexivity|].
  destruct (eqVal W x v); [reflexivity|]. apply IH.
Qed.

Lemma eq_computes : forall W a b, computes W OpEQ [a; b] (VBool (eqVal W a b)).
Proof. intros. apply computes2; [auto|reflexivity]. Qed.
Lemma ne_computes : forall W a b, computes W OpNE [a; b] (VBool (negb (eqVal W a b))).
Proof. intros. apply computes2; [auto|reflexivity]. Qed.

(** an order that carries out [o] on [vs] exists, so results are unique *)
Lemma computes_unique : forall W o vs v w, Z.of_nat (length vs) < indexTop -> computes W o vs v -> computes W o vs w -> v = w.
Proof.
  intros W o vs v w Hn H K. apply (computes_fun W o vs v w H K).
  exists (mkProg [] []), VNil, (mkSmall o (Z.of_nat (length vs))), (mkM None VNil vs (length vs) 0 [] 0%nat), [].
  split; [rewrite ProgramProofs.order_op_small; apply ProgramProofs.op_of_num_num|].
  split; [apply ProgramProofs.order_small_int_small; apply MachineProofs.arity_ok; exact Hn|].
  assert (S : on_stack (mkM None VNil vs (length vs) 0 [] 0%nat) ([] ++ vs)).
  { unfold on_stack. cbn [m_sp m_stack]. split; [lia|]. rewrite firstn_all. reflexivity. }
  split; [exact S|].
  destruct (H 0%nat (mkProg [] []) VNil (mkSmall o (Z.of_nat (length vs))) _ [] 
     ltac:(rewrite ProgramProofs.order_op_small; apply ProgramProofs.op_of_num_num)
     ltac:(apply ProgramProofs.order_small_int_small; apply MachineProofs.arity_ok; exact Hn) S eq_refl) as (m' & E & _).
  rewrite E. discriminate.
Qed.

Lemma eq_true : forall W a b, computes W OpEQ [a; b] (VBool true) <-> eqVal W a b = true.
Proof.
  intros W a b. split.
  - intros H. assert (L : Z.of_nat (length [a; b]) < indexTop) by (unfold indexTop; cbn; lia).
    assert (E := computes_unique _ _ _ _ _ L H (eq_computes W a b)). congruence.
  - intros H. rewrite <- H. apply eq_computes.
Qed.

Lemma in_computes : forall W x l, ~ failure x -> exists r,
  computes W OpIn [x; VArr l] (VBool r) /\ computes W OpNin [x; VArr l] (VBool (negb r)) /\
  (r = true <-> exists el, In el l /\ computes W OpEQ [el; x] (VBool true)).
Proof.
  intros W x l Nx. apply not_failure in Nx. exists (existsb (fun el => eqVal W el x) l).
  split; [|split].
  - apply computes2; [auto|]. cbn [binop]. unfold op_in. rewrite Nx. cbn [isNothing orb]. rewrite search_spec.
    destruct (existsb _ l); reflexivity.
  - apply computes2; [auto|]. cbn [binop]. unfold op_in. rewrite Nx. cbn [isNothing orb]. rewrite search_spec.
    destruct (existsb _ l); reflexivity.
  - rewrite existsb_exists. split; intros (el & H1 & H2); exists el; (split; [exact H1|]); apply eq_true; exact H2.
Qed.

Lemma in_raises : forall W x v, ~ failure x -> ~ failure v -> (forall l, v <> VArr l) ->
  raises W OpIn [x; v] (RInRight false v) /\ raises W OpNin [x; v] (RInRight true v).
Proof.
  intros W x v Nx Nv H. apply not_failure in Nx. apply not_failure in Nv.
  split; (apply raises2; [auto|]); cbn [binop]; unfold op_in; rewrite Nx, Nv; cbn [orb negb];
    destruct v; try reflexivity; exfalso; eapply H; reflexivity.
Qed.

(** ** match *)
Lemma match_computes : forall W s v pat, v = VRegexp pat \/ (v = VStr pat /\ o_re_ok (w_text W) pat = true) ->
  computes W OpMatch [VStr s; v] (VBool (w_re_match W pat s)).
Proof.
  intros W s v pat H. apply computes2; [auto|]. cbn [binop]. unfold op_match.
  destruct H as [-> | [-> H]]; cbn [isNothing orb obind]; [reflexivity|]. unfold re_ok. rewrite H. reflexivity.
Qed.

Lemma match_bad : forall W a pat, ~ failure a -> o_re_ok (w_text W) pat = false ->
  raises W OpMatch [a; VStr pat] (RBadRegexp pat).
Proof.
  intros W a pat N H. apply not_failure in N. apply raises2; [auto|]. cbn [binop]. unfold op_match.
  rewrite N. cbn [isNothing orb]. unfold re_ok. rewrite H. reflexivity.
Qed.

Lemma match_right : forall W a b, ~ failure a -> ~ failure b -> (forall p, b <> VRegexp p) -> (forall p, b <> VStr p) ->
  raises W OpMatch [a; b] (RMatchRight b).
Proof.
  intros W a b N M H1 H2. apply not_failure in N. apply not_failure in M. apply raises2; [auto|]. cbn [binop]. unfold op_match.
  rewrite N, M. cbn [orb]. destruct b; try reflexivity; exfalso; [eapply H2|eapply H1]; reflexivity.
Qed.

Lemma match_left : forall W a b pat, ~ failure a -> (forall s, a <> VStr s) ->
  b = VRegexp pat \/ (b = VStr pat /\ o_re_ok (w_text W) pat = true) -> raises W OpMatch [a; b] (RMatchLeft a).
Proof.
  intros W a b pat N H Hb. apply not_failure in N. apply raises2; [auto|]. cbn [binop]. unfold op_match. rewrite N.
  destruct Hb as [-> | [-> Hb]]; cbn [isNothing orb obind]; [|unfold re_ok; rewrite Hb; cbn [obind]];
    destruct a; try reflexivity; exfalso; eapply H; reflexivity.
Qed.
