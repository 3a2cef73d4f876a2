(** The compiler emits code that computes what the reference evaluator computes. *)
From Verif Require Import SpecSyntax Machine Coder Eval ProgramProofs StackProofs MachineProofs.
Local Open Scope Z_scope.

(** ** Induction over expression trees *)
Section expr_ind.
Variable P : expr -> Prop.
Hypothesis Hint : forall z, P (EInt z).
Hypothesis Hfloat : forall f, P (EFloat f).
Hypothesis Hstr : forall s, P (EStr s).
Hypothesis Hbool : forall b, P (EBool b).
Hypothesis Hnull : P ENull.
Hypothesis Hname : forall s, P (EName s).
Hypothesis Hcur : P ECurrent.
Hypothesis Hroot : P ERoot.
Hypothesis Hre : forall s, P (ERegexp s).
Hypothesis Hinner : forall o kids, Forall P kids -> P (EInner o kids).

Fixpoint expr_tree_ind (e : expr) : P e :=
  match e with
  | EInt z => Hint z
  | EFloat f => Hfloat f
  | EStr s => Hstr s
  | EBool b => Hbool b
  | ENull => Hnull
  | EName s => Hname s
  | ECurrent => Hcur
  | ERoot => Hroot
  | ERegexp s => Hre s
  | EInner o kids =>
    Hinner o kids
      ((fix go (l : list expr) : Forall P l :=
          match l with
          | [] => Forall_nil P
          | x :: l' => Forall_cons x (expr_tree_ind x) (go l')
          end) kids)
  end.
End expr_ind.

(** ** Named versions of the local loops *)
Fixpoint codeExprs (p : program) (ks : list expr) : C :=
  match ks with
  | [] => OK p
  | k :: ks' => let! p' := codeExpr p k in codeExprs p' ks'
  end.

Lemma codeExpr_inner : forall p o kids, op_is_leaf o = false ->
  codeExpr p (EInner o kids) =
  let! p' := codeExprs p kids in OK (prog_asm p' (mkSmall o (Z.of_nat (length kids)))).
Proof.
  intros p o kids H. simpl. rewrite H. reflexivity.
Qed.

Lemma ev_inner : forall W root dot t o kids,
  ev W root dot t (EInner o kids) =
  let! (vs, t1) := evs W root dot t kids in apply_op W t1 o vs.
Proof.
  intros. simpl. f_equal.
  generalize t. induction kids as [|k ks IH]; intro q; simpl; auto.
  destruct (ev W root dot q k) as [[v q1]| | |]; simpl; auto. rewrite IH. reflexivity.
Qed.

(** ** Well-formed inner nodes *)
Lemma wf_inner : forall o kids, wf_expr (EInner o kids) ->
  Forall wf_expr kids /\ op_is_leaf o = false /\ inner_ok o (length kids).
Proof.
  intros o kids H. inversion H; subst.
  - split; [auto|]. match goal with H : _ \/ _ |- _ => destruct H end; subst; split; reflexivity.
  - split; [auto|]. destruct o; try discriminate; split; try reflexivity; split; reflexivity.
  - split; [repeat constructor; auto|]. split; reflexivity.
  - split; [auto|]. split; [reflexivity|exact I].
  - split; [constructor; auto; constructor|]. split; [reflexivity|]. simpl. lia.
Qed.

(** ** The constants table *)
Definition lit_cval (c : cval) : Prop := match c with CFloat f => lit_float f | _ => True end.
Definition vals_lit (p : program) : Prop := Forall lit_cval (p_vals p).
Definition vals_le (p q : program) : Prop := exists ext, p_vals q = p_vals p ++ ext.

Lemma vals_le_refl : forall p, vals_le p p.
Proof. intro. exists []. symmetry; apply app_nil_r. Qed.
Lemma vals_le_trans : forall p q r, vals_le p q -> vals_le q r -> vals_le p r.
Proof. intros p q r [a Ha] [b Hb]. exists (a ++ b). rewrite Hb, Ha. symmetry; apply app_assoc. Qed.

Lemma beqb_eq : forall a b, beqb a b = true <-> a = b.
Proof.
  induction a as [|x a IH]; destruct b as [|y b]; simpl; split; intro H; try congruence; auto.
  - apply andb_true_iff in H as [H1 H2]. apply Z.eqb_eq in H1. apply IH in H2. congruence.
  - injection H as -> ->. rewrite Z.eqb_refl. simpl. apply IH. reflexivity.
Qed.

Lemma beqb_refl : forall a, beqb a a = true.
Proof. intro. apply beqb_eq. reflexivity. Qed.

Lemma f_eqb_lit : forall f g, lit_float f -> lit_float g -> f_eqb f g = true -> f = g.
Proof.
  intros f g [Hf1 Hf2] [Hg1 Hg2] H. unfold f_eqb, SFeqb in H.
  destruct f as [[]|[]| |[] m e]; destruct g as [[]|[]| |[] m' e'];
    simpl in H; try congruence.
  - destruct (Z.compare_spec e e'); try discriminate; subst.
    assert ((m ?= m')%positive = Eq) as E.
    { change (match CompOpp (m ?= m')%positive with Eq => true | _ => false end = true) in H.
      destruct (m ?= m')%positive; simpl in H; congruence. }
    apply Pos.compare_eq in E. congruence.
  - destruct (Z.compare_spec e e'); try discriminate; subst.
    assert ((m ?= m')%positive = Eq) as E.
    { change (match (m ?= m')%positive with Eq => true | _ => false end = true) in H.
      destruct (m ?= m')%positive; simpl in H; congruence. }
    apply Pos.compare_eq in E. congruence.
Qed.

Lemma key_eqb_eq : forall c d, lit_cval c -> lit_cval d -> key_eqb c d = true -> c = d.
Proof.
  intros c d Hc Hd H. destruct c, d; simpl in *; try discriminate.
  - apply Z.eqb_eq in H. congruence.
  - apply beqb_eq in H. congruence.
  - apply beqb_eq in H. congruence.
  - f_equal. apply f_eqb_lit; assumption.
Qed.

Lemma find_val_nth : forall c l i j, lit_cval c -> Forall lit_cval l ->
  find_val c i l = Some j -> i <= j < i + Z.of_nat (length l) /\ nth_error l (Z.to_nat (j - i)) = Some c.
Proof.
  intros c l. induction l as [|d l IH]; intros i j Hc Hl H; simpl in H; [discriminate|].
  inversion Hl; subst. destruct (key_eqb c d) eqn:E.
  - injection H as <-. rewrite Z.sub_diag. split; [simpl length; lia|]. simpl.
    apply key_eqb_eq in E; auto. congruence.
  - destruct (IH (i + 1) j Hc H3 H) as [H4 H5]. split; [simpl length; lia|].
    replace (Z.to_nat (j - i)) with (S (Z.to_nat (j - (i + 1)))) by lia. exact H5.
Qed.

Lemma nth_error_app_l : forall A (l l' : list A) n x, nth_error l n = Some x ->
  nth_error (l ++ l') n = Some x.
Proof.
  intros. rewrite nth_error_app1; [assumption|]. apply nth_error_Some. congruence.
Qed.

(** the table never holds more than 2^22 constants *)
Definition vals_small (p : program) : Prop := Z.of_nat (length (p_vals p)) <= indexTop.

Lemma mkVal_ok : forall p c i p', lit_cval c -> vals_lit p -> vals_small p ->
  mkVal p c = OK (i, p') ->
  p_orders p' = p_orders p /\ vals_le p p' /\ vals_lit p' /\ vals_small p' /\
  0 <= i < indexTop /\
  (forall q, vals_le p' q -> prog_value q i = Some c).
Proof.
  intros p c i p' Hc Hv Hs H. unfold mkVal in H.
  destruct (find_val c 0 (p_vals p)) as [j|] eqn:E.
  - injection H as <- <-.
    destruct (find_val_nth _ _ _ _ Hc Hv E) as [H1 H2].
    repeat split; auto using vals_le_refl; try (unfold vals_small in Hs; lia).
    intros q [ext He]. unfold prog_value, index_Z. rewrite He.
    destruct (Z.ltb_spec j 0); [lia|]. apply nth_error_app_l.
    rewrite Z.sub_0_r in H2. exact H2.
  - unfold prog_data in H. destruct (Z.geb_spec (Z.of_nat (length (p_vals p))) indexTop);
      [discriminate|]. injection H as <- <-. cbn [p_orders p_vals].
    split; [reflexivity|]. split; [exists [c]; reflexivity|].
    split; [unfold vals_lit; simpl; apply Forall_app; auto|].
    split; [unfold vals_small; cbn [p_vals]; rewrite app_length; simpl length; lia|].
    split; [lia|].
    intros q [ext He]. unfold prog_value, index_Z. rewrite He. simpl.
    destruct (Z.ltb_spec (Z.of_nat (length (p_vals p))) 0); [lia|].
    rewrite Nat2Z.id. apply nth_error_app_l.
    rewrite nth_error_app2 by lia. rewrite Nat.sub_diag. reflexivity.
Qed.

(** ** Code segments *)
Definition code_at (p : program) (pc : Z) (seg : list order) : Prop :=
  exists pre post, p_orders p = pre ++ seg ++ post /\ Z.of_nat (length pre) = pc.

Lemma code_at_app : forall p pc a b, code_at p pc (a ++ b) ->
  code_at p pc a /\ code_at p (pc + Z.of_nat (length a)) b.
Proof.
  intros p pc a b (pre & post & H & Hl). split.
  - exists pre, (b ++ post). rewrite H, <- app_assoc. auto.
  - exists (pre ++ a), post. rewrite H, <- !app_assoc. split; [reflexivity|].
    rewrite app_length. lia.
Qed.

Lemma code_at_size : forall p pc seg, code_at p pc seg ->
  0 <= pc /\ pc + Z.of_nat (length seg) <= prog_size p.
Proof.
  intros p pc seg (pre & post & H & Hl). unfold prog_size. rewrite H, !app_length. lia.
Qed.

Lemma code_at_fetch : forall p pc o, code_at p pc [o] -> index_Z (p_orders p) pc = Some o.
Proof.
  intros p pc o (pre & post & H & Hl). unfold index_Z.
  destruct (Z.ltb_spec pc 0); [lia|]. subst pc. rewrite Nat2Z.id, H. clear H.
  rewrite nth_error_app2 by lia. rewrite Nat.sub_diag. reflexivity.
Qed.

Section correct.
Variable W : world.
Variable pf : program.
Variable root : val.
Hypothesis Hsize : prog_size pf < indexTop.

Notation goes := (goes W pf root).

(** one order at pc, from an abstract state *)
Lemma goes_order : forall A ord m (r : M A) (Q : A -> mstate -> Prop) out dot s pc vss t,
  code_at pf pc [ord] -> is_state m out dot s pc vss t ->
  (forall m1, is_state m1 out dot s (pc + 1) vss t ->
    match r with
    | OK a => exists m', exec W pf root ord m1 = OK m' /\ Q a m'
    | Fail e => exec W pf root ord m1 = Fail e
    | Panics => exec W pf root ord m1 = Panics
    | OutOfFuel => exec W pf root ord m1 = OutOfFuel
    end) -> goes 1 m r Q.
Proof.
  intros A ord m r Q out dot s pc vss t Hc Hm H.
  pose proof (code_at_size _ _ _ Hc) as Hz. simpl in Hz.
  pose proof (state_pc _ _ _ _ _ _ _ Hm) as Hpc.
  apply goes_step; [lia|]. unfold step_m. rewrite Hpc, (code_at_fetch _ _ _ Hc).
  apply H. apply set_pc_state with (pc := pc). exact Hm.
Qed.

(** [emits p p' seg]: the builder went from [p] to [p'] by appending [seg] and perhaps
    some constants *)
Definition emits (p p' : program) (seg : list order) : Prop :=
  p_orders p' = p_orders p ++ seg /\ vals_le p p' /\ vals_lit p' /\ vals_small p'.

Lemma emits_size : forall p p' seg, emits p p' seg ->
  prog_size p' = prog_size p + Z.of_nat (length seg).
Proof. intros p p' seg [H _]. unfold prog_size. rewrite H, app_length. lia. Qed.

Lemma emits_app : forall p p1 p2 a b, emits p p1 a -> emits p1 p2 b -> emits p p2 (a ++ b).
Proof.
  intros p p1 p2 a b (H1 & H2 & H3 & H4) (K1 & K2 & K3 & K4). split.
  - rewrite K1, H1. symmetry; apply app_assoc.
  - split; [eapply vals_le_trans; eauto|auto].
Qed.

Lemma emits_asm : forall p o, vals_lit p -> vals_small p -> emits p (prog_asm p o) [o].
Proof.
  intros. split; [reflexivity|]. split; [exists []; simpl; symmetry; apply app_nil_r|auto].
Qed.

(** [pushes seg pc m f]: running the code [seg] pushes the value that [f] computes *)
Definition pushes (seg : list order) (pc : Z) (f : val -> nat -> M (val * nat)) : Prop :=
  code_at pf pc seg -> forall m out dot s vss t, is_state m out dot s pc vss t ->
  goes (length seg) m (f dot t)
    (fun '(v, t') m' => is_state m' out dot (s ++ [v]) (pc + Z.of_nat (length seg)) vss t').

Lemma pushes_order : forall ord pc v,
  (forall m, exec W pf root ord m = OK (push v m)) ->
  pushes [ord] pc (fun _ t => OK (v, t)).
Proof.
  intros ord pc v H Hc m out dot s vss t Hm. simpl length.
  eapply goes_order; eauto. intros m1 Hm1. rewrite H. eexists; split; [reflexivity|].
  simpl. apply push_state. exact Hm1.
Qed.

Lemma exec_const : forall o i c, In o [OpReal; OpRE; OpBounds; OpString; OpID; OpInt] ->
  0 <= i < indexTop -> prog_value pf i = Some c ->
  forall m, exec W pf root (mkOrder o i) m = OK (push (cval_value c) m).
Proof.
  intros o i c Ho Hi Hv m. change indexTop with 4194304 in Hi.
  unfold exec. rewrite order_op_order, op_of_num_num by lia.
  assert (Hc : const_of pf (mkOrder o i) = OK c).
  { unfold const_of. rewrite order_index_order by lia. rewrite Hv. reflexivity. }
  simpl in Ho. destruct Ho as [<-|[<-|[<-|[<-|[<-|[<-|[]]]]]]];
    rewrite ?order_not_small by lia; rewrite Hc; reflexivity.
Qed.

(** codeOp with a constant *)
Lemma codeOp_const : forall p p' o c, In o [OpReal; OpRE; OpBounds; OpString; OpID; OpInt] ->
  (forall n, c = CInt n -> o = OpInt) ->
  lit_cval c -> vals_lit p -> vals_small p ->
  codeOp p o (Some c) = OK p' ->
  exists seg, emits p p' seg /\ (1 <= length seg)%nat /\
    (vals_le p' pf -> pushes seg (prog_size p) (fun _ t => OK (cval_value c, t))).
Proof.
  intros p p' o c Ho Hint Hc Hv Hs H. unfold codeOp in H.
  destruct (match c with CInt n => if isSmallInt n then Some n else None | _ => None end)
    as [n|] eqn:E.
  - injection H as <-. destruct c; try discriminate.
    destruct (isSmallInt z) eqn:Ez; [|discriminate]. injection E as <-.
    specialize (Hint z eq_refl). subst o.
    exists [mkSmall OpInt z]. split; [apply emits_asm; assumption|]. split; [simpl; lia|].
    intros _. apply pushes_order. intro m. unfold exec.
    rewrite order_op_small, op_of_num_num, small_is_small, order_small_int_small by assumption.
    reflexivity.
  - destruct (mkVal p c) as [[i p1]| | |] eqn:Em; simpl in H; try discriminate.
    injection H as <-.
    destruct (mkVal_ok _ _ _ _ Hc Hv Hs Em) as (H1 & H2 & H3 & H4 & H5 & H6).
    exists [mkOrder o i]. split.
    + split; [simpl; rewrite H1; reflexivity|]. split; [exact H2|auto].
    + split; [simpl; lia|]. intros Hle. apply pushes_order.
      apply exec_const; [assumption|assumption|]. apply H6. exact Hle.
Qed.

Lemma codeExpr_correct : forall e, wf_expr e -> forall p p',
  vals_lit p -> vals_small p -> codeExpr p e = OK p' ->
  exists seg, emits p p' seg /\ (1 <= length seg)%nat /\
    (vals_le p' pf -> pushes seg (prog_size p) (fun dot t => ev W root dot t e)).
Proof.
  induction e using expr_tree_ind; intros Hwf p p' Hv Hs Hc.
  - (* EInt *) cbn in Hc. destruct (isSmallInt z) eqn:Ez.
    + injection Hc as <-. exists [mkSmall OpInt z]. split; [apply emits_asm; assumption|].
      split; [simpl; lia|]. intros _. apply pushes_order. intro m. unfold exec.
      rewrite order_op_small, op_of_num_num, small_is_small, order_small_int_small by assumption.
      reflexivity.
    + apply (codeOp_const p p' OpInt (CInt z)); simpl; auto 10. rewrite Ez. exact Hc.
  - (* EFloat *) inversion Hwf; subst.
    apply (codeOp_const p p' OpReal (CFloat f)); simpl; auto 10. intros; discriminate.
  - apply (codeOp_const p p' OpString (CStr s)); simpl; auto 10. intros; discriminate.
  - (* EBool *) injection Hc as <-. exists [mkSmall OpBool (if b then 1 else 0)].
    split; [apply emits_asm; assumption|]. split; [simpl; lia|].
    intros _. apply pushes_order. intro m. unfold exec.
    rewrite order_op_small, op_of_num_num, small_is_small, order_small_int_small
      by (destruct b; reflexivity).
    destruct b; reflexivity.
  - (* ENull *) injection Hc as <-. exists [mkSmall OpNull 0].
    split; [apply emits_asm; assumption|]. split; [simpl; lia|].
    intros _. apply pushes_order. intro m. unfold exec.
    rewrite order_op_small, op_of_num_num. reflexivity.
  - apply (codeOp_const p p' OpID (CName s)); simpl; auto 10. intros; discriminate.
  - (* ECurrent *) injection Hc as <-. exists [mkSmall OpCurrent 0].
    split; [apply emits_asm; assumption|]. split; [simpl; lia|].
    intros _ Hat m out dot s vss t Hm. eapply goes_order; eauto. intros m1 Hm1.
    unfold exec. rewrite order_op_small, op_of_num_num.
    rewrite (state_dot _ _ _ _ _ _ _ Hm1). cbn [ev]. eexists; split; [reflexivity|].
    simpl. apply push_state; exact Hm1.
  - (* ERoot *) injection Hc as <-. exists [mkSmall OpRoot 0].
    split; [apply emits_asm; assumption|]. split; [simpl; lia|].
    intros _. apply pushes_order. intro m. unfold exec.
    rewrite order_op_small, op_of_num_num. reflexivity.
  - apply (codeOp_const p p' OpRE (CRegexp s)); simpl; auto 10. intros; discriminate.
  - (* EInner *)
    apply wf_inner in Hwf as (Hkids & Hleaf & Hin).
    rewrite codeExpr_inner in Hc by assumption.
    assert (Hlist : forall ks, Forall (fun e => wf_expr e -> forall p p',
               vals_lit p -> vals_small p -> codeExpr p e = OK p' ->
               exists seg, emits p p' seg /\ (1 <= length seg)%nat /\
                 (vals_le p' pf -> pushes seg (prog_size p) (fun dot t => ev W root dot t e))) ks ->
             Forall wf_expr ks -> forall p p', vals_lit p -> vals_small p ->
             codeExprs p ks = OK p' ->
             exists seg, emits p p' seg /\ (length ks <= length seg)%nat /\
               (vals_le p' pf -> code_at pf (prog_size p) seg ->
                forall m out dot s vss t, is_state m out dot s (prog_size p) vss t ->
                goes (length seg) m (evs W root dot t ks)
                  (fun '(vs, t') m' => length vs = length ks /\
                     is_state m' out dot (s ++ vs) (prog_size p + Z.of_nat (length seg)) vss t'))).
    { clear. induction ks as [|k ks IH]; intros HF HW p p' Hv Hs Hc; simpl in Hc.
      - injection Hc as <-. exists []. split.
        { split; [symmetry; apply app_nil_r|]. split; [apply vals_le_refl|auto]. }
        split; [simpl; lia|]. intros _ _ m out dot s vss t Hm. apply goes_ret.
        split; [reflexivity|]. rewrite app_nil_r. simpl length. rewrite Z.add_0_r. exact Hm.
      - inversion HF; subst. inversion HW; subst.
        destruct (codeExpr p k) as [p1| | |] eqn:E1; simpl in Hc; try discriminate.
        destruct (H1 H3 p p1 Hv Hs E1) as (seg1 & Em1 & Hl1 & Hp1).
        pose proof Em1 as (_ & Hle1 & Hv1 & Hs1).
        destruct (IH H2 H4 p1 p' Hv1 Hs1 Hc) as (seg2 & Em2 & Hl2 & Hp2).
        pose proof Em2 as (_ & Hle2 & Hv2 & Hs2).
        exists (seg1 ++ seg2). split; [eapply emits_app; eauto|].
        split; [rewrite app_length; simpl; lia|].
        intros Hpf Hat m out dot s vss t Hm.
        apply code_at_app in Hat as [Hat1 Hat2].
        rewrite app_length. cbn [evs].
        eapply goes_bind.
        { apply Hp1; eauto. eapply vals_le_trans; eauto. }
        intros [v t1] m1 Hm1.
        rewrite <- (emits_size _ _ _ Em1) in Hm1, Hat2.
        eapply goes_weaken with (N := (length seg2 + 0)%nat) ; [|lia|intros a m' Hq; exact Hq].
        eapply goes_bind.
        { apply Hp2; eauto. }
        intros [vs t2] m2 [Hlen Hm2]. apply goes_ret. split; [simpl; congruence|].
        rewrite <- app_assoc in Hm2. simpl in Hm2.
        rewrite (emits_size _ _ _ Em1) in Hm2.
        rewrite Nat2Z.inj_add, Z.add_assoc. exact Hm2. }
    destruct (codeExprs p kids) as [p1| | |] eqn:E1; simpl in Hc; try discriminate.
    injection Hc as <-.
    destruct (Hlist kids H Hkids p p1 Hv Hs E1) as (seg & Em & Hl & Hp).
    pose proof Em as (_ & Hle & Hv1 & Hs1).
    exists (seg ++ [mkSmall o (Z.of_nat (length kids))]).
    split; [eapply emits_app; eauto; apply emits_asm; assumption|].
    split; [rewrite app_length; simpl; lia|].
    intros Hpf Hat m out dot s vss t Hm.
    pose proof (code_at_size _ _ _ Hat) as Hz. rewrite app_length in Hz. simpl in Hz.
    apply code_at_app in Hat as [Hat1 Hat2].
    rewrite app_length. simpl length. rewrite ev_inner.
    eapply goes_bind.
    { apply Hp; eauto. }
    intros [vs t1] m1 [Hlen Hm1].
    eapply goes_order; eauto. intros m2 Hm2.
    rewrite <- Hlen in *.
    assert (Z.of_nat (length vs) < indexTop) as Hlt by lia.
    pose proof (exec_inner W pf root o vs m2 out dot s _ vss t1 Hin Hlt Hm2) as He.
    destruct (apply_op W t1 o vs) as [[v t2]| | |]; auto.
    destruct He as (m' & E & Hm'). exists m'. split; [exact E|].
    rewrite Nat2Z.inj_add, Z.add_assoc. exact Hm'.
Qed.

(** a step's arguments *)
Definition wf_arg (a : pval) : Prop := match a with PExpr e => wf_expr e | _ => True end.

Lemma codeArg_correct : forall a, wf_arg a -> forall p p',
  vals_lit p -> vals_small p -> codeVal p (valOp a) a = OK p' ->
  exists seg, emits p p' seg /\ (1 <= length seg)%nat /\
    (vals_le p' pf -> pushes seg (prog_size p) (fun dot t => ev_arg W root dot t a)).
Proof.
  intros a Hwf p p' Hv Hs Hc. destruct a; unfold codeVal, valOp in Hc;
    cbn [op_has_val negb pval_const] in Hc.
  - apply (codeOp_const p p' OpInt (CInt z)); simpl; auto 10.
  - apply (codeOp_const p p' OpString (CStr s)); simpl; auto 10. intros; discriminate.
  - apply (codeOp_const p p' OpID (CName s)); simpl; auto 10. intros; discriminate.
  - apply (codeOp_const p p' OpBounds (CSlice sl)); simpl; auto 10. intros; discriminate.
  - apply (codeExpr_correct e Hwf); assumption.
Qed.

Lemma codeArgs_correct : forall args, Forall wf_arg args -> forall p p',
  vals_lit p -> vals_small p -> codeArgs p args = OK p' ->
  exists seg, emits p p' seg /\ (length args <= length seg)%nat /\
    (vals_le p' pf -> code_at pf (prog_size p) seg ->
     forall m out dot s vss t, is_state m out dot s (prog_size p) vss t ->
     goes (length seg) m (ev_args W root dot t args)
       (fun '(vs, t') m' => length vs = length args /\
          is_state m' out dot (s ++ vs) (prog_size p + Z.of_nat (length seg)) vss t')).
Proof.
  induction args as [|a args IH]; intros HW p p' Hv Hs Hc; simpl in Hc.
  - injection Hc as <-. exists []. split.
    { split; [symmetry; apply app_nil_r|]. split; [apply vals_le_refl|auto]. }
    split; [simpl; lia|]. intros _ _ m out dot s vss t Hm. apply goes_ret.
    split; [reflexivity|]. rewrite app_nil_r. simpl length. rewrite Z.add_0_r. exact Hm.
  - inversion HW; subst.
    destruct (codeVal p (valOp a) a) as [p1| | |] eqn:E1; simpl in Hc; try discriminate.
    destruct (codeArg_correct a H1 p p1 Hv Hs E1) as (seg1 & Em1 & Hl1 & Hp1).
    pose proof Em1 as (_ & Hle1 & Hv1 & Hs1).
    destruct (IH H2 p1 p' Hv1 Hs1 Hc) as (seg2 & Em2 & Hl2 & Hp2).
    pose proof Em2 as (_ & Hle2 & Hv2 & Hs2).
    exists (seg1 ++ seg2). split; [eapply emits_app; eauto|].
    split; [rewrite app_length; simpl; lia|].
    intros Hpf Hat m out dot s vss t Hm.
    apply code_at_app in Hat as [Hat1 Hat2].
    rewrite app_length. cbn [ev_args].
    eapply goes_bind.
    { apply Hp1; eauto. eapply vals_le_trans; eauto. }
    intros [v t1] m1 Hm1.
    rewrite <- (emits_size _ _ _ Em1) in Hm1, Hat2.
    eapply goes_weaken with (N := (length seg2 + 0)%nat) ; [|lia|intros x m' Hq; exact Hq].
    eapply goes_bind.
    { apply Hp2; eauto. }
    intros [vs t2] m2 [Hlen Hm2]. apply goes_ret. split; [simpl; congruence|].
    rewrite <- app_assoc in Hm2. simpl in Hm2.
    rewrite (emits_size _ _ _ Em1) in Hm2.
    rewrite Nat2Z.inj_add, Z.add_assoc. exact Hm2.
Qed.


(** ** Steps without a loop *)
Definition top_state (m : mstate) (out : gslice) (pc : Z) (t : nat) : Prop :=
  is_state m out VNil [] pc [] t.

Lemma wf_step_args : forall s, wf_step s -> Forall wf_arg (st_args s).
Proof.
  intros s H. inversion H; subst; simpl; auto.
  - constructor; auto. destruct H0; simpl; auto.
  - constructor; auto. destruct H0 as [v0 H0|]; [destruct H0|]; simpl; auto.
  - eapply Forall_impl; [|exact H1]. intros a Ha. destruct Ha; simpl; auto.
  - constructor; auto. destruct H0; simpl; auto.
  - constructor; auto. destruct H0 as [v0 H0|]; [destruct H0|]; simpl; auto.
  - eapply Forall_impl; [|exact H1]. intros a Ha. destruct Ha; simpl; auto.
Qed.

(** the operators of steps, with their numbers of arguments *)
Definition step_ok (o : op) (n : nat) : Prop :=
  match o with
  | OpWild | OpNestWild => n = 0%nat
  | OpMember | OpSelect | OpFilter | OpNestMember | OpNestSelect | OpNestFilter => n = 1%nat
  | OpUnion | OpNestUnion => True
  | _ => False
  end.

Lemma wf_step_ok : forall s, wf_step s -> step_ok (st_op s) (length (st_args s)).
Proof. intros s H. inversion H; subst; simpl; auto. Qed.

Definition plain_op (o : op) : bool :=
  match o with OpWild | OpMember | OpSelect | OpUnion => true | _ => false end.
Definition nest_op (o : op) : bool :=
  match o with OpNestMember | OpNestSelect | OpNestUnion | OpNestWild | OpNestFilter => true
  | _ => false end.

(** what a plain step does with its argument values *)
Definition plain_apply (o : op) (vs : list val) (out : gslice) (t : nat) : M (gslice * nat) :=
  match o, vs with
  | OpWild, [] => applySelection t out (fun t v acc => OK (valsWild W t acc v))
  | OpMember, [sel] =>
    if isNothing sel then OK (Some [], t)
    else applySelection t out (fun t v acc => let! g := valsByKey W acc v sel false in OK (g, t))
  | OpSelect, [sel] =>
    if isNothing sel then OK (Some [], t)
    else applySelection t out (fun t v acc => let! g := valsByKey W acc v sel true in OK (g, t))
  | OpUnion, sels =>
    applySelection t out (fun t v acc => let! g := unionVals W acc v sels in OK (g, t))
  | _, _ => Panics
  end.

Lemma exec_plain : forall o vs m out dot s pc vss t,
  plain_op o = true -> step_ok o (length vs) -> (Z.of_nat (length vs) < indexTop) ->
  is_state m out dot (s ++ vs) pc vss t ->
  match plain_apply o vs out t with
  | OK (out', t') => exists m', exec W pf root (mkSmall o (Z.of_nat (length vs))) m = OK m' /\
                    is_state m' out' dot s pc vss t'
  | Fail e => exec W pf root (mkSmall o (Z.of_nat (length vs))) m = Fail e
  | Panics => exec W pf root (mkSmall o (Z.of_nat (length vs))) m = Panics
  | OutOfFuel => exec W pf root (mkSmall o (Z.of_nat (length vs))) m = OutOfFuel
  end.
Proof.
  intros o vs m out dot s pc vss t Hp Hi Hn Hm.
  unfold exec. rewrite order_op_small, op_of_num_num.
  rewrite order_small_int_small by (apply arity_ok; assumption).
  destruct o; try discriminate Hp; cbn [step_ok] in Hi.
  - (* OpMember *) destruct vs as [|sel [|]]; try discriminate Hi.
    destruct (pop_state _ _ _ _ _ _ _ _ Hm) as (m1 & E1 & Hm1). rewrite E1.
    cbn [obind plain_apply op_beq]. destruct (isNothing sel).
    + eexists; split; [reflexivity|]. eapply set_out_state; exact Hm1.
    + rewrite (state_tick _ _ _ _ _ _ _ Hm1), (state_out _ _ _ _ _ _ _ Hm1).
      destruct (applySelection t out _) as [[o' t']| | |]; cbn [obind]; try reflexivity.
      eexists; split; [reflexivity|]. eapply set_tick_state, set_out_state; exact Hm1.
  - (* OpSelect *) destruct vs as [|sel [|]]; try discriminate Hi.
    destruct (pop_state _ _ _ _ _ _ _ _ Hm) as (m1 & E1 & Hm1). rewrite E1.
    cbn [obind plain_apply op_beq]. destruct (isNothing sel).
    + eexists; split; [reflexivity|]. eapply set_out_state; exact Hm1.
    + rewrite (state_tick _ _ _ _ _ _ _ Hm1), (state_out _ _ _ _ _ _ _ Hm1).
      destruct (applySelection t out _) as [[o' t']| | |]; cbn [obind]; try reflexivity.
      eexists; split; [reflexivity|]. eapply set_tick_state, set_out_state; exact Hm1.
  - (* OpUnion *)
    destruct (popN_state m out dot s vs _ pc vss t Hm eq_refl) as (m1 & E1 & Hm1).
    rewrite E1. cbn [obind plain_apply].
    rewrite (state_tick _ _ _ _ _ _ _ Hm1), (state_out _ _ _ _ _ _ _ Hm1).
    destruct (applySelection t out _) as [[o' t']| | |]; cbn [obind]; try reflexivity.
    eexists; split; [reflexivity|]. eapply set_tick_state, set_out_state; exact Hm1.
  - (* OpWild *) destruct vs; try discriminate Hi. rewrite app_nil_r in Hm.
    cbn [plain_apply].
    rewrite (state_tick _ _ _ _ _ _ _ Hm), (state_out _ _ _ _ _ _ _ Hm).
    destruct (applySelection t out _) as [[o' t']| | |]; cbn [obind]; try reflexivity.
    eexists; split; [reflexivity|]. eapply set_tick_state, set_out_state; exact Hm.
Qed.

Lemma ev_step_plain : forall s out t, plain_op (st_op s) = true ->
  ev_step W root s out t =
  let! (vs, t1) := ev_args W root VNil t (st_args s) in plain_apply (st_op s) vs out t1.
Proof.
  intros [o args] out t H. unfold ev_step. simpl in *. destruct o; try discriminate H; reflexivity.
Qed.

Lemma codeStep_plain : forall s, wf_step s -> plain_op (st_op s) = true ->
  forall p p', vals_lit p -> vals_small p -> codeStep p s = OK p' ->
  exists seg, emits p p' seg /\ (1 <= length seg)%nat /\
    (vals_le p' pf -> code_at pf (prog_size p) seg ->
     forall m out t, top_state m out (prog_size p) t ->
     goes (length seg) m (ev_step W root s out t)
       (fun '(out', t') m' => top_state m' out' (prog_size p + Z.of_nat (length seg)) t')).
Proof.
  intros s Hwf Hpl p p' Hv Hs Hc. unfold codeStep in Hc.
  destruct (codeArgs p (st_args s)) as [p1| | |] eqn:E1; simpl in Hc; try discriminate.
  injection Hc as <-.
  destruct (codeArgs_correct _ (wf_step_args s Hwf) p p1 Hv Hs E1) as (seg & Em & Hl & Hp).
  pose proof Em as (_ & Hle & Hv1 & Hs1).
  exists (seg ++ [mkSmall (st_op s) (Z.of_nat (length (st_args s)))]).
  split; [eapply emits_app; eauto; apply emits_asm; assumption|].
  split; [rewrite app_length; simpl; lia|].
  intros Hpf Hat m out t Hm.
  pose proof (code_at_size _ _ _ Hat) as Hz. rewrite app_length in Hz. simpl in Hz.
  apply code_at_app in Hat as [Hat1 Hat2].
  rewrite app_length. simpl length. rewrite ev_step_plain by assumption.
  eapply goes_bind.
  { apply Hp; eauto. }
  intros [vs t1] m1 [Hlen Hm1].
  eapply goes_order; eauto. intros m2 Hm2.
  pose proof (wf_step_ok s Hwf) as Hok.
  rewrite <- Hlen in *.
  assert (Z.of_nat (length vs) < indexTop) as Hlt by lia.
  pose proof (exec_plain (st_op s) vs m2 out VNil [] _ [] t1 Hpl Hok Hlt Hm2) as He.
  destruct (plain_apply (st_op s) vs out t1) as [[v t2]| | |]; auto.
  destruct He as (m' & E & Hm'). exists m'. split; [exact E|].
  rewrite Nat2Z.inj_add, Z.add_assoc. exact Hm'.
Qed.

(** ** Loops *)
Definition body_apply (o : op) (vs : list val) (dot : val) (out : gslice) (t : nat)
    : M (gslice * nat) :=
  match o, vs with
  | OpFilter, [v] | OpNestFilter, [v] =>
    OK (if negb (isNothing v) && cvb W v then g_append out dot else out, t)
  | OpNestWild, [] => OK (valsWild W t out dot)
  | OpNestMember, [sel] => let! o := select1 W sel false out dot in OK (o, t)
  | OpNestSelect, [sel] => let! o := select1 W sel true out dot in OK (o, t)
  | OpNestUnion, sels => let! o := unionVals W out dot sels in OK (o, t)
  | _, _ => Panics
  end.

Definition loop_op (o : op) : bool := match o with OpFilter => true | _ => nest_op o end.

Lemma exec_body : forall o vs m out dot s pc vss t,
  loop_op o = true -> step_ok o (length vs) -> (Z.of_nat (length vs) < indexTop) ->
  is_state m out dot (s ++ vs) pc vss t ->
  match body_apply o vs dot out t with
  | OK (out', t') => exists m', exec W pf root (mkSmall o (Z.of_nat (length vs))) m = OK m' /\
                    is_state m' out' dot s pc vss t'
  | Fail e => exec W pf root (mkSmall o (Z.of_nat (length vs))) m = Fail e
  | Panics => exec W pf root (mkSmall o (Z.of_nat (length vs))) m = Panics
  | OutOfFuel => exec W pf root (mkSmall o (Z.of_nat (length vs))) m = OutOfFuel
  end.
Proof.
  intros o vs m out dot s pc vss t Hp Hi Hn Hm.
  unfold exec. rewrite order_op_small, op_of_num_num.
  rewrite order_small_int_small by (apply arity_ok; assumption).
  destruct o; try discriminate Hp; cbn [step_ok] in Hi.
  - (* OpFilter *) destruct vs as [|v [|]]; try discriminate Hi.
    destruct (pop_state _ _ _ _ _ _ _ _ Hm) as (m1 & E1 & Hm1). rewrite E1.
    cbn [obind body_apply].
    rewrite (state_dot _ _ _ _ _ _ _ Hm1), (state_out _ _ _ _ _ _ _ Hm1).
    destruct (negb (isNothing v) && cvb W v); eexists; (split; [reflexivity|]); auto.
    eapply set_out_state; exact Hm1.
  - (* OpNestMember *) destruct vs as [|sel [|]]; try discriminate Hi.
    destruct (pop_state _ _ _ _ _ _ _ _ Hm) as (m1 & E1 & Hm1). rewrite E1.
    cbn [obind body_apply op_beq]. unfold select1. destruct (isNothing sel).
    + eexists; split; [reflexivity|]. exact Hm1.
    + rewrite (state_dot _ _ _ _ _ _ _ Hm1), (state_out _ _ _ _ _ _ _ Hm1).
      destruct (valsByKey W out dot sel false) as [o'| | |]; cbn [obind]; try reflexivity.
      eexists; split; [reflexivity|]. eapply set_out_state; exact Hm1.
  - (* OpNestSelect *) destruct vs as [|sel [|]]; try discriminate Hi.
    destruct (pop_state _ _ _ _ _ _ _ _ Hm) as (m1 & E1 & Hm1). rewrite E1.
    cbn [obind body_apply op_beq]. unfold select1. destruct (isNothing sel).
    + eexists; split; [reflexivity|]. exact Hm1.
    + rewrite (state_dot _ _ _ _ _ _ _ Hm1), (state_out _ _ _ _ _ _ _ Hm1).
      destruct (valsByKey W out dot sel true) as [o'| | |]; cbn [obind]; try reflexivity.
      eexists; split; [reflexivity|]. eapply set_out_state; exact Hm1.
  - (* OpNestUnion *)
    destruct (popN_state m out dot s vs _ pc vss t Hm eq_refl) as (m1 & E1 & Hm1).
    rewrite E1. cbn [obind body_apply].
    rewrite (state_dot _ _ _ _ _ _ _ Hm1), (state_out _ _ _ _ _ _ _ Hm1).
    rewrite <- (state_tick _ _ _ _ _ _ _ Hm1).
    destruct (unionVals W out dot vs) as [o'| | |]; cbn [obind]; try reflexivity.
    eexists; split; [reflexivity|]. rewrite (state_tick _ _ _ _ _ _ _ Hm1).
    eapply set_out_state; exact Hm1.
  - (* OpNestWild *) destruct vs; try discriminate Hi. rewrite app_nil_r in Hm.
    cbn [body_apply].
    rewrite (state_tick _ _ _ _ _ _ _ Hm), (state_out _ _ _ _ _ _ _ Hm), (state_dot _ _ _ _ _ _ _ Hm).
    destruct (valsWild W t out dot) as [o' t'].
    eexists; split; [reflexivity|]. eapply set_tick_state, set_out_state; exact Hm.
  - (* OpNestFilter *) destruct vs as [|v [|]]; try discriminate Hi.
    destruct (pop_state _ _ _ _ _ _ _ _ Hm) as (m1 & E1 & Hm1). rewrite E1.
    cbn [obind body_apply].
    rewrite (state_dot _ _ _ _ _ _ _ Hm1), (state_out _ _ _ _ _ _ _ Hm1).
    destruct (negb (isNothing v) && cvb W v); eexists; (split; [reflexivity|]); auto.
    eapply set_out_state; exact Hm1.
Qed.

Lemma ev_body_apply : forall s dot out t, ev_body W root s dot out t =
  let! (vs, t1) := ev_args W root dot t (st_args s) in body_apply (st_op s) vs dot out t1.
Proof. reflexivity. Qed.

(** the body of a loop: arguments, operator *)
Lemma codeStep_body : forall s, wf_step s -> loop_op (st_op s) = true ->
  forall p p', vals_lit p -> vals_small p -> codeStep p s = OK p' ->
  exists seg, emits p p' seg /\ (1 <= length seg)%nat /\
    (vals_le p' pf -> code_at pf (prog_size p) seg ->
     forall m out dot vss t, is_state m out dot [] (prog_size p) vss t ->
     goes (length seg) m (ev_body W root s dot out t)
       (fun '(out', t') m' => is_state m' out' dot [] (prog_size p + Z.of_nat (length seg)) vss t')).
Proof.
  intros s Hwf Hpl p p' Hv Hs Hc. unfold codeStep in Hc.
  destruct (codeArgs p (st_args s)) as [p1| | |] eqn:E1; simpl in Hc; try discriminate.
  injection Hc as <-.
  destruct (codeArgs_correct _ (wf_step_args s Hwf) p p1 Hv Hs E1) as (seg & Em & Hl & Hp).
  pose proof Em as (_ & Hle & Hv1 & Hs1).
  exists (seg ++ [mkSmall (st_op s) (Z.of_nat (length (st_args s)))]).
  split; [eapply emits_app; eauto; apply emits_asm; assumption|].
  split; [rewrite app_length; simpl; lia|].
  intros Hpf Hat m out dot vss t Hm.
  pose proof (code_at_size _ _ _ Hat) as Hz. rewrite app_length in Hz. simpl in Hz.
  apply code_at_app in Hat as [Hat1 Hat2].
  rewrite app_length. simpl length. rewrite ev_body_apply.
  eapply goes_bind.
  { apply Hp; eauto. }
  intros [vs t1] m1 [Hlen Hm1].
  eapply goes_order; eauto. intros m2 Hm2.
  pose proof (wf_step_ok s Hwf) as Hok.
  rewrite <- Hlen in *.
  assert (Z.of_nat (length vs) < indexTop) as Hlt by lia.
  pose proof (exec_body (st_op s) vs m2 out dot [] _ vss t1 Hpl Hok Hlt Hm2) as He.
  destruct (body_apply (st_op s) vs dot out t1) as [[v t2]| | |]; auto.
  destruct He as (m' & E & Hm'). exists m'. split; [exact E|].
  rewrite Nat2Z.inj_add, Z.add_assoc. exact Hm'.
Qed.

Lemma set_nth_app : forall A (a b : list A) x y, set_nth (length a) x (a ++ y :: b) = a ++ x :: b.
Proof. induction a; simpl; intros; congruence. Qed.

(** the values a loop goes through *)
Definition producer_of (intro : op) : nat -> list val -> list val * nat :=
  match intro with OpFor => stepping W | _ => walker W end.

(** number of iterations of a step's loop *)
Definition step_iters (s : pstep) (out : gslice) (t : nat) : nat :=
  match g_list out with
  | [] => 0%nat
  | l =>
    match st_op s with
    | OpFilter => length (loop_dots (fst (stepping W t l)))
    | OpNestMember | OpNestSelect | OpNestUnion | OpNestWild | OpNestFilter =>
      length (loop_dots (fst (walker W t l)))
    | _ => 0%nat
    end
  end.

Lemma codeLoop_correct : forall s intro, wf_step s ->
  (st_op s = OpFilter /\ intro = OpFor) \/ (nest_op (st_op s) = true /\ intro = OpNest) ->
  forall p p', vals_lit p -> vals_small p -> codeLoop p s intro = OK p' ->
  exists seg, emits p p' seg /\ (1 <= length seg)%nat /\
    (vals_le p' pf -> code_at pf (prog_size p) seg ->
     forall m out t, top_state m out (prog_size p) t ->
     goes (length seg * (1 + step_iters s out t)) m (ev_step W root s out t)
       (fun '(out', t') m' => top_state m' out' (prog_size p + Z.of_nat (length seg)) t')).
Proof.
  intros s intro Hwf Hop p p' Hv Hs Hc. unfold codeLoop in Hc.
  destruct (codeStep (prog_asm p (mkSmall intro 0)) s) as [p2| | |] eqn:E1;
    simpl in Hc; try discriminate.
  injection Hc as <-.
  assert (Hloop : loop_op (st_op s) = true).
  { destruct Hop as [[H _]|[H _]]; [rewrite H; reflexivity|].
    unfold loop_op. destruct (st_op s); auto. }
  assert (Em0 : emits p (prog_asm p (mkSmall intro 0)) [mkSmall intro 0])
    by (apply emits_asm; assumption).
  pose proof Em0 as (_ & Hle0 & Hv0 & Hs0).
  destruct (codeStep_body s Hwf Hloop _ p2 Hv0 Hs0 E1) as (body & Em & Hl & Hp).
  pose proof Em as (Ho2 & Hle & Hv1 & Hs1).
  set (lpc := prog_size (prog_asm p (mkSmall intro 0))) in *.
  set (p3 := prog_asm p2 (mkSmall OpRep lpc)) in *.
  assert (Hlpc : lpc = prog_size p + 1).
  { unfold lpc. rewrite (emits_size _ _ _ Em0). reflexivity. }
  assert (Hp2 : prog_size p2 = prog_size p + 1 + Z.of_nat (length body)).
  { rewrite (emits_size _ _ _ Em). fold lpc. lia. }
  assert (Hp3 : prog_size p3 = prog_size p + 2 + Z.of_nat (length body)).
  { unfold p3. rewrite (emits_size _ _ [mkSmall OpRep lpc] (emits_asm _ _ Hv1 Hs1)).
    rewrite Hp2. simpl. lia. }
  exists (mkSmall intro (prog_size p3) :: body ++ [mkSmall OpRep lpc]).
  split.
  { split; [|split].
    - unfold prog_patch, p3, prog_asm in *. cbn [p_orders] in *. rewrite Ho2.
      unfold prog_size at 1. rewrite Nat2Z.id. rewrite <- !app_assoc.
      cbn [app]. rewrite set_nth_app. reflexivity.
    - eapply vals_le_trans; [exact Hle0|]. exact Hle.
    - split; [exact Hv1|exact Hs1]. }
  split; [simpl; lia|].
  intros Hpf Hat m out t Hm.
  set (seg := mkSmall intro (prog_size p3) :: body ++ [mkSmall OpRep lpc]) in *.
  assert (Hseg : Z.of_nat (length seg) = 2 + Z.of_nat (length body)).
  { unfold seg. cbn [length]. rewrite app_length. simpl length. lia. }
  pose proof (code_at_size _ _ _ Hat) as Hz. rewrite Hseg in Hz.
  change seg with ([mkSmall intro (prog_size p3)] ++ body ++ [mkSmall OpRep lpc]) in Hat.
  apply code_at_app in Hat as [Hat0 Hat]. apply code_at_app in Hat as [Hat1 Hat2].
  change (Z.of_nat (length [mkSmall intro (prog_size p3)])) with 1 in *.
  rewrite <- Hlpc in Hat1, Hat2. clearbody seg.
  (* the loop proper *)
  assert (Hiter : forall rest m out d t vss, is_state m out d [] lpc (rest :: vss) t ->
    goes ((length body + 1) * S (length rest)) m (ev_loop W root s (d :: rest) out t)
      (fun '(out', t') m' => is_state m' out' VNil [] (prog_size p + Z.of_nat (length seg)) vss t')).
  { clear m out t Hm. induction rest as [|d' rest IH]; intros m out d t vss Hm.
    - cbn [ev_loop]. simpl length. rewrite Nat.mul_1_r.
      eapply goes_bind.
      { apply Hp; eauto. }
      intros [out1 t1] m1 Hm1.
      eapply goes_order; eauto. intros m2 Hm2.
      unfold exec. rewrite order_op_small, op_of_num_num. unfold rep.
      rewrite (state_values _ _ _ _ _ _ _ Hm2). cbn [recv negb].
      eexists; split; [reflexivity|]. eapply set_dot_state, set_values_state.
      replace (prog_size p + Z.of_nat (length seg)) with (lpc + Z.of_nat (length body) + 1) by lia.
      exact Hm2.
    - change (ev_loop W root s (d :: d' :: rest) out t)
        with (let! (out', t') := ev_body W root s d out t in ev_loop W root s (d' :: rest) out' t').
      replace ((length body + 1) * S (length (d' :: rest)))%nat
        with (length body + (1 + (length body + 1) * S (length rest)))%nat by (simpl length; lia).
      eapply goes_bind.
      { apply Hp; eauto. }
      intros [out1 t1] m1 Hm1.
      change (ev_loop W root s (d' :: rest) out1 t1)
        with (let! tt := OK tt in ev_loop W root s (d' :: rest) out1 t1).
      eapply goes_bind with (Q1 := fun _ m => is_state m out1 d' [] lpc (rest :: vss) t1).
      { eapply goes_order; eauto. intros m2 Hm2.
        unfold exec. rewrite order_op_small, op_of_num_num. unfold rep.
        rewrite (state_values _ _ _ _ _ _ _ Hm2). cbn [recv negb].
        rewrite order_pc_small.
        2:{ apply isSmallInt_range. change indexTop with 4194304 in Hsize. lia. }
        unfold branch.
        destruct (Z.leb_spec lpc 0); [lia|].
        replace (lpc >? prog_size pf) with false by (symmetry; rewrite Z.gtb_ltb; apply Z.ltb_ge; lia).
        cbn [orb]. eexists; split; [reflexivity|].
        eapply set_pc_state, set_dot_state, set_values_state. exact Hm2. }
      intros [] m2 Hm2. apply IH. exact Hm2. }
  assert (Hstep : ev_step W root s out t = ev_loop_step W root (producer_of intro) s out t /\
    step_iters s out t = match g_list out with [] => 0%nat | l => length (loop_dots (fst (producer_of intro t l))) end).
  { unfold ev_step, step_iters. destruct Hop as [[H ->]|[H ->]].
    - rewrite H. auto.
    - destruct (st_op s); try discriminate H; auto. }
  destruct Hstep as [-> ->]. unfold ev_loop_step.
  assert (Hexec : forall m1, exec W pf root (mkSmall intro (prog_size p3)) m1 =
    looptop pf (producer_of intro) (prog_size p3) m1).
  { intro m1. unfold exec. rewrite order_op_small, op_of_num_num.
    rewrite order_pc_small.
    2:{ apply isSmallInt_range. change indexTop with 4194304 in Hsize. lia. }
    destruct Hop as [[_ ->]|[_ ->]]; reflexivity. }
  destruct (g_list out) as [|v0 l0] eqn:Eout.
  - (* empty output set: branch over the loop *)
    eapply goes_weaken with (N := 1%nat); [|lia|intros a m' Hq; exact Hq].
    eapply goes_order; [exact Hat0|exact Hm|]. intros m1 Hm1. rewrite Hexec. unfold looptop.
    rewrite (state_out _ _ _ _ _ _ _ Hm1), Eout. unfold branch.
    destruct (Z.leb_spec (prog_size p3) 0); [lia|].
    replace (prog_size p3 >? prog_size pf) with false
      by (symmetry; rewrite Z.gtb_ltb; apply Z.ltb_ge; lia).
    cbn [orb]. eexists; split; [reflexivity|].
    replace (prog_size p + Z.of_nat (length seg)) with (prog_size p3) by lia.
    eapply set_pc_state. exact Hm1.
  - destruct (producer_of intro t (v0 :: l0)) as [vs t1] eqn:Epr.
    set (d0 := hd VNil vs). set (r0 := tl vs).
    assert (Hdots : loop_dots vs = d0 :: r0) by (destruct vs; reflexivity).
    cbn [fst]. rewrite Hdots. cbn [length].
    eapply goes_weaken with (N := (1 + (length body + 1) * S (length r0))%nat);
      [|nia|intros a m' Hq; exact Hq].
    change (ev_loop W root s (d0 :: r0) (Some []) t1)
      with (let! tt := OK tt in ev_loop W root s (d0 :: r0) (Some []) t1).
    eapply goes_bind with (Q1 := fun _ m => is_state m (Some []) d0 [] lpc (r0 :: []) t1).
    { eapply goes_order; [exact Hat0|exact Hm|]. intros m1 Hm1. rewrite Hexec. unfold looptop.
      rewrite (state_out _ _ _ _ _ _ _ Hm1), Eout, (state_tick _ _ _ _ _ _ _ Hm1), Epr.
      assert (Hr : recv vs = (d0, match vs with [] => false | _ => true end, r0)).
      { destruct vs; reflexivity. }
      rewrite Hr. eexists; split; [reflexivity|].
      destruct Hm1 as (A & B & C & D & E & F & G).
      unfold is_state, stk_ok, stk in *. simpl. rewrite F, E, Hlpc. auto 10. }
    intros [] m1 Hm1. apply Hiter. exact Hm1.
Qed.

(** ** Paths *)
Lemma codePathStep_correct : forall s, wf_step s ->
  forall p p', vals_lit p -> vals_small p -> codePathStep p s = OK p' ->
  exists seg, emits p p' seg /\ (1 <= length seg)%nat /\
    (vals_le p' pf -> code_at pf (prog_size p) seg ->
     forall m out t, top_state m out (prog_size p) t ->
     goes (length seg * (1 + step_iters s out t)) m (ev_step W root s out t)
       (fun '(out', t') m' => top_state m' out' (prog_size p + Z.of_nat (length seg)) t')).
Proof.
  intros s Hwf p p' Hv Hs Hc.
  pose proof (wf_step_ok s Hwf) as Hok. unfold codePathStep in Hc.
  assert (Hcase : plain_op (st_op s) = true \/
    ((st_op s = OpFilter) \/ (nest_op (st_op s) = true))).
  { destruct (st_op s); simpl in Hok; try contradiction; auto. }
  destruct Hcase as [Hpl|Hloop].
  - assert (Hc' : codeStep p s = OK p').
    { destruct (st_op s) eqn:Eo; try discriminate Hpl; exact Hc. }
    destruct (codeStep_plain s Hwf Hpl p p' Hv Hs Hc') as (seg & H1 & H2 & H3).
    exists seg. split; [exact H1|]. split; [exact H2|].
    intros Hpf Hat m out t Hm.
    eapply goes_weaken; [apply H3; eauto|nia|intros a m' Hq; exact Hq].
  - destruct Hloop as [Hf|Hn].
    + apply (codeLoop_correct s OpFor Hwf); auto. rewrite Hf in Hc. exact Hc.
    + apply (codeLoop_correct s OpNest Hwf); auto.
      destruct (st_op s); try discriminate Hn; exact Hc.
Qed.

(** number of loop iterations in the evaluation of a path *)
Fixpoint path_iters (ss : path) (out : gslice) (t : nat) : nat :=
  match ss with
  | [] => 0%nat
  | s :: r =>
    (step_iters s out t +
     match ev_step W root s out t with
     | OK (out', t') => path_iters r out' t'
     | _ => 0
     end)%nat
  end.

Lemma codePath_correct : forall ss, wf_path ss ->
  forall p p', vals_lit p -> vals_small p -> codePath p ss = OK p' ->
  exists seg, emits p p' seg /\ (length ss <= length seg)%nat /\
    (vals_le p' pf -> code_at pf (prog_size p) seg ->
     forall m out t, top_state m out (prog_size p) t ->
     goes (length seg * (1 + path_iters ss out t)) m (ev_path W root ss out t)
       (fun '(out', t') m' => top_state m' out' (prog_size p + Z.of_nat (length seg)) t')).
Proof.
  induction ss as [|s ss IH]; intros HW p p' Hv Hs Hc; simpl in Hc.
  - injection Hc as <-. exists []. split.
    { split; [symmetry; apply app_nil_r|]. split; [apply vals_le_refl|auto]. }
    split; [simpl; lia|]. intros _ _ m out t Hm. apply goes_ret.
    simpl length. rewrite Z.add_0_r. exact Hm.
  - inversion HW; subst.
    destruct (codePathStep p s) as [p1| | |] eqn:E1; simpl in Hc; try discriminate.
    destruct (codePathStep_correct s H1 p p1 Hv Hs E1) as (seg1 & Em1 & Hl1 & Hp1).
    pose proof Em1 as (_ & Hle1 & Hv1 & Hs1).
    destruct (IH H2 p1 p' Hv1 Hs1 Hc) as (seg2 & Em2 & Hl2 & Hp2).
    pose proof Em2 as (_ & Hle2 & Hv2 & Hs2).
    exists (seg1 ++ seg2). split; [eapply emits_app; eauto|].
    split; [rewrite app_length; simpl; lia|].
    intros Hpf Hat m out t Hm.
    apply code_at_app in Hat as [Hat1 Hat2].
    rewrite app_length. cbn [ev_path path_iters].
    set (it2 := match ev_step W root s out t with OK (out', t') => path_iters ss out' t' | _ => 0%nat end).
    eapply goes_weaken with (N := (length seg1 * (1 + step_iters s out t) +
                                   length seg2 * (1 + it2))%nat);
      [|nia|intros a m' Hq; exact Hq].
    eapply goes_bind_eq.
    { apply Hp1; eauto. eapply vals_le_trans; eauto. }
    intros [out1 t1] m1 Heq Hm1. unfold it2. rewrite Heq.
    rewrite <- (emits_size _ _ _ Em1) in Hm1, Hat2.
    eapply goes_weaken; [apply Hp2; eauto | lia |].
    intros [out2 t2] m2 Hm2.
    rewrite (emits_size _ _ _ Em1) in Hm2. rewrite Nat2Z.inj_add, Z.add_assoc. exact Hm2.
Qed.

End correct.

(** Running a compiled path. *)
Lemma start_ok : vals_lit (mkProg [] []) /\ vals_small (mkProg [] []).
Proof. split; [constructor|]. unfold vals_small. simpl. discriminate. Qed.

Lemma code_at_whole : forall p, code_at p 0 (p_orders p).
Proof. intro. exists [], []. rewrite app_nil_r. auto. Qed.

(** The program's run is the reference evaluation, for any amount of fuel that is at
    least the program's size times one more than the number of loop iterations. *)
Lemma run_correct : forall W t root ss p, wf_path ss -> Compile ss = OK p ->
  prog_size p < indexTop ->
  forall k, Run (length (p_orders p) * (1 + path_iters W root ss (Some [root]) t) + k) W t p root
            = ev_run W root t ss.
Proof.
  intros W t root ss p Hwf Hc Hsz k. destruct start_ok as [Hv Hs].
  destruct (codePath_correct W p root Hsz ss Hwf _ p Hv Hs Hc) as (seg & Em & Hl & Hp).
  pose proof Em as (Ho & Hle & Hv1 & Hs1). cbn [p_orders app] in Ho. subst seg.
  change (prog_size (mkProg [] [])) with 0 in Hp.
  specialize (Hp (vals_le_refl p) (code_at_whole p) (m_init t root) (Some [root]) t
                (is_state_init t root)).
  rewrite Z.add_0_l in Hp.
  assert (Hend : forall a m', (fun '(out', t') m' => top_state m' out'
            (Z.of_nat (length (p_orders p))) t') a m' -> m_pc m' >= prog_size p).
  { intros [o' t'] m' Hm'. rewrite (state_pc _ _ _ _ _ _ _ Hm'). unfold prog_size. lia. }
  pose proof (goes_run _ _ _ _ _ _ _ _ Hp Hend k) as Hr.
  unfold Run, ev_run. destruct (ev_path W root ss (Some [root]) t) as [[o' t']| | |].
  - destruct Hr as (m' & E & Hm'). rewrite E. cbn [obind].
    rewrite (state_out _ _ _ _ _ _ _ Hm'). reflexivity.
  - rewrite Hr. reflexivity.
  - rewrite Hr. reflexivity.
  - rewrite Hr. reflexivity.
Qed.

(** The final state of a run that succeeds. *)
Lemma run_final : forall W t root ss p m fuel, wf_path ss -> Compile ss = OK p ->
  prog_size p < indexTop ->
  run_loop fuel W p root (m_init t root) = OK m ->
  stk m = [] /\ m_values m = [] /\ m_pc m = prog_size p /\ m_dot m = VNil.
Proof.
  intros W t root ss p m fuel Hwf Hc Hsz Hrun. destruct start_ok as [Hv Hs].
  destruct (codePath_correct W p root Hsz ss Hwf _ p Hv Hs Hc) as (seg & Em & Hl & Hp).
  pose proof Em as (Ho & Hle & Hv1 & Hs1). cbn [p_orders app] in Ho. subst seg.
  change (prog_size (mkProg [] [])) with 0 in Hp.
  specialize (Hp (vals_le_refl p) (code_at_whole p) (m_init t root) (Some [root]) t
                (is_state_init t root)).
  rewrite Z.add_0_l in Hp.
  assert (Hend : forall a m', (fun '(out', t') m' => top_state m' out'
            (Z.of_nat (length (p_orders p))) t') a m' -> m_pc m' >= prog_size p).
  { intros [o' t'] m' Hm'. rewrite (state_pc _ _ _ _ _ _ _ Hm'). unfold prog_size. lia. }
  pose proof (goes_run _ _ _ _ _ _ _ _ Hp Hend fuel) as Hr.
  apply (run_loop_more W p root) with (k := (length (p_orders p) * (1 + path_iters W root ss (Some [root]) t))%nat) in Hrun;
    [|discriminate].
  rewrite Nat.add_comm in Hrun.
  destruct (ev_path W root ss (Some [root]) t) as [[o' t']| | |]; try congruence.
  destruct Hr as (m' & E & Hm'). rewrite Hrun in E. injection E as <-.
  destruct Hm' as (A & B & C & D & E & F & G). auto.
Qed.
