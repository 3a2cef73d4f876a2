(** The compiled program is the encoding of the path's listing. *)
From Verif Require Import SpecSyntax Machine Coder Eval ProgramProofs StackProofs MachineProofs
  CoderProofs SpecCode.
Local Open Scope Z_scope.

Section decode.
Variable pf : program.

(** [codes p p' is]: the builder went from [p] to [p'] by appending code that, in the final
    program, decodes to [is] *)
Definition codes (p p' : program) (is : list instr) : Prop :=
  exists seg, emits p p' seg /\ length seg = length is /\
    (vals_le p' pf -> Forall2 (encodes pf) seg is).

Lemma codes_app : forall p p1 p2 a b, codes p p1 a -> codes p1 p2 b -> codes p p2 (a ++ b).
Proof.
  intros p p1 p2 a b (s1 & E1 & L1 & D1) (s2 & E2 & L2 & D2).
  exists (s1 ++ s2). split; [eapply emits_app; eauto|]. split; [rewrite !app_length; lia|].
  intros Hv. apply Forall2_app.
  - apply D1. eapply vals_le_trans; [|exact Hv]. apply E2.
  - apply D2; auto.
Qed.

Lemma codes_nil : forall p, vals_lit p -> vals_small p -> codes p p [].
Proof.
  intros p Hv Hs. exists []. split; [|split; auto].
  split; [symmetry; apply app_nil_r|]. split; [apply vals_le_refl|auto].
Qed.

Lemma codes_asm : forall p o i, vals_lit p -> vals_small p ->
  encodes pf o i -> codes p (prog_asm p o) [i].
Proof.
  intros p o i Hv Hs H. exists [o]. split; [apply emits_asm; auto|]. split; [reflexivity|].
  intros _. constructor; [exact H|constructor].
Qed.

Lemma order_pc_wrap : forall o n, order_pc (mkSmall o n) = Some (wrap23 n).
Proof. intros. unfold order_pc. rewrite small_is_small, order_small_int_wrap. reflexivity. Qed.

Lemma small_load : forall z, isSmallInt z = true -> encodes pf (mkSmall OpInt z) (ILoad (VInt64 z)).
Proof.
  intros z Hz W root m. unfold exec.
  rewrite order_op_small, op_of_num_num, small_is_small, order_small_int_small by assumption.
  reflexivity.
Qed.

Lemma codes_const : forall p p' o c, In o [OpReal; OpRE; OpBounds; OpString; OpID; OpInt] ->
  (forall n, c = CInt n -> o = OpInt) -> lit_cval c -> vals_lit p -> vals_small p ->
  codeOp p o (Some c) = OK p' -> codes p p' [ILoad (cval_value c)].
Proof.
  intros p p' o c Ho Hint Hc Hv Hs H. unfold codeOp in H.
  destruct (match c with CInt n => if isSmallInt n then Some n else None | _ => None end)
    as [n|] eqn:E.
  - injection H as <-. destruct c; try discriminate.
    destruct (isSmallInt z) eqn:Ez; [|discriminate]. injection E as <-.
    rewrite (Hint z eq_refl). apply codes_asm; auto. apply small_load. exact Ez.
  - destruct (mkVal p c) as [[i p1]| | |] eqn:Em; simpl in H; try discriminate.
    injection H as <-.
    destruct (mkVal_ok _ _ _ _ Hc Hv Hs Em) as (H1 & H2 & H3 & H4 & H5 & H6).
    exists [mkOrder o i]. split.
    + split; [simpl; rewrite H1; reflexivity|]. split; [exact H2|auto].
    + split; [reflexivity|]. intros Hle. constructor; [|constructor].
      intros W root. apply exec_const; [assumption|assumption|]. apply H6. exact Hle.
Qed.

Lemma codeExpr_codes : forall e, wf_expr e -> forall p p', vals_lit p -> vals_small p ->
  codeExpr p e = OK p' -> codes p p' (list_expr e).
Proof.
  induction e using expr_tree_ind; intros Hwf p p' Hv Hs Hc.
  - cbn in Hc. destruct (isSmallInt z) eqn:Ez.
    + injection Hc as <-. apply codes_asm; auto. apply small_load. exact Ez.
    + apply (codes_const p p' OpInt (CInt z)); simpl; auto 10. rewrite Ez. exact Hc.
  - inversion Hwf; subst.
    apply (codes_const p p' OpReal (CFloat f)); simpl; auto 10. intros; discriminate.
  - apply (codes_const p p' OpString (CStr s)); simpl; auto 10. intros; discriminate.
  - injection Hc as <-. apply codes_asm; auto. intros W root m. unfold exec.
    rewrite order_op_small, op_of_num_num, small_is_small, order_small_int_small
      by (destruct b; reflexivity).
    destruct b; reflexivity.
  - injection Hc as <-. apply codes_asm; auto. intros W root m. unfold exec.
    rewrite order_op_small, op_of_num_num. reflexivity.
  - apply (codes_const p p' OpID (CName s)); simpl; auto 10. intros; discriminate.
  - injection Hc as <-. apply codes_asm; auto. unfold encodes.
    rewrite order_op_small, op_of_num_num. reflexivity.
  - injection Hc as <-. apply codes_asm; auto. unfold encodes.
    rewrite order_op_small, op_of_num_num. reflexivity.
  - apply (codes_const p p' OpRE (CRegexp s)); simpl; auto 10. intros; discriminate.
  - apply wf_inner in Hwf as (Hkids & Hleaf & _).
    rewrite codeExpr_inner in Hc by assumption.
    destruct (codeExprs p kids) as [p1| | |] eqn:E1; simpl in Hc; try discriminate.
    injection Hc as <-. cbn [list_expr].
    assert (Hk : codes p p1 (flat_map list_expr kids) /\ vals_lit p1 /\ vals_small p1).
    { clear Hleaf. revert p p1 Hv Hs E1. induction kids as [|k ks IH]; intros p p1 Hv Hs E1; simpl in E1.
      - injection E1 as <-. split; [apply codes_nil; auto|auto].
      - inversion H; subst. inversion Hkids; subst.
        destruct (codeExpr p k) as [q| | |] eqn:E; simpl in E1; try discriminate.
        pose proof (H2 H4 p q Hv Hs E) as Hq. pose proof Hq as (sg & (_ & _ & Hv1 & Hs1) & _).
        destruct (IH H3 H5 q p1 Hv1 Hs1 E1) as [Hc1 Hv2].
        split; [eapply codes_app; eauto|auto]. }
    destruct Hk as (Hcode & Hv1 & Hs1). eapply codes_app; [exact Hcode|].
    apply codes_asm; auto. unfold encodes. rewrite order_op_small, op_of_num_num.
    split; [reflexivity|]. apply order_small_int_wrap.
Qed.

Lemma list_arg_length : forall a, (1 <= length (list_arg a))%nat.
Proof.
  intro a. destruct a as [| | | |e]; simpl; try lia. destruct e; simpl; try lia.
  rewrite app_length. simpl. lia.
Qed.

Lemma codeArgs_codes : forall args, Forall wf_arg args -> forall p p', vals_lit p -> vals_small p ->
  codeArgs p args = OK p' -> codes p p' (flat_map list_arg args) /\ vals_lit p' /\ vals_small p'.
Proof.
  induction args as [|a args IH]; intros HW p p' Hv Hs Hc; simpl in Hc.
  - injection Hc as <-. split; [apply codes_nil; auto|auto].
  - inversion HW; subst.
    destruct (codeVal p (valOp a) a) as [q| | |] eqn:E; simpl in Hc; try discriminate.
    assert (Hq : codes p q (list_arg a)).
    { destruct a; unfold codeVal, valOp in E; cbn [op_has_val negb pval_const] in E.
      - apply (codes_const p q OpInt (CInt z)); simpl; auto 10.
      - apply (codes_const p q OpString (CStr s)); simpl; auto 10. intros; discriminate.
      - apply (codes_const p q OpID (CName s)); simpl; auto 10. intros; discriminate.
      - apply (codes_const p q OpBounds (CSlice sl)); simpl; auto 10. intros; discriminate.
      - apply (codeExpr_codes e); auto. }
    pose proof Hq as (sg & (_ & _ & Hv1 & Hs1) & _).
    destruct (IH H2 q p' Hv1 Hs1 Hc) as [H3 H4]. split; auto. eapply codes_app; eauto.
Qed.

Lemma args_length : forall args, (length args <= length (flat_map list_arg args))%nat.
Proof.
  induction args as [|a args IH]; simpl; auto. rewrite app_length.
  pose proof (list_arg_length a). lia.
Qed.

Lemma codeStep_codes : forall s, wf_step s -> forall p p', vals_lit p -> vals_small p ->
  codeStep p s = OK p' -> codes p p' (list_body s) /\ vals_lit p' /\ vals_small p'.
Proof.
  intros s Hwf p p' Hv Hs Hc. unfold codeStep in Hc.
  destruct (codeArgs p (st_args s)) as [q| | |] eqn:E; simpl in Hc; try discriminate.
  injection Hc as <-.
  destruct (codeArgs_codes _ (wf_step_args s Hwf) p q Hv Hs E) as (Hq & Hv1 & Hs1).
  split; [|auto]. eapply codes_app; [exact Hq|]. apply codes_asm; auto. unfold encodes.
  rewrite order_op_small, op_of_num_num. split; [reflexivity|]. apply order_small_int_wrap.
Qed.

Lemma codeLoop_codes : forall s k, wf_step s -> loop_of (st_op s) = Some k ->
  forall p p', vals_lit p -> vals_small p -> codeLoop p s k = OK p' ->
  codes p p' (list_step (prog_size p) s).
Proof.
  intros s k Hwf Hk p p' Hv Hs Hc. unfold codeLoop in Hc.
  destruct (codeStep (prog_asm p (mkSmall k 0)) s) as [p2| | |] eqn:E1; simpl in Hc; try discriminate.
  injection Hc as <-.
  assert (Em0 : emits p (prog_asm p (mkSmall k 0)) [mkSmall k 0]) by (apply emits_asm; assumption).
  pose proof Em0 as (_ & Hle0 & Hv0 & Hs0).
  destruct (codeStep_codes s Hwf _ p2 Hv0 Hs0 E1) as ((body & Em & Hl & Hd) & Hv1 & Hs1).
  pose proof Em as (Ho2 & Hle & _).
  set (lpc := prog_size (prog_asm p (mkSmall k 0))) in *.
  set (p3 := prog_asm p2 (mkSmall OpRep lpc)) in *.
  assert (Hlpc : lpc = prog_size p + 1).
  { unfold lpc. rewrite (emits_size _ _ _ Em0). reflexivity. }
  assert (Hp2 : prog_size p2 = prog_size p + 1 + Z.of_nat (length body)).
  { rewrite (emits_size _ _ _ Em). fold lpc. lia. }
  assert (Hp3 : prog_size p3 = prog_size p + 2 + Z.of_nat (length body)).
  { unfold p3. rewrite (emits_size _ _ [mkSmall OpRep lpc] (emits_asm _ _ Hv1 Hs1)). simpl. lia. }
  unfold codes. exists (mkSmall k (prog_size p3) :: body ++ [mkSmall OpRep lpc]).
  assert (Hem : emits p (prog_patch p3 (prog_size p) (mkSmall k (prog_size p3)))
    (mkSmall k (prog_size p3) :: body ++ [mkSmall OpRep lpc])).
  { split; [|split].
    - unfold prog_patch, p3, prog_asm in *. cbn [p_orders] in *. rewrite Ho2.
      unfold prog_size at 1. rewrite Nat2Z.id. rewrite <- !app_assoc.
      cbn [app]. rewrite set_nth_app. reflexivity.
    - eapply vals_le_trans; [exact Hle0|]. exact Hle.
    - split; [exact Hv1|exact Hs1]. }
  unfold list_step. rewrite Hk. split; [exact Hem|]. split.
  { simpl. rewrite !app_length. simpl. lia. }
  intros Hvf. constructor; [|apply Forall2_app; [|constructor; [|constructor]]].
  - unfold encodes. rewrite order_op_small, op_of_num_num, order_pc_wrap. split; [reflexivity|].
    do 2 f_equal. lia.
  - apply Hd. exact Hvf.
  - unfold encodes. rewrite order_op_small, op_of_num_num, order_pc_wrap. split; [reflexivity|].
    do 2 f_equal. lia.
Qed.

Lemma codePathStep_codes : forall s, wf_step s -> forall p p', vals_lit p -> vals_small p ->
  codePathStep p s = OK p' -> codes p p' (list_step (prog_size p) s).
Proof.
  intros s Hwf p p' Hv Hs Hc. pose proof (wf_step_ok s Hwf) as Hok. unfold codePathStep in Hc.
  destruct (loop_of (st_op s)) as [k|] eqn:Ek.
  - eapply codeLoop_codes; eauto.
    destruct (st_op s); try discriminate Ek; simpl in Ek; injection Ek as <-; exact Hc.
  - unfold list_step. rewrite Ek. apply codeStep_codes; auto.
    destruct (st_op s); simpl in Hok; try contradiction; try discriminate Ek; exact Hc.
Qed.

Lemma codePath_codes : forall ss, wf_path ss -> forall p p', vals_lit p -> vals_small p ->
  codePath p ss = OK p' -> codes p p' (list_path (prog_size p) ss).
Proof.
  induction ss as [|s ss IH]; intros HW p p' Hv Hs Hc; simpl in Hc.
  - injection Hc as <-. apply codes_nil; auto.
  - inversion HW; subst.
    destruct (codePathStep p s) as [q| | |] eqn:E; simpl in Hc; try discriminate.
    pose proof (codePathStep_codes s H1 p q Hv Hs E) as Hq.
    pose proof Hq as (sg & Em & Hl & _). pose proof Em as (_ & _ & Hv1 & Hs1).
    cbn [list_path]. eapply codes_app; [exact Hq|].
    rewrite <- Hl, <- (emits_size _ _ _ Em). apply IH; auto.
Qed.
End decode.

Lemma compile_encodes : forall ss p, wf_path ss -> Compile ss = OK p ->
  Forall2 (encodes p) (p_orders p) (list_path 0 ss).
Proof.
  intros ss p Hwf Hc. destruct start_ok as [Hv Hs].
  destruct (codePath_codes p ss Hwf _ p Hv Hs Hc) as (seg & (Ho & _) & _ & Hd).
  simpl in Ho. subst seg. apply Hd; auto. apply vals_le_refl.
Qed.

Lemma compile_length : forall ss p, wf_path ss -> Compile ss = OK p ->
  length (p_orders p) = length (list_path 0 ss).
Proof.
  intros ss p Hwf Hc. destruct start_ok as [Hv Hs].
  destruct (codePath_codes p ss Hwf _ p Hv Hs Hc) as (seg & (Ho & _) & Hl & _).
  simpl in Ho. subst seg. exact Hl.
Qed.

(** ** Operands within a program *)
Lemma wrap23_id : forall n, wrap23 n = n <-> -4194304 <= n < 4194304.
Proof.
  intro n. unfold wrap23. pose proof (Z.mod_pos_bound (n + 4194304) 8388608 ltac:(lia)).
  split; intro H1; [lia|]. rewrite Z.mod_small by lia. lia.
Qed.

Lemma encodes_decodes : forall p ord i, 0 <= operand i ->
  encodes p ord i -> (decodes p ord i <-> operand i < 4194304).
Proof.
  intros p ord i Hi He. destruct i; simpl in *; try (split; intro; [lia|exact He]);
    destruct He as [H1 H2]; rewrite H2; split.
  - intros [_ H]. apply wrap23_id in H. lia.
  - intro H. split; auto. apply wrap23_id. lia.
  - intros [_ H]. injection H as H. apply wrap23_id in H. lia.
  - intro H. split; auto. f_equal. apply wrap23_id. lia.
  - intros [_ H]. injection H as H. apply wrap23_id in H. lia.
  - intro H. split; auto. f_equal. apply wrap23_id. lia.
Qed.

Lemma expr_operands : forall e, Forall (fun i => 0 <= operand i < Z.of_nat (length (list_expr e))) (list_expr e).
Proof.
  induction e using expr_tree_ind; cbn [list_expr]; try (constructor; [simpl; lia|constructor]).
  assert (Hl : (length kids <= length (flat_map list_expr kids))%nat).
  { clear. induction kids as [|k ks IH]; simpl; auto. rewrite app_length.
    assert (1 <= length (list_expr k))%nat.
    { destruct k; simpl; try lia. rewrite app_length. simpl. lia. }
    lia. }
  rewrite app_length. simpl. apply Forall_app. split; [|constructor; [simpl; lia|constructor]].
  apply Forall_flat_map. clear Hl. induction H; constructor.
  - eapply Forall_impl; [|exact H]. cbv beta. intros i Hi. simpl. rewrite app_length. lia.
  - eapply Forall_impl; [|exact IHForall]. cbv beta. intros y Hy. eapply Forall_impl; [|exact Hy].
    cbv beta. intros i Hi. simpl. rewrite app_length. lia.
Qed.

Lemma body_operands : forall s, Forall (fun i => 0 <= operand i < Z.of_nat (length (list_body s))) (list_body s).
Proof.
  intro s. unfold list_body. rewrite app_length. simpl. apply Forall_app.
  pose proof (args_length (st_args s)) as Hl.
  split; [|constructor; [simpl; lia|constructor]].
  apply Forall_flat_map. clear Hl. induction (st_args s) as [|a l IH]; constructor.
  - assert (Ha : Forall (fun i => 0 <= operand i < Z.of_nat (length (list_arg a))) (list_arg a)).
    { destruct a; try (constructor; [simpl; lia|constructor]). apply expr_operands. }
    eapply Forall_impl; [|exact Ha]. cbv beta. intros i Hi. simpl. rewrite app_length. lia.
  - eapply Forall_impl; [|exact IH]. cbv beta. intros y Hy. eapply Forall_impl; [|exact Hy].
    cbv beta. intros i Hi. simpl. rewrite app_length. lia.
Qed.

Lemma path_operands : forall ss at_, 0 <= at_ ->
  Forall (fun i => 0 <= operand i <= at_ + Z.of_nat (length (list_path at_ ss))) (list_path at_ ss).
Proof.
  induction ss as [|s ss IH]; intros at_ Ha; [constructor|]. cbn [list_path].
  pose proof (body_operands s) as Hb.
  rewrite app_length. apply Forall_app. split.
  - unfold list_step. destruct (loop_of (st_op s)) as [k|].
    + simpl. rewrite app_length. simpl. constructor; [simpl; lia|].
      apply Forall_app. split; [|constructor; [simpl; lia|constructor]].
      eapply Forall_impl; [|exact Hb]. cbv beta. intros i Hi. lia.
    + eapply Forall_impl; [|exact Hb]. cbv beta. intros i Hi. lia.
  - eapply Forall_impl; [|apply IH; lia]. cbv beta. intros i Hi. lia.
Qed.

Lemma compile_decodes : forall ss p, wf_path ss -> Compile ss = OK p -> prog_size p < indexTop ->
  Forall2 (decodes p) (p_orders p) (list_path 0 ss).
Proof.
  intros ss p Hwf Hc Hz. pose proof (compile_encodes ss p Hwf Hc) as He.
  pose proof (path_operands ss 0 ltac:(lia)) as Hb. unfold prog_size in Hz.
  rewrite (compile_length ss p Hwf Hc) in Hz. change indexTop with 4194304 in Hz.
  revert Hb Hz. generalize (length (list_path 0 ss)). intros n Hb Hz. clear Hc Hwf.
  induction He; constructor.
  - inversion Hb; subst. apply (encodes_decodes p x y); auto; lia.
  - inversion Hb; subst. auto.
Qed.

(** a program decodes exactly when all its operands are below 2^22 *)
Lemma compile_faithful : forall ss p, wf_path ss -> Compile ss = OK p ->
  (Forall2 (decodes p) (p_orders p) (list_path 0 ss) <->
   Forall (fun i => operand i < 4194304) (list_path 0 ss)).
Proof.
  intros ss p Hwf Hc. pose proof (compile_encodes ss p Hwf Hc) as He.
  assert (Hb : Forall (fun i => 0 <= operand i) (list_path 0 ss)).
  { eapply Forall_impl; [|apply (path_operands ss 0); lia]. cbv beta. intros. lia. }
  clear Hc Hwf. induction He; [split; constructor|].
  inversion Hb; subst. pose proof (encodes_decodes p x y H2 H) as E. specialize (IHHe H3).
  split; intro K; inversion K; subst; constructor; tauto.
Qed.

(** ** Loaded constants *)
Lemma loads_expr : forall e, flat_map load_of (list_expr e) = literals_expr e.
Proof.
  induction e using expr_tree_ind; auto. cbn [list_expr literals_expr]. rewrite flat_map_app.
  simpl. rewrite app_nil_r. induction H; simpl; auto. rewrite flat_map_app. congruence.
Qed.

Lemma loads_args : forall args, flat_map load_of (flat_map list_arg args) = flat_map literals_arg args.
Proof.
  induction args as [|a args IH]; simpl; auto. rewrite flat_map_app, IH. f_equal.
  destruct a; auto. apply loads_expr.
Qed.

Lemma loads_body : forall s, flat_map load_of (list_body s) = flat_map literals_arg (st_args s).
Proof.
  intro s. unfold list_body. rewrite flat_map_app, loads_args. simpl. apply app_nil_r.
Qed.

Lemma loads_path : forall ss at_, loaded (list_path at_ ss) = literals ss.
Proof.
  induction ss as [|s ss IH]; intro at_; auto. cbn [list_path]. unfold loaded in *.
  rewrite flat_map_app, IH. change (literals (s :: ss)) with (flat_map literals_arg (st_args s) ++ literals ss).
  f_equal. unfold list_step. destruct (loop_of (st_op s)); [|apply loads_body].
  cbn [flat_map load_of app]. rewrite flat_map_app, loads_body. simpl. apply app_nil_r.
Qed.
