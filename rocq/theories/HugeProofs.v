(** Paths too large for their operand counts to be encoded. *)
From Verif Require Import SpecSyntax Machine Coder ProgramProofs StackProofs MachineProofs SpecCode SpecGrammar SpecPrint
  PrintProofs Api.
Local Open Scope Z_scope.

(** $[0,0,...,0] with [n] zeros *)
Definition zeros (n : nat) : path := [mkStep OpUnion (repeat (PInt 0) n)].

Definition zeros_prog (n : nat) : program :=
  mkProg [] (repeat (mkSmall OpInt 0) n ++ [mkSmall OpUnion (Z.of_nat n)]).

Lemma codeArgs_zeros : forall n os, codeArgs (mkProg [] os) (repeat (PInt 0) n) =
  OK (mkProg [] (os ++ repeat (mkSmall OpInt 0) n)).
Proof.
  induction n as [|n IH]; intro os; cbn [repeat codeArgs].
  - rewrite app_nil_r. reflexivity.
  - change (codeVal (mkProg [] os) (valOp (PInt 0)) (PInt 0)) with
      (@OK cerr program (mkProg [] (os ++ [mkSmall OpInt 0]))).
    cbn [obind]. rewrite IH, <- app_assoc. reflexivity.
Qed.

Lemma compile_zeros : forall n, Compile (zeros n) = OK (zeros_prog n).
Proof.
  intro n. unfold Compile, zeros. cbn [codePath]. unfold codePathStep. cbn [st_op op_is_leaf op_has_val andb].
  unfold codeStep. cbn [st_args st_op]. rewrite codeArgs_zeros. cbn [obind]. rewrite repeat_length. reflexivity.
Qed.

Lemma wf_zeros : forall n, (2 <= n)%nat -> wf_path (zeros n).
Proof.
  intros n Hn. constructor; [|constructor]. apply WfUnion; [rewrite repeat_length; auto|].
  apply Forall_forall. intros x Hx. apply repeat_spec in Hx. subst. constructor.
  unfold in_int64, min_int64, max_int64. lia.
Qed.

Lemma writable_zeros : forall ft tf re n, (2 <= n)%nat -> writable_path ft tf re (zeros n).
Proof.
  intros ft tf re n Hn. constructor; [|constructor]. apply WrUnion; [rewrite repeat_length; auto|].
  apply Forall_forall. intros x Hx. apply repeat_spec in Hx. subst. constructor. unfold path_int. lia.
Qed.

Section run.
Variable W : world.
Variable root : val.
Variable n : nat.

Lemma zeros_reach : forall k t, (k <= n)%nat ->
  exists m, reach W (zeros_prog n) root k (m_init t root) m /\
    is_state m (Some [root]) VNil (repeat (VInt64 0) k) (Z.of_nat k) [] t.
Proof.
  induction k as [|k IH]; intros t Hk.
  - exists (m_init t root). split; [constructor|apply is_state_init].
  - destruct (IH t ltac:(lia)) as (m & Hr & Hm). pose proof (state_pc _ _ _ _ _ _ _ Hm) as Hpc.
    exists (push (VInt64 0) (set_pc m (m_pc m + 1))). split.
    + replace (S k) with (k + 1)%nat by lia. eapply reach_trans; [exact Hr|].
      eapply reach_S; [| |constructor].
      * rewrite Hpc. unfold prog_size, zeros_prog. simpl. rewrite app_length, repeat_length. simpl. lia.
      * unfold step_m. rewrite Hpc. unfold index_Z. destruct (Z.ltb_spec (Z.of_nat k) 0); [lia|].
        rewrite Nat2Z.id. cbn [p_orders zeros_prog].
        rewrite nth_error_app1 by (rewrite repeat_length; lia).
        assert (E : nth_error (repeat (mkSmall OpInt 0) n) k = Some (mkSmall OpInt 0)).
        { assert (Hn : nth_error (repeat (mkSmall OpInt 0) n) k <> None)
            by (apply nth_error_Some; rewrite repeat_length; lia).
          destruct (nth_error (repeat (mkSmall OpInt 0) n) k) eqn:E; [|congruence].
          apply nth_error_In in E. apply repeat_spec in E. congruence. }
        rewrite E. reflexivity.
    + rewrite Hpc. replace (Z.of_nat (S k)) with (Z.of_nat k + 1) by lia.
      replace (repeat (VInt64 0) (S k)) with (repeat (VInt64 0) k ++ [VInt64 0]).
      * apply push_state. eapply set_pc_state. exact Hm.
      * rewrite <- repeat_cons. reflexivity.
Qed.

Lemma zeros_last : forall t, exists m, is_state m (Some [root]) VNil (repeat (VInt64 0) n) (Z.of_nat n) [] t /\
  forall f, run_loop (n + S f) W (zeros_prog n) root (m_init t root) =
    let! m' := exec W (zeros_prog n) root (mkSmall OpUnion (Z.of_nat n)) (set_pc m (Z.of_nat n + 1)) in
    run_loop f W (zeros_prog n) root m'.
Proof.
  intro t. destruct (zeros_reach n t ltac:(lia)) as (m & Hr & Hm). exists m. split; [exact Hm|].
  intro f. rewrite (run_reach _ _ _ _ _ _ Hr). pose proof (state_pc _ _ _ _ _ _ _ Hm) as Hpc.
  rewrite run_loop_S.
  - unfold step_m. rewrite Hpc. unfold index_Z. destruct (Z.ltb_spec (Z.of_nat n) 0); [lia|].
    rewrite Nat2Z.id. cbn [p_orders zeros_prog].
    rewrite nth_error_app2 by (rewrite repeat_length; lia). rewrite repeat_length, Nat.sub_diag. reflexivity.
  - rewrite Hpc. unfold prog_size, zeros_prog. simpl. rewrite app_length, repeat_length. simpl. lia.
Qed.

Lemma union_order : order_op (mkSmall OpUnion (Z.of_nat n)) = op_num OpUnion.
Proof. apply order_op_small. Qed.

Lemma zeros_panic : forall t, wrap23 (Z.of_nat n) < 0 ->
  exists fuel, Run fuel W t (zeros_prog n) root = Panics.
Proof.
  intros t Hw. destruct (zeros_last t) as (m & Hm & Hrun). exists (n + 1)%nat. unfold Run.
  rewrite Hrun. unfold exec. rewrite union_order, op_of_num_num, order_small_int_wrap.
  unfold wrap23 in Hw. unfold popN.
  destruct (Z.of_nat (m_sp (set_pc m (Z.of_nat n + 1))) <? (Z.of_nat n + 4194304) mod 8388608 - 4194304); [reflexivity|].
  destruct (Z.ltb_spec ((Z.of_nat n + 4194304) mod 8388608 - 4194304) 0); [reflexivity|lia].
Qed.

Lemma zeros_empty : forall t, wrap23 (Z.of_nat n) = 0 ->
  exists fuel, Run fuel W t (zeros_prog n) root = OK [].
Proof.
  intros t Hw. destruct (zeros_last t) as (m & Hm & Hrun). exists (n + 1)%nat. unfold Run.
  rewrite Hrun. unfold exec. rewrite union_order, op_of_num_num, order_small_int_wrap.
  unfold wrap23 in Hw. rewrite Hw.
  assert (Hs : is_state (set_pc m (Z.of_nat n + 1)) (Some [root]) VNil (repeat (VInt64 0) n ++ []) (Z.of_nat n + 1) [] t).
  { rewrite app_nil_r. eapply set_pc_state. exact Hm. }
  destruct (popN_state _ _ _ _ _ 0 _ _ _ Hs eq_refl) as (m1 & E & Hm1). rewrite E. cbn [obind].
  rewrite (state_out _ _ _ _ _ _ _ Hm1). cbn [applySelection applySelection_loop g_list unionVals obind].
  unfold applySelection. cbn [g_list applySelection_loop unionVals obind].
  match goal with |- (let! m0 := run_loop 0 W _ root ?s in _) = _ =>
    assert (Hpc : m_pc s = Z.of_nat n + 1) by (simpl; apply (state_pc _ _ _ _ _ _ _ Hm1)) end.
  cbn [run_loop]. rewrite Hpc. unfold prog_size, zeros_prog. cbn [p_orders]. rewrite app_length, repeat_length.
  cbn [length]. destruct (Z.ltb_spec (Z.of_nat n + 1) (Z.of_nat (n + 1))); [lia|]. reflexivity.
Qed.

(** the values that the union does not take stay on the stack *)
Lemma zeros_left : forall t, wrap23 (Z.of_nat n) = 0 ->
  exists m, reach W (zeros_prog n) root (n + 1) (m_init t root) m /\
    m_pc m = prog_size (zeros_prog n) /\ m_sp m = n.
Proof.
  intros t Hw. destruct (zeros_reach n t ltac:(lia)) as (m & Hr & Hm).
  pose proof (state_pc _ _ _ _ _ _ _ Hm) as Hpc.
  assert (Hs : is_state (set_pc m (Z.of_nat n + 1)) (Some [root]) VNil (repeat (VInt64 0) n ++ []) (Z.of_nat n + 1) [] t).
  { rewrite app_nil_r. eapply set_pc_state. exact Hm. }
  destruct (popN_state _ _ _ _ _ 0 _ _ _ Hs eq_refl) as (m1 & E & Hm1).
  exists (set_out m1 (Some [])). split.
  - eapply reach_trans; [exact Hr|]. eapply reach_S; [| |apply reach_O].
    + rewrite Hpc. unfold prog_size, zeros_prog. simpl. rewrite app_length, repeat_length. simpl. lia.
    + unfold step_m. rewrite Hpc. unfold index_Z. destruct (Z.ltb_spec (Z.of_nat n) 0); [lia|].
      rewrite Nat2Z.id. cbn [p_orders zeros_prog].
      rewrite nth_error_app2 by (rewrite repeat_length; lia). rewrite repeat_length, Nat.sub_diag.
      cbn [nth_error]. unfold exec. rewrite union_order, op_of_num_num, order_small_int_wrap.
      unfold wrap23 in Hw. rewrite Hw, E. cbn [obind]. rewrite (state_out _ _ _ _ _ _ _ Hm1).
      unfold applySelection. cbn [g_list applySelection_loop unionVals obind]. reflexivity.
  - split.
    + cbn [m_pc set_out]. rewrite (state_pc _ _ _ _ _ _ _ Hm1). unfold prog_size, zeros_prog.
      cbn [p_orders]. rewrite app_length, repeat_length. cbn [length]. lia.
    + cbn [m_sp set_out]. destruct Hm1 as (Hok & Hst & _). unfold stk_ok, stk in *.
      apply (f_equal (@length _)) in Hst. rewrite firstn_length, repeat_length in Hst. lia.
Qed.
End run.
