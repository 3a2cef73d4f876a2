(** A path so long that the exit of its last loop is encoded as a backward branch. *)
From Verif Require Import SpecSyntax Machine Coder ProgramProofs StackProofs MachineProofs CoderProofs SpecCode
  CodeProofs TableProofs SpecGrammar SpecPrint PrintProofs Api.
Local Open Scope Z_scope.

(** $[0][0]...[0][?(1)] with [n] subscripts *)
Definition zero_step : pstep := mkStep OpSelect [PInt 0].
Definition one_filter : pstep := mkStep OpFilter [PExpr (EInt 1)].
Definition deep (n : nat) : path := repeat zero_step n ++ [one_filter].

Lemma wf_deep : forall n, wf_path (deep n).
Proof.
  intro n. apply Forall_app. split.
  - apply Forall_forall. intros x Hx. apply repeat_spec in Hx. subst. apply WfSelect. constructor. constructor.
    unfold in_int64, min_int64, max_int64. lia.
  - constructor; [|constructor]. apply WfFilter. constructor. unfold in_int64, min_int64, max_int64. lia.
Qed.

Lemma writable_deep : forall ft tf re n, writable_path ft tf re (deep n).
Proof.
  intros ft tf re n. apply Forall_app. split.
  - apply Forall_forall. intros x Hx. apply repeat_spec in Hx. subst. apply WrSelect. constructor. unfold path_int. lia.
  - constructor; [|constructor]. apply WrFilter. constructor. lia.
Qed.

Lemma deep_literals : forall n, literals (deep n) = repeat (VInt64 0) n ++ [VInt64 1].
Proof.
  intro n. unfold literals, deep. rewrite flat_map_app. f_equal.
  induction n as [|n IH]; [reflexivity|]. cbn [repeat flat_map]. rewrite IH. reflexivity.
Qed.

Lemma compile_deep : forall n, exists p, Compile (deep n) = OK p.
Proof.
  intro n. apply (compile_outcome (deep n) [] (wf_deep n)); [|simpl; lia].
  rewrite deep_literals.
  assert (E : filter tabled (repeat (VInt64 0) n ++ [VInt64 1]) = []).
  { rewrite filter_app. simpl. rewrite app_nil_r. induction n as [|n IH]; [reflexivity|]. simpl. exact IH. }
  rewrite E. constructor.
Qed.

Definition pair : list instr := [ILoad (VInt64 0); IApply OpSelect 1].
Definition tail (n : nat) : list instr :=
  [ILoop OpFor (2 * Z.of_nat n + 4); ILoad (VInt64 1); IApply OpFilter 1; IRep (2 * Z.of_nat n + 1)].

Lemma deep_listing : forall n at_, list_path at_ (deep n) =
  concat (repeat pair n) ++ list_path (at_ + 2 * Z.of_nat n) [one_filter].
Proof.
  induction n as [|n IH]; intro at_.
  - change (deep 0) with [one_filter]. cbn [repeat concat app]. f_equal. lia.
  - change (deep (S n)) with (zero_step :: deep n). cbn [list_path repeat concat].
    change (list_step at_ zero_step) with pair. rewrite IH, <- app_assoc. cbn [list_path].
    replace (at_ + Z.of_nat (length pair) + 2 * Z.of_nat n) with (at_ + 2 * Z.of_nat (S n)) by (simpl length; lia).
    reflexivity.
Qed.

Lemma deep_list : forall n, list_path 0 (deep n) = concat (repeat pair n) ++ tail n.
Proof.
  intro n. rewrite deep_listing. f_equal. unfold tail.
  change (list_path (0 + 2 * Z.of_nat n) [one_filter]) with
    [ILoop OpFor (0 + 2 * Z.of_nat n + 2 + 2); ILoad (VInt64 1); IApply OpFilter 1; IRep (0 + 2 * Z.of_nat n + 1)].
  replace (0 + 2 * Z.of_nat n + 2 + 2) with (2 * Z.of_nat n + 4) by lia.
  replace (0 + 2 * Z.of_nat n + 1) with (2 * Z.of_nat n + 1) by lia. reflexivity.
Qed.

Lemma pairs_length : forall n, length (concat (repeat pair n)) = (2 * n)%nat.
Proof. induction n; simpl; lia. Qed.

Lemma pairs_nth : forall n j, (j < n)%nat ->
  nth_error (concat (repeat pair n)) (2 * j) = Some (ILoad (VInt64 0)) /\
  nth_error (concat (repeat pair n)) (2 * j + 1) = Some (IApply OpSelect 1).
Proof.
  induction n as [|n IH]; intros j Hj; [lia|]. cbn [repeat concat].
  destruct j as [|j]; [split; reflexivity|].
  replace (2 * S j)%nat with (S (S (2 * j)))%nat by lia. apply IH. lia.
Qed.

Section run.
Variable W : world.
Variable t : nat.
Variable n : nat.
Variable p : program.
Hypothesis Hc : Compile (deep n) = OK p.
Hypothesis Hn : wrap23 (2 * Z.of_nat n + 4) = 4.
Hypothesis Hn2 : (2 <= n)%nat.

Lemma order_at : forall k i, nth_error (list_path 0 (deep n)) k = Some i ->
  exists ord, index_Z (p_orders p) (Z.of_nat k) = Some ord /\ encodes p ord i.
Proof.
  intros k i H. pose proof (compile_encodes _ _ (wf_deep n) Hc) as He.
  unfold index_Z. destruct (Z.ltb_spec (Z.of_nat k) 0); [lia|]. rewrite Nat2Z.id.
  clear H0. revert k H. induction He; intros k H1; destruct k; simpl in H1; try discriminate.
  - injection H1 as ->. exists x. auto.
  - apply IHHe. exact H1.
Qed.

(** nothing is selected, and the stack is empty or holds the next subscript *)
Definition idling (m : mstate) : Prop :=
  exists j out, (out = Some [] \/ (out = Some [VNil] /\ j = 0%nat)) /\
  (((j <= n)%nat /\ is_state m out VNil [] (2 * Z.of_nat j) [] t) \/
   ((j < n)%nat /\ is_state m out VNil [VInt64 0] (2 * Z.of_nat j + 1) [] t)).

Lemma psize : prog_size p = 2 * Z.of_nat n + 4.
Proof.
  unfold prog_size. rewrite (compile_length _ _ (wf_deep n) Hc), deep_list, app_length, pairs_length. simpl length. lia.
Qed.

Lemma idling_step : forall m, idling m -> m_pc m < prog_size p /\
  exists ord m', index_Z (p_orders p) (m_pc m) = Some ord /\
    exec W p VNil ord (set_pc m (m_pc m + 1)) = OK m' /\ idling m'.
Proof.
  intros m (j & out & Hout & Hm). rewrite psize. destruct Hm as [[Hj Hm]|[Hj Hm]].
  - pose proof (state_pc _ _ _ _ _ _ _ Hm) as Hpc. rewrite Hpc. split; [lia|].
    destruct (Nat.eq_dec j n) as [->|Hne].
    + destruct (order_at (2 * n) (ILoop OpFor (2 * Z.of_nat n + 4))) as (ord & Ho & He & Ht).
      { rewrite deep_list, nth_error_app2 by (rewrite pairs_length; lia). rewrite pairs_length, Nat.sub_diag. reflexivity. }
      replace (Z.of_nat (2 * n)) with (2 * Z.of_nat n) in Ho by lia.
      exists ord. rewrite Hn in Ht. eexists. split; [exact Ho|].
      unfold exec. rewrite He, Ht. unfold looptop.
      assert (Ho0 : out = Some []) by (destruct Hout as [Ho0|[_ Ho0]]; [exact Ho0|lia]).
      cbn [m_out set_pc]. rewrite (state_out _ _ _ _ _ _ _ Hm), Ho0. cbn [g_list]. unfold branch.
      rewrite psize. replace ((4 <=? 0) || (4 >? 2 * Z.of_nat n + 4)) with false by lia.
      split; [reflexivity|]. exists 2%nat, out. split; [auto|]. left. split; [lia|].
      eapply set_pc_state. eapply set_pc_state. exact Hm.
    + destruct (order_at (2 * j) (ILoad (VInt64 0))) as (ord & Ho & He).
      { rewrite deep_list, nth_error_app1 by (rewrite pairs_length; lia). apply pairs_nth. lia. }
      replace (Z.of_nat (2 * j)) with (2 * Z.of_nat j) in Ho by lia.
      exists ord. eexists. split; [exact Ho|]. simpl in He. split; [apply He|].
      exists j, out. split; [exact Hout|]. right. split; [lia|].
      apply (push_state _ _ _ [] _ _ _ (VInt64 0)). eapply set_pc_state. exact Hm.
  - pose proof (state_pc _ _ _ _ _ _ _ Hm) as Hpc. rewrite Hpc. split; [lia|].
    destruct (order_at (2 * j + 1) (IApply OpSelect 1)) as (ord & Ho & He & _).
    { rewrite deep_list, nth_error_app1 by (rewrite pairs_length; lia). apply pairs_nth. lia. }
    replace (Z.of_nat (2 * j + 1)) with (2 * Z.of_nat j + 1) in Ho by lia.
    exists ord. pose proof (set_pc_state _ _ _ _ _ _ _ (2 * Z.of_nat j + 1 + 1) Hm) as Hm1.
    destruct (pop_state _ _ _ [] _ _ _ _ Hm1) as (m2 & E & Hm2).
    eexists. split; [exact Ho|]. unfold exec. rewrite He, E. cbn [obind isNothing].
    rewrite (state_out _ _ _ _ _ _ _ Hm2).
    split.
    + unfold applySelection. destruct Hout as [-> | [-> _]]; cbn [g_list applySelection_loop valsByKey obind]; reflexivity.
    + exists (S j), (Some []). split; [auto|]. left. split; [lia|].
      rewrite (state_tick _ _ _ _ _ _ _ Hm2). apply set_tick_state with (t := t). eapply set_out_state.
      replace (2 * Z.of_nat (S j)) with (2 * Z.of_nat j + 1 + 1) by lia. exact Hm2.
Qed.

Lemma idling_forever : forall fuel m, idling m -> run_loop fuel W p VNil m = OutOfFuel.
Proof.
  induction fuel as [|fuel IH]; intros m Hm; destruct (idling_step m Hm) as (Hlt & ord & m' & Ho & He & Hm');
    cbn [run_loop]; rewrite (proj2 (Z.ltb_lt _ _) Hlt); [reflexivity|].
  rewrite Ho, He. cbn [obind]. apply IH. exact Hm'.
Qed.

Lemma deep_endless : forall fuel, Run fuel W t p VNil = OutOfFuel.
Proof.
  intro fuel. unfold Run. rewrite idling_forever; [reflexivity|].
  exists 0%nat, (Some [VNil]). split; [auto|]. left. split; [lia|]. apply is_state_init.
Qed.
End run.
