(** Lemmas about the encoding of instructions (Program.v). *)
From Verif Require Import Program.
Local Open Scope Z_scope.

Lemma op_of_num_num : forall o, op_of_num (op_num o) = Some o.
Proof. destruct o; reflexivity. Qed.

Lemma op_num_range : forall o, 0 <= op_num o < 48.
Proof. destruct o; cbv; split; congruence. Qed.

Lemma op_num_inj : forall o1 o2, op_num o1 = op_num o2 -> o1 = o2.
Proof.
  intros o1 o2 H. assert (Some o1 = Some o2).
  { rewrite <- (op_of_num_num o1), <- (op_of_num_num o2), H. reflexivity. }
  congruence.
Qed.

Lemma lor_disjoint : forall a b k, 0 <= k -> 0 <= a < 2 ^ k -> Z.lor a (b * 2 ^ k) = a + b * 2 ^ k.
Proof.
  intros a b k Hk Ha.
  assert (Hland : Z.land a (b * 2 ^ k) = 0).
  { apply Z.bits_inj'. intros n Hn. rewrite Z.land_spec, Z.bits_0.
    rewrite <- Z.shiftl_mul_pow2 by lia.
    destruct (Z.lt_ge_cases n k).
    - rewrite Z.shiftl_spec_low by lia. apply andb_false_r.
    - replace (Z.testbit a n) with false; [reflexivity|].
      symmetry. destruct (Z.eq_dec a 0) as [->|Hne]; [apply Z.bits_0|].
      apply Z.bits_above_log2; [lia|].
      apply Z.log2_lt_pow2; [lia|].
      apply Z.lt_le_trans with (2 ^ k); [lia|]. apply Z.pow_le_mono_r; lia. }
  rewrite <- Z.lxor_lor by assumption. symmetry. apply Z.add_nocarry_lxor. assumption.
Qed.

Lemma land_mask : forall a k, 0 <= k -> Z.land a (Z.shiftl 1 k - 1) = a mod 2 ^ k.
Proof.
  intros. replace (Z.shiftl 1 k - 1) with (Z.ones k).
  - apply Z.land_ones. assumption.
  - rewrite Z.ones_equiv, Z.shiftl_mul_pow2 by lia. lia.
Qed.

Lemma opMask_num : forall o, Z.land (op_num o) opMask = op_num o.
Proof. destruct o; reflexivity. Qed.

Lemma mkOrder_eq : forall o i, 0 <= i < 8388608 -> mkOrder o i = op_num o + i * 512.
Proof.
  intros o i Hi. unfold mkOrder. rewrite opMask_num.
  unfold u32, indexOffset, opSize. rewrite Z.shiftl_mul_pow2 by lia.
  change (2 ^ (8 + 1)) with 512. rewrite Z.mod_small by lia.
  change 512 with (2 ^ 9). apply lor_disjoint; [lia|].
  pose proof (op_num_range o). change (2 ^ 9) with 512. lia.
Qed.

Lemma mkSmall_eq : forall o v, mkSmall o v = op_num o + 256 + (v mod 8388608) * 512.
Proof.
  intros o v. unfold mkSmall. rewrite opMask_num.
  unfold u32, indexOffset, opSize, smallFlag, indexMask.
  rewrite land_mask by (unfold indexSize; lia).
  change (2 ^ indexSize) with 8388608.
  pose proof (Z.mod_pos_bound v 8388608 ltac:(lia)) as Hm.
  pose proof (op_num_range o) as Ho.
  rewrite Z.shiftl_mul_pow2 by lia. change (2 ^ (8 + 1)) with 512.
  rewrite Z.mod_small by lia.
  rewrite (Z.lor_comm (op_num o)), <- Z.lor_assoc, Z.lor_comm.
  replace (Z.lor (op_num o) (Z.shiftl 1 opSize)) with (op_num o + 256)
    by (destruct o; reflexivity).
  change 512 with (2 ^ 9) at 1. rewrite lor_disjoint; [reflexivity|lia|].
  change (2 ^ 9) with 512. lia.
Qed.

Lemma order_op_add : forall o k, 0 <= k -> order_op (op_num o + 256 * k) = op_num o.
Proof.
  intros o k Hk. unfold order_op, opMask. rewrite land_mask by (unfold opSize; lia).
  change (2 ^ opSize) with 256. pose proof (op_num_range o).
  rewrite Z.mul_comm, Z_mod_plus_full. apply Z.mod_small. lia.
Qed.

Lemma order_op_small : forall o v, order_op (mkSmall o v) = op_num o.
Proof.
  intros. rewrite mkSmall_eq.
  pose proof (Z.mod_pos_bound v 8388608 ltac:(lia)).
  replace (op_num o + 256 + v mod 8388608 * 512)
    with (op_num o + 256 * (1 + 2 * (v mod 8388608))) by lia.
  apply order_op_add. lia.
Qed.

Lemma order_op_order : forall o i, 0 <= i < 8388608 -> order_op (mkOrder o i) = op_num o.
Proof.
  intros. rewrite mkOrder_eq by assumption.
  replace (op_num o + i * 512) with (op_num o + 256 * (2 * i)) by lia.
  apply order_op_add. lia.
Qed.

Lemma order_flag : forall o b i, 0 <= i -> (b = 0 \/ b = 1) ->
  order_is_small (op_num o + 256 * b + i * 512) = (b =? 1).
Proof.
  intros o b i Hi Hb. unfold order_is_small, smallFlag, opSize.
  replace (Z.land (op_num o + 256 * b + i * 512) (Z.shiftl 1 8)) with (256 * b).
  - destruct Hb; subst; reflexivity.
  - pose proof (op_num_range o).
    replace (op_num o + 256 * b + i * 512) with (op_num o + (b + i * 2) * 2 ^ 8)
      by (change (2^8) with 256; lia).
    rewrite <- lor_disjoint by (change (2^8) with 256; lia).
    rewrite Z.land_lor_distr_l.
    replace (Z.land (op_num o) (Z.shiftl 1 8)) with 0 by (destruct o; reflexivity).
    rewrite Z.lor_0_l. rewrite <- Z.shiftl_mul_pow2 by lia.
    rewrite <- Z.shiftl_land.
    replace (Z.land (b + i * 2) 1) with b.
    + rewrite Z.shiftl_mul_pow2 by lia. change (2^8) with 256. lia.
    + change 1 with (Z.ones 1). rewrite Z.land_ones by lia. change (2^1) with 2.
      rewrite Z_mod_plus_full. destruct Hb; subst; reflexivity.
Qed.

Lemma small_is_small : forall o v, order_is_small (mkSmall o v) = true.
Proof.
  intros. rewrite mkSmall_eq.
  pose proof (Z.mod_pos_bound v 8388608 ltac:(lia)).
  change 256 with (256 * 1). rewrite order_flag; [reflexivity| lia | auto].
Qed.

Lemma order_not_small : forall o i, 0 <= i < 8388608 -> order_is_small (mkOrder o i) = false.
Proof.
  intros. rewrite mkOrder_eq by assumption.
  replace (op_num o + i * 512) with (op_num o + 256 * 0 + i * 512) by lia.
  rewrite order_flag; [reflexivity| lia | auto].
Qed.

Lemma order_index_order : forall o i, 0 <= i < 8388608 -> order_index (mkOrder o i) = Some i.
Proof.
  intros. unfold order_index. rewrite order_not_small by assumption.
  rewrite mkOrder_eq by assumption. f_equal.
  unfold indexOffset, opSize. rewrite Z.shiftr_div_pow2 by lia.
  change (2 ^ (8 + 1)) with 512. pose proof (op_num_range o).
  rewrite Z.div_add by lia. rewrite Z.div_small by lia. lia.
Qed.

Lemma isSmallInt_range : forall v, isSmallInt v = true <-> -4194304 <= v < 4194304.
Proof.
  intro v. unfold isSmallInt. change indexTop with 4194304.
  rewrite andb_true_iff, !Z.leb_le. lia.
Qed.

Lemma order_small_int_small : forall o v, isSmallInt v = true ->
  order_small_int (mkSmall o v) = v.
Proof.
  intros o v Hv. apply isSmallInt_range in Hv. unfold order_small_int.
  rewrite mkSmall_eq. unfold i32, indexOffset, opSize.
  pose proof (op_num_range o).
  rewrite Z.shiftr_div_pow2 by lia. change (2 ^ (8 + 1)) with 512.
  destruct (Z.lt_ge_cases v 0).
  - replace (v mod 8388608) with (v + 8388608).
    2:{ apply Z.mod_unique with (-1); lia. }
    destruct (Z.ltb_spec (op_num o + 256 + (v + 8388608) * 512) 2147483648); [lia|].
    replace (op_num o + 256 + (v + 8388608) * 512 - 4294967296)
      with (op_num o + 256 + v * 512) by lia.
    rewrite Z.div_add by lia. rewrite Z.div_small by lia. lia.
  - rewrite (Z.mod_small v) by lia.
    destruct (Z.ltb_spec (op_num o + 256 + v * 512) 2147483648); [|lia].
    rewrite Z.div_add by lia. rewrite Z.div_small by lia. lia.
Qed.

(** in general the operand comes back modulo 2^23, into the signed 23-bit range *)
Lemma order_small_int_wrap : forall o v,
  order_small_int (mkSmall o v) = (v + 4194304) mod 8388608 - 4194304.
Proof.
  intros o v. set (u := (v + 4194304) mod 8388608 - 4194304).
  assert (Hu : -4194304 <= u < 4194304).
  { unfold u. pose proof (Z.mod_pos_bound (v + 4194304) 8388608 ltac:(lia)). lia. }
  assert (mkSmall o v = mkSmall o u).
  { rewrite !mkSmall_eq. f_equal. f_equal. unfold u.
    rewrite Zminus_mod_idemp_l. f_equal. lia. }
  rewrite H. apply order_small_int_small. apply isSmallInt_range. assumption.
Qed.

Lemma order_pc_small : forall o v, isSmallInt v = true -> order_pc (mkSmall o v) = Some v.
Proof.
  intros. unfold order_pc. rewrite small_is_small.
  rewrite order_small_int_small by assumption. reflexivity.
Qed.

Lemma mkSmall_u32 : forall o v, 0 <= mkSmall o v < 4294967296.
Proof.
  intros. rewrite mkSmall_eq. pose proof (Z.mod_pos_bound v 8388608 ltac:(lia)).
  pose proof (op_num_range o). lia.
Qed.

Lemma mkOrder_u32 : forall o i, 0 <= i < 8388608 -> 0 <= mkOrder o i < 4294967296.
Proof.
  intros. rewrite mkOrder_eq by assumption. pose proof (op_num_range o). lia.
Qed.

Lemma small_order_lossless : forall o v, -4194304 <= v < 4194304 ->
  0 <= mkSmall o v < 4294967296 /\
  op_of_num (order_op (mkSmall o v)) = Some o /\
  order_is_small (mkSmall o v) = true /\
  order_index (mkSmall o v) = None /\
  order_small_int (mkSmall o v) = v /\
  order_pc (mkSmall o v) = Some v.
Proof.
  intros o v Hv. assert (isSmallInt v = true) by (apply isSmallInt_range; assumption).
  split; [apply mkSmall_u32|].
  rewrite order_op_small, op_of_num_num, small_is_small, order_small_int_small by assumption.
  unfold order_index. rewrite small_is_small, order_pc_small by assumption. auto.
Qed.

Lemma index_order_lossless : forall o i, 0 <= i < 4194304 ->
  0 <= mkOrder o i < 4294967296 /\
  op_of_num (order_op (mkOrder o i)) = Some o /\
  order_is_small (mkOrder o i) = false /\
  order_index (mkOrder o i) = Some i /\
  order_pc (mkOrder o i) = None.
Proof.
  intros o i Hi. split; [apply mkOrder_u32; lia|].
  rewrite order_op_order, op_of_num_num, order_not_small, order_index_order by lia.
  unfold order_pc. rewrite order_not_small by lia. auto.
Qed.

Lemma order_injective :
  (forall o v o' v', -4194304 <= v < 4194304 -> -4194304 <= v' < 4194304 ->
     mkSmall o v = mkSmall o' v' -> o = o' /\ v = v') /\
  (forall o i o' i', 0 <= i < 4194304 -> 0 <= i' < 4194304 ->
     mkOrder o i = mkOrder o' i' -> o = o' /\ i = i') /\
  (forall o v o' i, 0 <= i < 4194304 -> mkSmall o v <> mkOrder o' i).
Proof.
  split; [|split].
  - intros o v o' v' Hv Hv' H.
    destruct (small_order_lossless o v Hv) as (_ & A & _ & _ & B & _).
    destruct (small_order_lossless o' v' Hv') as (_ & A' & _ & _ & B' & _).
    rewrite H in A, B. split; congruence.
  - intros o v o' v' Hv Hv' H.
    destruct (index_order_lossless o v Hv) as (_ & A & _ & B & _).
    destruct (index_order_lossless o' v' Hv') as (_ & A' & _ & B' & _).
    rewrite H in A, B. split; congruence.
  - intros o v o' i Hi H. pose proof (small_is_small o v) as A.
    destruct (index_order_lossless o' i Hi) as (_ & _ & B & _). congruence.
Qed.
