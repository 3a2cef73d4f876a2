(** Properties of the instruction encoding. *)
From Verif Require Import Program ProgramProofs.
Local Open Scope Z_scope.

(** C10: an order carrying a signed operand gives back operator, kind and operand. *)
Theorem C10_small_order : forall o v, -4194304 <= v < 4194304 ->
  0 <= mkSmall o v < 4294967296 /\
  op_of_num (order_op (mkSmall o v)) = Some o /\
  order_is_small (mkSmall o v) = true /\
  order_index (mkSmall o v) = None /\
  order_small_int (mkSmall o v) = v /\
  order_pc (mkSmall o v) = Some v.
Proof. exact small_order_lossless. Qed.
Print Assumptions C10_small_order.

Example C10_small_order_ex : order_small_int (mkSmall OpNest (-4194304)) = -4194304.
Proof. reflexivity. Qed.

(** C10: an order carrying the index of a constant gives back operator, kind and index. *)
Theorem C10_index_order : forall o i, 0 <= i < 4194304 ->
  0 <= mkOrder o i < 4294967296 /\
  op_of_num (order_op (mkOrder o i)) = Some o /\
  order_is_small (mkOrder o i) = false /\
  order_index (mkOrder o i) = Some i /\
  order_pc (mkOrder o i) = None.
Proof. exact index_order_lossless. Qed.
Print Assumptions C10_index_order.

Example C10_index_order_ex : order_index (mkOrder OpNot 4194303) = Some 4194303.
Proof. reflexivity. Qed.

(** C10: different contents give different orders. *)
Theorem C10_order_injective :
  (forall o v o' v', -4194304 <= v < 4194304 -> -4194304 <= v' < 4194304 ->
     mkSmall o v = mkSmall o' v' -> o = o' /\ v = v') /\
  (forall o i o' i', 0 <= i < 4194304 -> 0 <= i' < 4194304 ->
     mkOrder o i = mkOrder o' i' -> o = o' /\ i = i') /\
  (forall o v o' i, 0 <= i < 4194304 -> mkSmall o v <> mkOrder o' i).
Proof. exact order_injective. Qed.
Print Assumptions C10_order_injective.
