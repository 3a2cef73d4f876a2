(** What one order of the machine does with the operands on its stack: the observations the
    properties of operators and functions are about. *)
From Verif Require Import Syntax Value Program Machine.
Local Open Scope Z_scope.

(** the values on the stack, top last *)
Definition on_stack (m : mstate) (vs : list val) : Prop :=
  (m_sp m <= length (m_stack m))%nat /\ firstn (m_sp m) (m_stack m) = vs.

(** [operates W t o vs r]: executing an order with the operator [o] and operand count
    [length vs], in any program and any state with the operands [vs] on top of other values,
    replaces them by the value in [r], or fails with the error in [r], and changes nothing
    else; [t] and the number in [r] count ranges over maps *)
Definition operates (W : world) (t : nat) (o : op) (vs : list val) (r : M (val * nat)) : Prop :=
  forall p root ord m s, op_of_num (order_op ord) = Some o -> order_small_int ord = Z.of_nat (length vs) ->
  on_stack m (s ++ vs) -> m_tick m = t ->
  match r with
  | OK (v, t') => exists m', exec W p root ord m = OK m' /\ on_stack m' (s ++ [v]) /\
      m_out m' = m_out m /\ m_dot m' = m_dot m /\ m_pc m' = m_pc m /\ m_values m' = m_values m /\ m_tick m' = t'
  | Fail e => exec W p root ord m = Fail e
  | Panics => exec W p root ord m = Panics
  | OutOfFuel => False
  end.

(** the operands give a value, or an error, without any range over a map *)
Definition computes (W : world) (o : op) (vs : list val) (v : val) : Prop :=
  forall t, operates W t o vs (OK (v, t)).
Definition raises (W : world) (o : op) (vs : list val) (e : rerr) : Prop :=
  forall t, operates W t o vs (Fail e).

(** a function call: the name is the first operand *)
Definition calls (W : world) (f : string) (args : list val) (v : val) : Prop :=
  computes W OpCall (VName (b_of f) :: args) v.

(** x.length *)
Definition dot_length (W : world) (x : val) (v : val) : Prop := computes W OpDot [x; VName (b_of "length")] v.
