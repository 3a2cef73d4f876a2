(** Properties of compiled programs (C11, C12, C16). *)
From Verif Require Import SpecSyntax SpecGrammar Machine Coder SpecDoc SpecCode SpecRun Parser Api SpecText
  TextProofs RefuteProofs Examples.
Local Open Scope Z_scope.

(** the example text *)
Definition x_path : bytes := b_of "$..a[?(@.b == 'k' && $.d > 1.5)][0,'k',8388608,8388608,1:2]".
Example x_path_ok : accepted x_text x_path (steps_of x_path) (jp_of x_path).
Proof. apply acceptedb_ok. vm_compute. reflexivity. Qed.
Example x_path_fits : fits (jp_of x_path).
Proof. vm_compute. reflexivity. Qed.

(** ** C11 *)
(** The program encodes the listing of the path order by order: where the path has a
    literal, the order does nothing but push that literal (see [encodes] and [loads]), and
    the literals loaded are those of the path, from left to right. *)
Theorem C11_constants : forall TX s ss jp, accepted TX s ss jp ->
  Forall2 (encodes (jp_prog jp)) (p_orders (jp_prog jp)) (list_path 0 ss) /\
  loaded (list_path 0 ss) = literals ss.
Proof. exact text_constants. Qed.
Print Assumptions C11_constants.

Example C11_ex : literals (steps_of x_path) =
  [VName (b_of "a"); VName (b_of "b"); VStr (b_of "k"); VName (b_of "d"); VFloat x_half; VInt64 0;
   VStr (b_of "k"); VInt64 8388608; VInt64 8388608;
   VSlice (mkSlice (Some (BInt 1)) (Some (BInt 2)) None)].
Proof. vm_compute. reflexivity. Qed.

(** The table holds the constants that do not fit in an order, in order of first
    occurrence, and each integer, float, string or name only once. *)
Theorem C11_table : forall TX s ss jp, accepted TX s ss jp ->
  table_of (filter tabled (literals ss)) (map cval_value (p_vals (jp_prog jp))) /\
  NoDup (filter shared (map cval_value (p_vals (jp_prog jp)))) /\
  Z.of_nat (length (p_vals (jp_prog jp))) <= 4194304.
Proof. exact text_table. Qed.
Print Assumptions C11_table.

Example C11_table_ex : map cval_value (p_vals (jp_prog (jp_of x_path))) =
  [VName (b_of "a"); VName (b_of "b"); VStr (b_of "k"); VName (b_of "d"); VFloat x_half; VInt64 8388608;
   VSlice (mkSlice (Some (BInt 1)) (Some (BInt 2)) None)].
Proof. vm_compute. reflexivity. Qed.

(** ** C12 *)
(** A path has an error exactly when it needs more than 2^22 table entries. *)
Theorem C12_too_many_constants : forall TX s ss t, is_bytes s -> literal_floats (o_parse_float TX) ->
  ParsePath TX s = OK ss -> table_of (filter tabled (literals ss)) t ->
  (Z.of_nat (length t) <= 4194304 <-> exists jp, JP_Compile TX s = OK jp) /\
  (Z.of_nat (length t) > 4194304 <-> JP_Compile TX s = Fail (ACompile ErrTooManyVals)).
Proof. exact text_outcome. Qed.
Print Assumptions C12_too_many_constants.

(** Every operand count and branch target is encoded faithfully exactly when each of
    them is below 2^22. *)
Theorem C12_exactly : forall TX s ss jp, accepted TX s ss jp ->
  (Forall2 (decodes (jp_prog jp)) (p_orders (jp_prog jp)) (list_path 0 ss) <->
   Forall (fun i => operand i < 4194304) (list_path 0 ss)).
Proof. exact text_faithful. Qed.
Print Assumptions C12_exactly.

(** The full statement holds of programs of fewer than 2^22 orders; missing are the larger
    programs, which Compile accepts without a check (see the refutations).  Every loop
    ends at the order after its own repetition, every repetition goes back to the order
    after its own loop. *)
Theorem C12_encodes_partial : forall TX s ss jp, accepted TX s ss jp -> fits jp ->
  Forall2 (decodes (jp_prog jp)) (p_orders (jp_prog jp)) (list_path 0 ss) /\
  forall k i, nth_error (list_path 0 ss) k = Some i ->
    match i with
    | ILoop _ exit => exists n, exit = Z.of_nat n /\ (k + 2 < n <= length (p_orders (jp_prog jp)))%nat /\
        nth_error (list_path 0 ss) (n - 1) = Some (IRep (Z.of_nat k + 1))
    | IRep top => exists n o, top = Z.of_nat n /\ (0 < n < k)%nat /\
        nth_error (list_path 0 ss) (n - 1) = Some (ILoop o (Z.of_nat k + 1))
    | _ => True
    end.
Proof. exact text_decodes. Qed.
Print Assumptions C12_encodes_partial.

Example C12_ex : list_path 0 (steps_of (b_of "$.c[?(@.b)]")) =
  [ILoad (VName (b_of "c")); IApply OpMember 1; ILoop OpFor 8; ICurrent; ILoad (VName (b_of "b"));
   IApply OpDot 2; IApply OpFilter 1; IRep 3].
Proof. vm_compute. reflexivity. Qed.

(** Every path of up to 3 MiB compiles, to a program of fewer than 2^22 orders. *)
Theorem C12_short : forall TX s ss, is_bytes s -> literal_floats (o_parse_float TX) ->
  ParsePath TX s = OK ss -> Z.of_nat (length s) <= 3145728 ->
  exists jp, JP_Compile TX s = OK jp /\ fits jp.
Proof. exact text_short. Qed.
Print Assumptions C12_short.

(** A union of 2^22 elements compiles, and its evaluation panics on every document. *)
Theorem C12_union_panics_refuted : exists s, forall TX, exists jp, JP_Compile TX s = OK jp /\
  forall W t root, JP_Eval W t jp root Panics.
Proof. exact union_panics. Qed.
Print Assumptions C12_union_panics_refuted.

(** A union of 2^23 elements compiles, and always selects nothing. *)
Theorem C12_union_empty_refuted : exists n s, Z.of_nat n = 8388608 /\ forall TX, exists jp,
  ParsePath TX s = OK [mkStep OpUnion (repeat (PInt 0) n)] /\ JP_Compile TX s = OK jp /\
  forall W t root, JP_Eval W t jp root (OK []).
Proof. exact union_empty. Qed.
Print Assumptions C12_union_empty_refuted.

(** ** C16 *)
(** The theorems are about programs of fewer than 2^22 orders; the full statement, about
    every compiled program, is refuted below. *)
(** In every state of every run the stack and the open iterations have exactly the heights
    read off the listing at the current position. *)
Theorem C16_heights_partial : forall TX s ss jp, accepted TX s ss jp -> fits jp ->
  forall W t root n m, steps W (jp_prog jp) root n (m_start t [root]) m ->
  (m_sp m <= length (m_stack m))%nat /\ exists k, m_pc m = Z.of_nat k /\
  (k <= length (list_path 0 ss))%nat /\ Z.of_nat (m_sp m) = height (firstn k (list_path 0 ss)) /\
  Z.of_nat (length (m_values m)) = open_loops (firstn k (list_path 0 ss)).
Proof. exact text_height. Qed.
Print Assumptions C16_heights_partial.

(** No order takes more values than are on the stack, or ends an iteration that is not
    there. *)
Theorem C16_no_underflow_partial : forall TX s ss jp, accepted TX s ss jp -> fits jp ->
  forall W t root n m ord, steps W (jp_prog jp) root n (m_start t [root]) m ->
  index_Z (p_orders (jp_prog jp)) (m_pc m) = Some ord ->
  exists i, decodes (jp_prog jp) ord i /\ (takes i <= m_sp m <= length (m_stack m))%nat /\
    (length (m_values m) <= 1)%nat /\
    match i with
    | ILoop _ _ => m_values m = []
    | IRep _ => m_values m <> []
    | _ => True
    end.
Proof. exact text_no_underflow. Qed.
Print Assumptions C16_no_underflow_partial.

(** Between steps (where the code of some first steps of the path ends) both are empty. *)
Theorem C16_between_steps_partial : forall TX s ss jp, accepted TX s ss jp -> fits jp ->
  forall W t root s1 s2 p1 n m, ss = s1 ++ s2 -> Compile s1 = OK p1 ->
  steps W (jp_prog jp) root n (m_start t [root]) m -> m_pc m = prog_size p1 ->
  m_sp m = 0%nat /\ m_values m = [].
Proof. exact text_boundary. Qed.
Print Assumptions C16_between_steps_partial.

(** When the program ends both are empty. *)
Theorem C16_end_partial : forall TX s ss jp, accepted TX s ss jp -> fits jp ->
  forall W t root n m, steps W (jp_prog jp) root n (m_start t [root]) m -> prog_size (jp_prog jp) <= m_pc m ->
  m_sp m = 0%nat /\ m_values m = [] /\ m_pc m = prog_size (jp_prog jp) /\ m_dot m = VNil.
Proof. exact text_final. Qed.
Print Assumptions C16_end_partial.

(** A union of 2^23 elements leaves its operands on the stack. *)
Theorem C16_refuted : exists s, forall TX, exists jp, JP_Compile TX s = OK jp /\
  forall W t root, exists n m, steps W (jp_prog jp) root n (m_start t [root]) m /\
    m_pc m = prog_size (jp_prog jp) /\ (0 < m_sp m)%nat.
Proof. exact union_leaves. Qed.
Print Assumptions C16_refuted.

(** inside the filter of $.c[?(@.b)], two values on the stack and an iteration open *)
Example C16_ex : exists m, steps x_world (jp_prog (jp_of (b_of "$.c[?(@.b)]"))) x_doc 5
    (m_start 0 [x_doc]) m /\ m_sp m = 2%nat /\ length (m_values m) = 1%nat.
Proof.
  eexists. split.
  - do 5 (eapply StOne; [vm_compute; reflexivity|vm_compute; reflexivity|vm_compute; reflexivity|]).
    apply StNone.
  - split; reflexivity.
Qed.
