(** What a traced run writes: property C105. *)
From Verif Require Import Base Value Program Listing Machine Coder Api SpecRun SpecText SpecCliText SpecDoc SpecTrace Trace TraceProofs Examples.
Local Open Scope Z_scope.

(** ** C105 *)
(** Tracing has no influence on the result. *)
Theorem C105_result : forall E fuel W t p root, snd (Run_traced E fuel W t p root) = Run fuel W t p root.
Proof. exact Run_traced_same. Qed.
Print Assumptions C105_result.

(** A value is shown on one line, and as the encoder writes it if it writes one line, whether it ends
    it or not. *)
Theorem C105_flat : forall E v, (forall e, E v = inr e -> ~ In 10 e) -> ~ In 10 (jsonString E v).
Proof. exact flat_ok. Qed.
Print Assumptions C105_flat.
Theorem C105_exact : forall E v r, E v = inl (r ++ [10]) \/ E v = inl r -> ~ In 10 r -> jsonString E v = r.
Proof. exact flat_same. Qed.
Print Assumptions C105_exact.

(** There are three lines for each order that is executed, and none for one that fails. *)
Theorem C105_lines : forall E fuel W t p root text r, quiet E -> Run_traced E fuel W t p root = (text, r) -> r <> OutOfFuel ->
  exists n m, steps W p root n (m_start t [root]) m /\ stops W p root m /\ newlines text = 3 * Z.of_nat n.
Proof. exact Run_traced_lines. Qed.
Print Assumptions C105_lines.

(** The lines of the k-th order name its operator, and list the results and the stack after it. *)
Theorem C105_order : forall E fuel W t p root text r, quiet E -> Run_traced E fuel W t p root = (text, r) -> r <> OutOfFuel ->
  forall k m ord m', steps W p root k (m_start t [root]) m -> m_pc m < prog_size p -> index_Z (p_orders p) (m_pc m) = Some ord ->
  exec W p root ord (set_pc m (m_pc m + 1)) = OK m' ->
  exists a b, newlines a = 3 * Z.of_nat k /\ text = a ++ (num_GoString (order_op ord) ++ b_of " ->" ++ [10]) ++
    list_line (map (jsonString E) (g_list (m_out m'))) ++ list_line (map (jsonString E) (firstn (m_sp m') (m_stack m'))) ++ b.
Proof. exact Run_traced_at. Qed.
Print Assumptions C105_order.

(** A run of a compiled path that succeeds ends with its results and an empty stack. *)
Theorem C105_end : forall TX s ss jp E W t root fuel text l, accepted TX s ss jp -> fits jp -> quiet E ->
  Run_traced E fuel W t (jp_prog jp) root = (text, OK l) -> text <> [] ->
  JP_Eval W t jp root (OK l) /\ exists a, text = a ++ list_line (map (jsonString E) l) ++ list_line [].
Proof. exact text_traced. Qed.
Print Assumptions C105_end.

(** integers, texts without quoting and arrays of one member; nothing else *)
Definition x_encoder : encoder := fun v =>
  match v with
  | VInt64 1 | VInt 1 => inl (b_of "1" ++ [10])
  | VStr s => inl s
  | VArr [VInt64 1] => inl (b_of "[" ++ [10] ++ b_of "1]" ++ [10])
  | _ => inr (b_of "unsupported")
  end.
Example x_encoder_quiet : quiet x_encoder.
Proof.
  intros v e H. unfold x_encoder in H.
  assert (K : e = b_of "unsupported") by (repeat match type of H with context [match ?x with _ => _ end] => destruct x; try discriminate H end; injection H as <-; reflexivity).
  subst e. cbn. intro K. repeat (destruct K as [K|K]; [discriminate K|]). exact K.
Qed.

(** a member and an element; the array is written on two lines, and shown on one *)
Example C105_ex : let s := b_of "$.a[0]" in let root := VObj [(b_of "a", VArr [VInt64 1])] in
  let line t := (b_of t ++ [10])%list in let tab t := 9 :: line t in
  accepted x_text s (steps_of s) (jp_of s) /\ fits (jp_of s) /\ quiet x_encoder /\
  jsonString x_encoder (VArr [VInt64 1]) = b_of "[ 1]" /\ jsonString x_encoder (VStr (b_of "x")) = b_of "x" /\
  Run_traced x_encoder 50 x_world 0 (jp_prog (jp_of s)) root =
    (line "OpID ->"%string ++ tab "[!unsupported]"%string ++ tab "[!unsupported]"%string ++ line "OpMember ->"%string ++ tab "[[ 1]]"%string ++ tab "[]"%string ++
     line "OpInt ->"%string ++ tab "[[ 1]]"%string ++ tab "[!unsupported]"%string ++ line "OpSelect ->"%string ++ tab "[1]"%string ++ tab "[]"%string, OK [VInt64 1])%list.
Proof.
  cbv zeta. split; [apply acceptedb_ok; vm_compute; reflexivity|]. split; [vm_compute; reflexivity|]. split; [exact x_encoder_quiet|].
  split; [vm_compute; reflexivity|]. split; vm_compute; reflexivity.
Qed.

(** the call of an unknown function is not shown *)
Example C105_fails_ex : let s := b_of "$[(nosuch(1))]" in let line t := (b_of t ++ [10])%list in let tab t := 9 :: line t in
  Run_traced x_encoder 50 x_world 0 (jp_prog (jp_of s)) (VArr [VInt64 1]) =
    (line "OpID ->"%string ++ tab "[[ 1]]"%string ++ tab "[!unsupported]"%string ++
     line "OpInt ->"%string ++ tab "[[ 1]]"%string ++ tab "[!unsupported, 1]"%string, Fail (RNoFunction (b_of "nosuch")))%list.
Proof. cbv zeta. vm_compute. reflexivity. Qed.
