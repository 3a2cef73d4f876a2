(** Properties of evaluations as goroutines that communicate over channels (C47, C48): of
    every schedule. *)
From Verif Require Import SpecSyntax SpecGrammar Machine Coder SpecDoc SpecSelect SpecRun Parser Api SpecText Conc SpecConc
  ConcProofs Examples.
Local Open Scope Z_scope.

(** ** C47 *)
(** An evaluation that returns under some schedule returns what the sequential machine
    returns: of any program, compiled or not. *)
Theorem C47_result : forall W jp root t c r, orders_ok W -> scheduled W (jp_prog jp) root t c -> c_mode c = CDone r ->
  r <> OutOfFuel -> JP_Eval W t jp root r.
Proof. exact sched_result. Qed.
Print Assumptions C47_result.

Theorem C47_text : forall TX s ss jp, accepted TX s ss jp -> fits jp ->
  forall W t root, orders_ok W -> doc root ->
  forall c r, scheduled W (jp_prog jp) root t c -> c_mode c = CDone r -> JP_Eval W t jp root r.
Proof. exact text_sched_result. Qed.
Print Assumptions C47_text.

(** Until it returns, something can take a step: there is no deadlock. *)
Theorem C47_progress : forall W p root t c, orders_ok W -> scheduled W p root t c -> (forall r, c_mode c <> CDone r) ->
  exists c', cstep W p root c c'.
Proof. exact sched_progress. Qed.
Print Assumptions C47_progress.

(** No schedule goes on for ever, and every one can be continued until the evaluation has
    returned. *)
Theorem C47_ends : forall TX s ss jp, accepted TX s ss jp -> fits jp ->
  forall W t root, orders_ok W -> doc root ->
  forall c, scheduled W (jp_prog jp) root t c -> Acc (fun c' c => cstep W (jp_prog jp) root c c') c.
Proof. exact sched_ends. Qed.
Print Assumptions C47_ends.

Theorem C47_returns : forall TX s ss jp, accepted TX s ss jp -> fits jp ->
  forall W t root, orders_ok W -> doc root ->
  forall c, scheduled W (jp_prog jp) root t c -> exists c' r, leads W (jp_prog jp) root c c' /\ c_mode c' = CDone r.
Proof. exact sched_some_end. Qed.
Print Assumptions C47_returns.

(** Every producer sends the values its loop is to iterate over, for each candidate in turn,
    and closes its channel. *)
Theorem C47_producer : forall W o t vals, orders_ok W -> (o = OpFor \/ o = OpNest) ->
  (forall l q, sends W (fst (start o t vals)) l q -> exists l', sends W (fst (start o t vals)) (l ++ l') PClosed) /\
  (forall l l', sends W (fst (start o t vals)) l PClosed -> sends W (fst (start o t vals)) l' PClosed -> l = l') /\
  (forall l, sends W (fst (start o t vals)) l PClosed -> gathers (iterates_over o) vals l).
Proof. exact start_sends. Qed.
Print Assumptions C47_producer.

(** From every channel the machine receives what its producer has sent, in that order; an end
    of the values only after the last of them. *)
Theorem C47_received : forall W p root t c log, observed W p root t c log ->
  forall i q, nth_error (c_prods c) i = Some q ->
  exists o t' vals vs k, (o = OpFor \/ o = OpNest) /\ sends W (fst (start o t' vals)) vs q /\
    from i log = map Some vs ++ repeat None k /\ (k <> 0%nat -> q = PClosed).
Proof. exact (fun W p root t c log H => proj1 (observed_chan W p root t c log H)). Qed.
Print Assumptions C47_received.

Theorem C47_observed : forall W p root t c, scheduled W p root t c <-> exists log, observed W p root t c log.
Proof. exact observed_scheduled. Qed.
Print Assumptions C47_observed.

Example C47_ex : let s := b_of "$..[?(@.b)]" in let p := jp_prog (jp_of s) in
  accepted x_text s (steps_of s) (jp_of s) /\ fits (jp_of s) /\ doc x_doc /\ orders_ok x_world /\
  exists c, scheduled x_world p x_doc 0 c /\ c_mode c = CDone (OK [VObj [(b_of "b", VStr (b_of "x"))]]) /\
    length (c_prods c) = 1%nat.
Proof.
  split; [apply acceptedb_ok; vm_compute; reflexivity|]. split; [vm_compute; reflexivity|].
  split; [apply docb_doc; vm_compute; reflexivity|]. split; [apply x_world_ok|].
  eexists. split; [apply (schedule_is 200); constructor|]. split; vm_compute; reflexivity.
Qed.

Example C47_producer_ex :
  sends x_world (fst (start OpNest 0 [VArr [VInt64 1; VArr [VNil]]])) [VArr [VInt64 1; VArr [VNil]]; VArr [VNil]] PClosed.
Proof.
  repeat first [apply SnValue | eapply SnOwn; [reflexivity|]]. constructor.
Qed.

(** ** C48 *)
(** When an evaluation has returned values, all goroutines it started have ended. *)
Theorem C48_success_partial : forall TX s ss jp, accepted TX s ss jp -> fits jp ->
  forall W t root, orders_ok W ->
  forall c l, scheduled W (jp_prog jp) root t c -> c_mode c = CDone (OK l) ->
  forall i, (i < length (c_prods c))%nat -> ended c i.
Proof. exact sched_closed. Qed.
Print Assumptions C48_success_partial.

(** However it has returned, at most one has not. *)
Theorem C48_one_partial : forall TX s ss jp, accepted TX s ss jp -> fits jp ->
  forall W t root, orders_ok W ->
  forall c r, scheduled W (jp_prog jp) root t c -> c_mode c = CDone r ->
  forall i j, (i < length (c_prods c))%nat -> (j < length (c_prods c))%nat -> ~ ended c i -> ~ ended c j -> i = j.
Proof. exact sched_one. Qed.
Print Assumptions C48_one_partial.

(** When it has returned an error, one is left over for ever just if the order that failed was
    executed in a loop with values still to come. *)
Theorem C48_error_partial : forall W jp t root, orders_ok W ->
  forall c e, scheduled W (jp_prog jp) root t c -> c_mode c = CDone (Fail e) ->
  exists n m ord, steps W (jp_prog jp) root n (m_start t [root]) m /\
    index_Z (p_orders (jp_prog jp)) (m_pc m) = Some ord /\
    exec W (jp_prog jp) root ord (set_pc m (m_pc m + 1)) = Fail e /\
    ((exists i, left_over W (jp_prog jp) root c i) <-> exists vs, In vs (m_values m) /\ vs <> []).
Proof. exact sched_left. Qed.
Print Assumptions C48_error_partial.

(** And that happens: an undefined function in a filter. *)
Theorem C48_refuted : exists s root e, doc root /\ forall TX, exists jp, JP_Compile TX s = OK jp /\
  forall W t, orders_ok W ->
  exists c, scheduled W (jp_prog jp) root t c /\ c_mode c = CDone (Fail e) /\ left_over W (jp_prog jp) root c 0.
Proof. exact leak. Qed.
Print Assumptions C48_refuted.

Example C48_ex : let s := b_of "$[?(foo(1))]" in let p := jp_prog (jp_of s) in
  accepted x_text s (steps_of s) (jp_of s) /\ fits (jp_of s) /\
  exists c e, scheduled x_world p (VArr [VInt64 1]) 0 c /\ c_mode c = CDone (Fail e) /\ length (c_prods c) = 1%nat /\
    ~ left_over x_world p (VArr [VInt64 1]) c 0.
Proof.
  split; [apply acceptedb_ok; vm_compute; reflexivity|]. split; [vm_compute; reflexivity|].
  eexists. eexists. split; [apply (schedule_is 200); constructor|]. split; [vm_compute; reflexivity|]. split; [vm_compute; reflexivity|].
  intro H. eapply left_over_iff in H; [|apply x_world_ok|vm_compute; reflexivity|vm_compute; lia]. apply H. vm_compute. reflexivity.
Qed.
