(** Properties of whole evaluations (C13-C15, C17-C19).  [orders_ok W] says that a range
    over a map visits each entry once; [doc root] that [root] is a JSON document. *)
From Verif Require Import SpecSyntax SpecGrammar Machine Coder Eval SpecDoc SpecSelect SpecCost SpecRun Parser Api
  SpecText EvalProofs TextProofs RefuteProofs Examples.
Local Open Scope Z_scope.

(** the example text and the outcome of its evaluation on [x_doc] *)
Definition x_eval : bytes := b_of "$..[?(@.b)]".
Example x_eval_ok : accepted x_text x_eval (steps_of x_eval) (jp_of x_eval) /\ fits (jp_of x_eval).
Proof. split; [apply acceptedb_ok|]; vm_compute; reflexivity. Qed.
Example x_eval_result : JP_Eval x_world 0 (jp_of x_eval) x_doc
  (OK [VObj [(b_of "b", VStr (b_of "x"))]]).
Proof. split; [discriminate|]. exists 100%nat. vm_compute. reflexivity. Qed.

(** ** C14 *)
(** No panic where no slice of the path overflows on an array of the document; missing are
    those slices, and programs of 2^22 orders or more (C12_union_panics_refuted). *)
Theorem C14_no_panic_partial : forall TX s ss jp, accepted TX s ss jp -> fits jp ->
  forall W t root, orders_ok W -> doc root ->
  (forall a b c l, slice_in ss a b c -> within (VArr l) root -> ~ overflowing (Z.of_nat (length l)) a b c) ->
  ~ JP_Eval W t jp root Panics.
Proof. exact text_no_panic. Qed.
Print Assumptions C14_no_panic_partial.

(** In particular no panic where every stride is at most 2^63 less the length of the
    longest array. *)
Theorem C14_strides_partial : forall TX s ss jp, accepted TX s ss jp -> fits jp ->
  forall W t root n, orders_ok W -> doc root -> arrays_within n root ->
  (forall a b c, slice_in ss a b (Some c) -> c <= 9223372036854775807 - n + 1) ->
  n <= 9223372036854775807 -> ~ JP_Eval W t jp root Panics.
Proof. exact text_no_panic_stride. Qed.
Print Assumptions C14_strides_partial.

Example C14_ex : let s := b_of "$.a[0:-1:4611686018427387904]" in
  accepted x_text s (steps_of s) (jp_of s) /\ fits (jp_of s) /\
  slice_in (steps_of s) (Some 0) (Some (-1)) (Some 4611686018427387904) /\ arrays_within 3 x_doc /\
  JP_Eval x_world 0 (jp_of s) x_doc (OK [VInt64 1]).
Proof.
  split; [apply acceptedb_ok; vm_compute; reflexivity|]. split; [vm_compute; reflexivity|].
  split; [eexists _, _; split; [right; left; reflexivity|]; split; [left; reflexivity|]; repeat split|].
  split; [|split; [discriminate|exists 100%nat; vm_compute; reflexivity]].
  apply arraysb_ok. vm_compute. reflexivity.
Qed.

(** $[1:3:9223372036854775807] panics on an array of three elements. *)
Theorem C14_refuted : exists s root, doc root /\ forall TX, exists jp, JP_Compile TX s = OK jp /\
  forall W t, JP_Eval W t jp root Panics.
Proof. exact stride_panics. Qed.
Print Assumptions C14_refuted.

(** ** C15 *)
(** Every evaluation has an outcome; missing are programs of 2^22 orders or more. *)
Theorem C15_ends_partial : forall TX s ss jp, accepted TX s ss jp -> fits jp ->
  forall W t root, orders_ok W -> doc root -> exists r, JP_Eval W t jp root r.
Proof. exact text_ends. Qed.
Print Assumptions C15_ends_partial.

(** A run of [n] steps that receives [i] values to iterate over has [n] at most the size of
    the program times [1 + i]. *)
Theorem C15_steps_partial : forall TX s ss jp, accepted TX s ss jp -> fits jp ->
  forall W t root n i m, counts W (jp_prog jp) root n i (m_start t [root]) m ->
  (n <= length (p_orders (jp_prog jp)) * (1 + i))%nat.
Proof. exact text_length. Qed.
Print Assumptions C15_steps_partial.

(** seven steps, three values received *)
Example C15_ex : exists i m, counts x_world (jp_prog (jp_of (b_of "$[?(1)]"))) x_doc 7 i (m_start 0 [x_doc]) m /\
  i = 3%nat.
Proof.
  eexists _, _. split.
  - do 7 (eapply CnOne; [vm_compute; reflexivity|vm_compute; reflexivity|vm_compute; reflexivity|]).
    apply CnNone.
  - vm_compute. reflexivity.
Qed.

(** The number of steps is bounded by the path and the document alone: see [visits]. *)
Theorem C15_bound_partial : forall TX s ss jp, accepted TX s ss jp -> fits jp ->
  forall W t root n m, orders_ok W -> doc root -> steps W (jp_prog jp) root n (m_start t [root]) m ->
  (n <= length (p_orders (jp_prog jp)) * (1 + visits (levels root) (nodes root) ss))%nat.
Proof. exact text_visits. Qed.
Print Assumptions C15_bound_partial.

Example C15_bound_ex : levels x_doc = 4%nat /\ nodes x_doc = 9%nat /\
  visits (levels x_doc) (nodes x_doc) (steps_of (b_of "$..a[?(@.b)]")) = 45%nat.
Proof. vm_compute. auto. Qed.

(** A path of 2^22 subscripts and a filter compiles, and runs for ever on null. *)
Theorem C15_refuted : exists s root, doc root /\ forall TX, exists jp, JP_Compile TX s = OK jp /\
  forall W t r, ~ JP_Eval W t jp root r.
Proof. exact deep_runs_on. Qed.
Print Assumptions C15_refuted.

(** ** C17 *)
(** Every result is a value of the document, except that a path with a filter may give
    nulls that are not in it. *)
Theorem C17_within_partial : forall TX s ss jp, accepted TX s ss jp ->
  forall W t root l, orders_ok W -> JP_Eval W t jp root (OK l) ->
  forall v, In v l -> within v root \/ (v = VNil /\ has_filter ss).
Proof. exact text_within. Qed.
Print Assumptions C17_within_partial.

Example C17_ex : let s := b_of "$..*" in
  accepted x_text s (steps_of s) (jp_of s) /\ ~ has_filter (steps_of s) /\
  JP_Eval x_world 0 (jp_of s) (VArr [VArr [VInt64 1; VNil]; VObj [(b_of "b", VNil)]])
    (OK [VArr [VInt64 1; VNil]; VObj [(b_of "b", VNil)]; VInt64 1; VNil; VNil]).
Proof.
  split; [apply acceptedb_ok; vm_compute; reflexivity|]. split.
  - intros (st & [<-|[]] & [H|H]); vm_compute in H; discriminate.
  - split; [discriminate|]. exists 100%nat. vm_compute. reflexivity.
Qed.

(** $[?(1==1)] gives null on 42. *)
Theorem C17_refuted : exists s root v, doc root /\ ~ within v root /\ forall TX, exists jp,
  JP_Compile TX s = OK jp /\ forall W t, JP_Eval W t jp root (OK [v]).
Proof. exact filter_null. Qed.
Print Assumptions C17_refuted.

(** ** C18 *)
(** Every result is a JSON value all the way down ([json_node] excludes error markers,
    names, slices and regular expressions); of any program, compiled or not. *)
Theorem C18_results : forall W t jp root l, orders_ok W -> doc root -> JP_Eval W t jp root (OK l) ->
  forall v, In v l -> doc v.
Proof. exact eval_doc. Qed.
Print Assumptions C18_results.

Example C18_ex : doc (VObj [(b_of "b", VStr (b_of "x"))]) /\ ~ doc (VArr [VErr KFailure]).
Proof.
  split; [apply docb_doc; vm_compute; reflexivity|]. intro H.
  apply (H (VErr KFailure)). apply WElem with (VErr KFailure); [left; reflexivity|constructor].
Qed.

(** ** C19 *)
(** The pair Go returns: a slice that is not nil and no error, or no slice and an error; an
    evaluation has at most one outcome. *)
Theorem C19_exclusive : forall W t jp root,
  (forall l, JP_Eval_go W t jp root (Some l, None) <-> JP_Eval W t jp root (OK l)) /\
  (forall e, JP_Eval_go W t jp root (None, Some e) <-> JP_Eval W t jp root (Fail e)) /\
  (forall r, JP_Eval_go W t jp root r -> (exists l, r = (Some l, None)) \/ exists e, r = (None, Some e)).
Proof. exact eval_go. Qed.
Print Assumptions C19_exclusive.

Theorem C19_one_outcome : forall W t jp root r r', JP_Eval W t jp root r -> JP_Eval W t jp root r' -> r = r'.
Proof. exact eval_unique. Qed.
Print Assumptions C19_one_outcome.

Example C19_ex : JP_Eval_go x_world 0 (jp_of (b_of "$.a.x")) x_doc (Some [], None) /\
  exists e, JP_Eval_go x_world 0 (jp_of (b_of "$[?(foo(1))]")) x_doc (None, Some e).
Proof.
  split.
  - exists 20%nat. vm_compute. reflexivity.
  - eexists. exists 20%nat. vm_compute. reflexivity.
Qed.
