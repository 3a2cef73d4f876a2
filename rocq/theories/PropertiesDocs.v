(** Properties of documents that differ in representation only (C69, C70). *)
From Coq Require Import Permutation.
From Verif Require Import Syntax Machine SpecDoc SpecRun SpecText SpecSem SpecMembers SpecWidth Api WidthProofs MembersProofs SemExact Examples.
Local Open Scope Z_scope.

(** ** C69 *)
(** Whether the integers of a document are of type int or int64 does not matter, except for the
    least one: the outcome is the same up to those types. *)
Theorem C69_width_partial : forall W t jp root root' r, prints_alike W -> SpecWidth.alike root root' -> JP_Eval W t jp root r ->
  exists r', JP_Eval W t jp root' r' /\ alike_outcome r r'.
Proof. exact eval_alike. Qed.
Print Assumptions C69_width_partial.

(** For the least integer it does matter, to abs. *)
Theorem C69_refuted : forall W, w_text W = x_text -> exists s jp, JP_Compile (w_text W) s = OK jp /\
  JP_Eval W 0 jp (VArr [VInt (-9223372036854775808)]) (OK [VInt (-9223372036854775808)]) /\
  JP_Eval W 0 jp (VArr [VInt64 (-9223372036854775808)]) (OK []).
Proof. exact least_differs. Qed.
Print Assumptions C69_refuted.

(** {"a": [1, 2], "b": 2} and $.a[?(@ == $.b)] *)
Example C69_ex : let s := b_of "$.a[?(@ == $.b)]" in
  let root := VObj [(b_of "a", VArr [VInt 1; VInt64 2]); (b_of "b", VInt 2)] in
  let root' := VObj [(b_of "a", VArr [VInt64 1; VInt 2]); (b_of "b", VInt64 2)] in
  prints_alike x_world /\ SpecWidth.alike root root' /\
  JP_Eval x_world 0 (jp_of s) root (OK [VInt64 2]) /\ JP_Eval x_world 0 (jp_of s) root' (OK [VInt 2]) /\
  alike_outcome (OK [VInt64 2]) (OK [VInt 2]).
Proof.
  cbn zeta. split; [intros v v' _; reflexivity|]. split; [apply wd_same; reflexivity|].
  split; [split; [discriminate|]; exists 200%nat; vm_compute; reflexivity|].
  split; [split; [discriminate|]; exists 200%nat; vm_compute; reflexivity|].
  constructor. constructor; [|constructor]. apply wd_same. reflexivity.
Qed.

(** ** C70 *)
(** The order in which the model lists the members of objects does not matter: what evaluation
    gives for one listing it gives for the other, for some order of iteration over maps. *)
Theorem C70_listing : forall TX s ss jp W t root root' r, accepted TX s ss jp -> fits jp -> orders_ok W -> prints_same W ->
  doc root -> same_doc root root' -> JP_Eval W t jp root r ->
  exists perm r', orders_ok (reordered W perm) /\ JP_Eval (reordered W perm) t jp root' r' /\ same_outcome r r'.
Proof. exact eval_members. Qed.
Print Assumptions C70_listing.

(** the values of {"b": {"d": 3}, "a": {"c": 1, "d": 2}} *)
Example C70_ex : let s := b_of "$..d" in
  let a := VObj [(b_of "c", VInt 1); (b_of "d", VInt 2)] in let a' := VObj [(b_of "d", VInt 2); (b_of "c", VInt 1)] in
  let b := VObj [(b_of "d", VInt 3)] in
  let root := VObj [(b_of "b", b); (b_of "a", a)] in let root' := VObj [(b_of "a", a'); (b_of "b", b)] in
  accepted x_text s (steps_of s) (jp_of s) /\ fits (jp_of s) /\ prints_same x_world /\ doc root /\ same_doc root root' /\
  JP_Eval x_world 0 (jp_of s) root (OK [VInt 3; VInt 2]) /\ JP_Eval x_world 0 (jp_of s) root' (OK [VInt 2; VInt 3]) /\
  orders_ok (reordered x_world backwards) /\ JP_Eval (reordered x_world backwards) 0 (jp_of s) root' (OK [VInt 3; VInt 2]).
Proof.
  cbn zeta. split; [apply acceptedb_ok; vm_compute; reflexivity|]. split; [vm_compute; reflexivity|].
  split; [intros v v' _; reflexivity|]. split; [apply docb_doc; vm_compute; reflexivity|]. split; [apply nf_inv; vm_compute; reflexivity|].
  split; [split; [discriminate|]; exists 200%nat; vm_compute; reflexivity|].
  split; [split; [discriminate|]; exists 200%nat; vm_compute; reflexivity|].
  split; [apply backwards_ok|split; [discriminate|]; exists 200%nat; vm_compute; reflexivity].
Qed.
