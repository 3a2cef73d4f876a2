(** Theorems about how much is selected (C83). *)
From Verif Require Import Syntax SpecSyntax Value Machine SpecDoc SpecRun SpecCode SpecText SpecCost Api AmountProofs Examples.
Local Open Scope nat_scope.

(** ** C83 *)
(** The number of values selected, and their size, is bounded by the path and the document: each
    union multiplies by the number of its elements, each .. by the depth of the document. *)
Theorem C83_bound : forall TX s ss jp W t root l, accepted TX s ss jp -> fits jp -> orders_ok W -> doc root ->
  JP_Eval W t jp root (OK l) -> length l <= weight l /\ weight l <= copies (levels root) ss * nodes root.
Proof. exact eval_amount. Qed.
Print Assumptions C83_bound.

(** The bound is reached but for a linear factor: with unions the number of values can double at
    each step. *)
Theorem C83_doubling : forall W t n, orders_ok W -> (Z.of_nat n <= 1000000)%Z -> let root := nested_arrays n in
  exists t', runs W root t [root] (repeat twice n) (OK (repeat VNil (2 ^ n), t')).
Proof. exact runs_doubling. Qed.
Print Assumptions C83_doubling.

Example C83_ex : let s := b_of "$..*[0,0]" in let root := VArr [VArr [VInt64 1; VInt64 2]; VInt64 3] in
  accepted x_text s (steps_of s) (jp_of s) /\ fits (jp_of s) /\ orders_ok x_world /\ doc root /\
  JP_Eval x_world 0 (jp_of s) root (OK [VInt64 1; VInt64 1]) /\
  levels root = 3 /\ nodes root = 5 /\ copies 3 (steps_of s) = 6 /\
  copies (levels (nested_arrays 4)) (repeat twice 4) * nodes (nested_arrays 4) = 16 * 5.
Proof.
  cbn zeta. split; [apply acceptedb_ok; vm_compute; reflexivity|]. split; [vm_compute; reflexivity|]. split; [exact x_world_ok|].
  split; [apply docb_doc; vm_compute; reflexivity|]. split; [split; [discriminate|]; exists 400; vm_compute; reflexivity|].
  vm_compute. auto.
Qed.
