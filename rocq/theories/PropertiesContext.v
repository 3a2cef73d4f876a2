(** Expressions that can be exchanged, in any path (C94), and conditions that can be exchanged in
    filters (C95). *)
From Verif Require Import Syntax SpecSyntax Machine SpecDoc SpecSelect SpecRun SpecText SpecSem SpecLaws SpecContext Api
  ContextProofs RecastProofs InstanceProofs UnlikeProofs LawProofs Examples.
Local Open Scope Z_scope.

(** ** C94 *)
(** If two expressions give the same values and errors whatever @ is, then paths that differ only
    by the exchange of one for the other, anywhere in the steps' expressions, have the same
    results. *)
Theorem C94_context : forall TX TX' s ss jp s' ss' jp' W t root e e', accepted TX s ss jp -> fits jp -> accepted TX' s' ss' jp' -> fits jp' ->
  orders_ok W -> doc root -> exchanged_path e e' ss ss' -> equivalent W root e e' -> forall r,
  (exists perm, orders_ok (reordered W perm) /\ JP_Eval (reordered W perm) t jp root r) <->
  (exists perm, orders_ok (reordered W perm) /\ JP_Eval (reordered W perm) t jp' root r).
Proof. exact eval_context. Qed.
Print Assumptions C94_context.

(** With the same orders of iteration too, if the expressions do not call keys(). *)
Theorem C94_same : forall TX TX' s ss jp s' ss' jp' W t root e e', accepted TX s ss jp -> fits jp -> accepted TX' s' ss' jp' -> fits jp' ->
  orders_ok W -> doc root -> exchanged_path e e' ss ss' -> equivalent W root e e' -> keyless e -> keyless e' ->
  forall r, JP_Eval W t jp root r <-> JP_Eval W t jp' root r.
Proof. exact eval_same_context. Qed.
Print Assumptions C94_same.

(** a != b and !(a == b); !(a && b) and !a || !b; !(a || b) and !a && !b; (a && b) && c and
    a && (b && c): they are equivalent for all expressions, also if some are missing or give
    errors. *)
Theorem C94_ne : forall W root, orders_ok W -> forall a b, equivalent W root (EInner OpNE [a; b]) (EInner OpNot [EInner OpEQ [a; b]]).
Proof. exact ne_not_eq. Qed.
Print Assumptions C94_ne.

Theorem C94_not_and : forall W root, orders_ok W -> forall a b,
  equivalent W root (EInner OpNot [EInner OpAnd [a; b]]) (EInner OpOr [EInner OpNot [a]; EInner OpNot [b]]).
Proof. exact not_and. Qed.
Print Assumptions C94_not_and.

Theorem C94_not_or : forall W root, orders_ok W -> forall a b,
  equivalent W root (EInner OpNot [EInner OpOr [a; b]]) (EInner OpAnd [EInner OpNot [a]; EInner OpNot [b]]).
Proof. exact not_or. Qed.
Print Assumptions C94_not_or.

Theorem C94_and : forall W root, orders_ok W -> forall a b c,
  equivalent W root (EInner OpAnd [EInner OpAnd [a; b]; c]) (EInner OpAnd [a; EInner OpAnd [b; c]]).
Proof. exact and_assoc_e. Qed.
Print Assumptions C94_and.

(** a + b and b + a, a * b and b * a, a < b and b > a, and so on, if one of a and b gives no error. *)
Theorem C94_swap : forall W root, orders_ok W -> forall o o' a b, mirrored_op o o' -> steady W root a \/ steady W root b ->
  equivalent W root (EInner o [a; b]) (EInner o' [b; a]).
Proof. exact swapped. Qed.
Print Assumptions C94_swap.

(** a == 1 and 1 == a. *)
Theorem C94_eq : forall W root, orders_ok W -> forall o a l, o = OpEQ \/ o = OpNE -> literal l ->
  equivalent W root (EInner o [a; l]) (EInner o [l; a]).
Proof. exact eq_literal. Qed.
Print Assumptions C94_eq.

(** An expression in a path gives no error if there are no calls, ~, in and nin in it. *)
Theorem C94_steady : forall W root, orders_ok W -> forall TX s ss jp e, accepted TX s ss jp -> fits jp -> occurs ss e ->
  (forall o kids, part_of (EInner o kids) e -> may_fail o = false) -> steady W root e.
Proof. exact steady_text. Qed.
Print Assumptions C94_steady.

(** f() + g() and g() + f() give different errors; (a || 0) || abs("x") and a || (0 || abs("x"))
    different failures if there is no a; then a nin [0] and a >= 0 are failures, but !(a in [0]) and
    !(a < 0) are true. *)
Theorem C94_refuted : forall W root, orders_ok W ->
  ~ equivalent W root (EInner OpAdd [r_f "f"; r_f "g"]) (EInner OpAdd [r_f "g"; r_f "f"]) /\
  ~ equivalent W root (EInner OpOr [EInner OpOr [r_a; EInt 0]; r_abs]) (EInner OpOr [r_a; EInner OpOr [EInt 0; r_abs]]) /\
  ~ equivalent W root (EInner OpNin [r_a; EInner OpArray [EInt 0]]) (EInner OpNot [EInner OpIn [r_a; EInner OpArray [EInt 0]]]) /\
  ~ equivalent W root (EInner OpGE [r_a; EInt 0]) (EInner OpNot [EInner OpLT [r_a; EInt 0]]).
Proof. exact not_exchangeable. Qed.
Print Assumptions C94_refuted.

Ltac runs := split; [discriminate|]; exists 400%nat; vm_compute; reflexivity.
Example C94_ex : let e := EInner OpNE [r_a; EInt 1] in let e' := EInner OpNot [EInner OpEQ [r_a; EInt 1]] in
  let s := b_of "$..[?(@.b&&@.a!=1)].b" in let s' := b_of "$..[?(@.b&&!(@.a==1))].b" in
  let root := VArr [VObj [(b_of "a", VInt64 1); (b_of "b", VInt64 2)]; VObj [(b_of "b", VInt64 3)]] in
  accepted x_text s (steps_of s) (jp_of s) /\ fits (jp_of s) /\ accepted x_text s' (steps_of s') (jp_of s') /\ fits (jp_of s') /\ orders_ok x_world /\ doc root /\
  exchanged_path e e' (steps_of s) (steps_of s') /\ keyless e /\ keyless e' /\ occurs (steps_of s) r_a /\
  (forall o kids, part_of (EInner o kids) r_a -> may_fail o = false) /\ mirrored_op OpLT OpGT /\ literal (EInt 1) /\
  JP_Eval x_world 0 (jp_of s) root (OK [VInt64 3]) /\ JP_Eval x_world 0 (jp_of s') root (OK [VInt64 3]).
Proof.
  cbv zeta. split; [apply acceptedb_ok; vm_compute; reflexivity|]. split; [vm_compute; reflexivity|]. split; [apply acceptedb_ok; vm_compute; reflexivity|].
  split; [vm_compute; reflexivity|]. split; [exact x_world_ok|]. split; [apply docb_doc; vm_compute; reflexivity|].
  split. { vm_compute. repeat constructor. }
  split; [unfold r_a; keyless_tac|]. split; [unfold r_a; keyless_tac|].
  split. { eexists _, _. split; [vm_compute; left; reflexivity|]. split; [vm_compute; left; reflexivity|].
    eapply PoKid; [right; left; reflexivity|]. eapply PoKid; [left; reflexivity|]. apply PoSelf. }
  split. { unfold r_a. intros o kids H. inversion H; subst; [reflexivity|]. match goal with K : In _ _ |- _ => destruct K as [<-|[<-|[]]] end; match goal with K : part_of _ _ |- _ => inversion K end. }
  split; [constructor|]. split; [exact I|]. split; runs.
Qed.

(** ** C95 *)
(** If two expressions are the same conditions whatever @ is, then paths that differ only by the
    exchange of one for the other as a filter, or as an operand of !, && and || in a filter, have
    the same results. *)
Theorem C95_filters : forall TX TX' s ss jp s' ss' jp' W t root e e', accepted TX s ss jp -> fits jp -> accepted TX' s' ss' jp' -> fits jp' ->
  orders_ok W -> doc root -> recast_path e e' ss ss' -> alike W root e e' -> forall r,
  (exists perm, orders_ok (reordered W perm) /\ JP_Eval (reordered W perm) t jp root r) <->
  (exists perm, orders_ok (reordered W perm) /\ JP_Eval (reordered W perm) t jp' root r).
Proof. exact eval_recast. Qed.
Print Assumptions C95_filters.

Theorem C95_same : forall TX TX' s ss jp s' ss' jp' W t root e e', accepted TX s ss jp -> fits jp -> accepted TX' s' ss' jp' -> fits jp' ->
  orders_ok W -> doc root -> recast_path e e' ss ss' -> alike W root e e' -> keyless e -> keyless e' ->
  forall r, JP_Eval W t jp root r <-> JP_Eval W t jp' root r.
Proof. exact eval_same_recast. Qed.
Print Assumptions C95_same.

(** Equivalent expressions are. *)
Theorem C95_equivalent : forall W root a b, equivalent W root a b -> alike W root a b.
Proof. exact equivalent_alike. Qed.
Print Assumptions C95_equivalent.

(** !!a is a; && and || are associative, distribute over each other, and commute if one operand
    gives no error. *)
Theorem C95_not : forall W root, orders_ok W -> forall a, alike W root (EInner OpNot [EInner OpNot [a]]) a.
Proof. exact not_not. Qed.
Print Assumptions C95_not.

Theorem C95_associates : forall W root, orders_ok W -> forall o a b c, o = OpAnd \/ o = OpOr ->
  alike W root (EInner o [EInner o [a; b]; c]) (EInner o [a; EInner o [b; c]]).
Proof. exact both_assoc. Qed.
Print Assumptions C95_associates.

Theorem C95_commutes : forall W root, orders_ok W -> forall o a b, o = OpAnd \/ o = OpOr -> steady W root a \/ steady W root b ->
  alike W root (EInner o [a; b]) (EInner o [b; a]).
Proof. exact both_swapped. Qed.
Print Assumptions C95_commutes.

Theorem C95_distributes : forall W root, orders_ok W -> forall o o' a b c, (o = OpAnd /\ o' = OpOr) \/ (o = OpOr /\ o' = OpAnd) ->
  wf_expr a -> keyless a -> alike W root (EInner o [a; EInner o' [b; c]]) (EInner o' [EInner o [a; b]; EInner o [a; c]]).
Proof. exact distributes. Qed.
Print Assumptions C95_distributes.

(** x in [1, "a", true] is x == 1 || x == "a" || x == true, for literals other than null. *)
Theorem C95_in : forall W root, orders_ok W -> forall x l ls, wf_expr x -> keyless x -> Forall literal (l :: ls) ->
  Z.of_nat (length (l :: ls)) < 4194304 -> alike W root (EInner OpIn [x; EInner OpArray (l :: ls)]) (one_of x l ls).
Proof. exact in_one_of. Qed.
Print Assumptions C95_in.

(** If there is no a, then a == null, but not a in [null].  Both operands of && are evaluated:
    false && f() is an error. *)
Theorem C95_refuted : forall W root, orders_ok W ->
  ~ alike W root (EInner OpIn [r_a; EInner OpArray [ENull]]) (EInner OpEQ [r_a; ENull]) /\
  ~ alike W root (EInner OpAnd [EBool false; r_f "f"]) (EBool false).
Proof. exact not_alike. Qed.
Print Assumptions C95_refuted.

Example C95_ex : let e := EInner OpIn [r_a; EInner OpArray [EInt 1; EStr (b_of "x")]] in let e' := one_of r_a (EInt 1) [EStr (b_of "x")] in
  let s := b_of "$[?(!(@.a in [1,'x']))].b" in let s' := b_of "$[?(!(@.a==1||@.a=='x'))].b" in
  let root := VArr [VObj [(b_of "a", VStr (b_of "x")); (b_of "b", VInt64 2)]; VObj [(b_of "b", VInt64 3)]] in
  accepted x_text s (steps_of s) (jp_of s) /\ fits (jp_of s) /\ accepted x_text s' (steps_of s') (jp_of s') /\ fits (jp_of s') /\ orders_ok x_world /\ doc root /\
  recast_path e e' (steps_of s) (steps_of s') /\ keyless e /\ keyless e' /\ wf_expr r_a /\ keyless r_a /\ Forall literal [EInt 1; EStr (b_of "x")] /\
  JP_Eval x_world 0 (jp_of s) root (OK [VInt64 3]) /\ JP_Eval x_world 0 (jp_of s') root (OK [VInt64 3]).
Proof.
  cbv zeta. split; [apply acceptedb_ok; vm_compute; reflexivity|]. split; [vm_compute; reflexivity|]. split; [apply acceptedb_ok; vm_compute; reflexivity|].
  split; [vm_compute; reflexivity|]. split; [exact x_world_ok|]. split; [apply docb_doc; vm_compute; reflexivity|].
  split. { vm_compute. constructor; [|constructor; [apply RsSame|constructor]]. eapply RsFilter; [left; reflexivity|reflexivity|reflexivity|reflexivity|]. apply RcNot, RcHere. }
  split; [unfold r_a; keyless_tac|]. split; [cbv [one_of fold_left r_a]; keyless_tac|]. split; [unfold r_a; wf_tac|]. split; [unfold r_a; keyless_tac|].
  split; [repeat constructor|]. split; runs.
Qed.
