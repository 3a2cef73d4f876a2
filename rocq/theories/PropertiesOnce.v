(** Selecting each place once and in order (C97). *)
From Verif Require Import Base Syntax SpecSyntax Value Machine Parser Api SpecDoc SpecSelect SpecRun SpecText SpecOnce SpecCost
  OnceFinal OnceMore Examples.
Local Open Scope Z_scope.

(** ** C97 *)
(** A path without unions and with at most one .. selects the values at different places; a
    filter may give a single null that is not in the document instead (C17). *)
Theorem C97_once : forall TX s ss jp W t root l, accepted TX s ss jp -> fits jp -> orders_ok W -> doc root ->
  no_union ss -> (descents ss <= 1)%nat -> JP_Eval W t jp root (OK l) ->
  places_once root l \/ (l = [VNil] /\ has_filter ss).
Proof. exact text_once. Qed.
Print Assumptions C97_once.

(** So it selects at most as many values as there are in the document. *)
Theorem C97_count : forall TX s ss jp W t root l, accepted TX s ss jp -> fits jp -> orders_ok W -> doc root ->
  no_union ss -> (descents ss <= 1)%nat -> JP_Eval W t jp root (OK l) -> (length l <= nodes root)%nat.
Proof. exact text_count. Qed.
Print Assumptions C97_count.

(** Without .., and if no slice goes backwards, what comes from the elements of an array comes
    in the order of the elements. *)
Theorem C97_order : forall TX s ss jp W t root l, accepted TX s ss jp -> fits jp -> orders_ok W -> doc root ->
  no_union ss -> descents ss = O -> forwards ss -> JP_Eval W t jp root (OK l) ->
  places_in_order root l \/ (l = [VNil] /\ has_filter ss).
Proof. exact text_in_order. Qed.
Print Assumptions C97_order.

(** With a second .., or with a union, a place can be selected twice. *)
Theorem C97_once_refuted :
  (exists s l, no_union (steps_of s) /\ descents (steps_of s) = 2%nat /\ gives s chain l /\ ~ places_once chain l) /\
  (exists s root l, descents (steps_of s) = O /\ ~ no_union (steps_of s) /\ gives s root l /\ ~ places_once root l).
Proof. exact once_limits. Qed.
Print Assumptions C97_once_refuted.

(** With .., or with a slice that goes backwards, the order can be another. *)
Theorem C97_order_refuted :
  (exists s root l, no_union (steps_of s) /\ descents (steps_of s) = 1%nat /\ forwards (steps_of s) /\ gives s root l /\
     ~ places_in_order root l) /\
  (exists s root l, no_union (steps_of s) /\ descents (steps_of s) = O /\ gives s root l /\ ~ places_in_order root l).
Proof. exact order_limits. Qed.
Print Assumptions C97_order_refuted.

(** equal values at different places *)
Example C97_ex : let s := b_of "$.a[1:]..*" in let s' := b_of "$[*].b[0:2]" in
  let root := VObj [(b_of "a", VArr [VNil; VArr [VInt64 1; VInt64 2]; VArr [VInt64 2]])] in
  let root' := VArr [VObj [(b_of "b", VArr [VInt64 1; VInt64 1; VInt64 1])]; VObj [(b_of "b", VArr [VInt64 1])]] in
  gives s root [VInt64 1; VInt64 2; VInt64 2] /\ no_union (steps_of s) /\ descents (steps_of s) = 1%nat /\
  gives s' root' [VInt64 1; VInt64 1; VInt64 1] /\ no_union (steps_of s') /\ descents (steps_of s') = O /\ forwards (steps_of s') /\
  places_in_order root' [VInt64 1; VInt64 1; VInt64 1].
Proof.
  cbv zeta. split; [gives_tac|]. split; [apply unionless_ok; vm_compute; reflexivity|]. split; [vm_compute; reflexivity|].
  assert (G : gives (b_of "$[*].b[0:2]") (VArr [VObj [(b_of "b", VArr [VInt64 1; VInt64 1; VInt64 1])]; VObj [(b_of "b", VArr [VInt64 1])]])
    [VInt64 1; VInt64 1; VInt64 1]) by gives_tac.
  assert (U : no_union (steps_of (b_of "$[*].b[0:2]"))) by (apply unionless_ok; vm_compute; reflexivity).
  assert (F : forwards (steps_of (b_of "$[*].b[0:2]"))).
  { intros a b c (st & sl & Hs & H & _ & _ & ->). vm_compute in Hs. repeat (destruct Hs as [<-|Hs]; [cbn in H; repeat (destruct H as [H|H]; [try discriminate H; injection H as <-; cbn; lia|]); destruct H|]). destruct Hs. }
  split; [exact G|]. split; [exact U|]. split; [vm_compute; reflexivity|]. split; [exact F|].
  destruct G as (G1 & G2 & G3 & G4).
  destruct (C97_order _ _ _ _ _ _ _ _ G1 G2 x_world_ok G3 U eq_refl F G4) as [K|[K _]]; [exact K|discriminate].
Qed.
