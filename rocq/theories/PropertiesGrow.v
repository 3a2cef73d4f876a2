(** Theorems about documents to which members and elements are added (C82). *)
From Coq Require Import Permutation.
From Verif Require Import Syntax SpecSyntax Value Machine SpecDoc SpecRun SpecCode SpecText SpecSem SpecGrow Api GrowProofs SemExact Examples.
Local Open Scope Z_scope.

(** ** C82 *)
(** Members added to the objects of a document, and elements added to the ends of its arrays,
    take nothing away from what a path of names, strings and integers, * and .. selects. *)
Theorem C82_grows : forall TX more s ss jp W W' t t' root root' r r', accepted TX s ss jp -> fits jp ->
  Forall (fun st => Forall (stays more) (st_args st)) ss -> orders_ok W -> orders_ok W' -> doc root -> doc root' -> grows more root root' ->
  JP_Eval W t jp root r -> JP_Eval W' t' jp root' r' -> exists l l', r = OK l /\ r' = OK l' /\ includes more l l'.
Proof. exact eval_grows. Qed.
Print Assumptions C82_grows.

(** Of a path with a slice it is not true, even if only members are added; *)
Theorem C82_slice_refuted : exists s ss jp W t root root' l l', accepted x_text s ss jp /\ fits jp /\
  (forall st, In st ss -> Forall (fun a => match a with PSlice _ => True | a => stays false a end) (st_args st)) /\
  orders_ok W /\ doc root /\ doc root' /\ grows false root root' /\
  JP_Eval W t jp root (OK l) /\ JP_Eval W t jp root' (OK l') /\ ~ includes false l l'.
Proof. exact grows_slice. Qed.
Print Assumptions C82_slice_refuted.

(** nor of an index counted from the end, if elements are added; *)
Theorem C82_negative_refuted : exists s ss jp W t root root' l l', accepted x_text s ss jp /\ fits jp /\
  (forall st, In st ss -> Forall (stays false) (st_args st)) /\
  orders_ok W /\ doc root /\ doc root' /\ grows true root root' /\
  JP_Eval W t jp root (OK l) /\ JP_Eval W t jp root' (OK l') /\ ~ includes true l l'.
Proof. exact grows_negative. Qed.
Print Assumptions C82_negative_refuted.

(** nor of a filter. *)
Theorem C82_filter_refuted : exists s ss jp W t root root' l l', accepted x_text s ss jp /\ fits jp /\
  (forall st, In st ss -> Forall (fun a => match a with PExpr _ => True | a => stays false a end) (st_args st)) /\
  orders_ok W /\ doc root /\ doc root' /\ grows false root root' /\
  JP_Eval W t jp root (OK l) /\ JP_Eval W t jp root' (OK l') /\ ~ includes false l l'.
Proof. exact grows_filter. Qed.
Print Assumptions C82_filter_refuted.

Example C82_ex : let s := b_of "$..['a',1].*" in
  let root := VObj [(b_of "a", VArr [VInt64 1; VArr [VInt64 2]])] in
  let root' := VObj [(b_of "b", VObj [(b_of "a", VArr [VInt64 4])]); (b_of "a", VArr [VInt64 1; VArr [VInt64 2]; VInt64 3])] in
  accepted x_text s (steps_of s) (jp_of s) /\ fits (jp_of s) /\ Forall (fun st => Forall (stays true) (st_args st)) (steps_of s) /\
  orders_ok x_world /\ orders_ok (reordered x_world backwards) /\ doc root /\ doc root' /\ grows true root root' /\
  JP_Eval x_world 0 (jp_of s) root (OK [VInt64 1; VArr [VInt64 2]; VInt64 2]) /\
  JP_Eval (reordered x_world backwards) 3 (jp_of s) root' (OK [VInt64 1; VArr [VInt64 2]; VInt64 3; VInt64 2; VInt64 4]) /\
  includes true [VInt64 1; VArr [VInt64 2]; VInt64 2] [VInt64 1; VArr [VInt64 2]; VInt64 3; VInt64 2; VInt64 4].
Proof.
  cbn zeta. split; [apply acceptedb_ok; vm_compute; reflexivity|]. split; [vm_compute; reflexivity|].
  split; [vm_compute; repeat constructor; discriminate|]. split; [exact x_world_ok|]. split; [apply backwards_ok|].
  do 2 (split; [apply docb_doc; vm_compute; reflexivity|]).
  assert (G : forall z, grows true (VInt64 z) (VInt64 z)) by (intro; constructor; reflexivity).
  assert (H : grows true (VArr [VInt64 2]) (VArr [VInt64 2])) by (apply (GrArr true [_] [_] []); auto).
  split; [|split; [|split]].
  - eapply GrObj with (m1 := [_]); [|apply perm_swap]. constructor; [split; [reflexivity|]|constructor]. cbn [snd].
    apply (GrArr true [_; _] [_; _] [VInt64 3]); auto.
  - split; [discriminate|]; exists 400%nat; vm_compute; reflexivity.
  - split; [discriminate|]; exists 400%nat; vm_compute; reflexivity.
  - exists [VInt64 1; VArr [VInt64 2]; VInt64 2], [VInt64 3; VInt64 4]. split; [auto|]. cbn [app]. do 2 apply perm_skip. apply perm_swap.
Qed.
