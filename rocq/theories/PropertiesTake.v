(** A reference evaluator with slices (C102). *)
From Coq Require Import Permutation.
From Verif Require Import Base Syntax SpecSyntax Value Machine Parser Api SpecDoc SpecSelect SpecRun SpecText SpecSem SpecLaws SpecOnce SpecFind SpecTake
  TakeProofs TakeMore OnceMore Examples.
Local Open Scope Z_scope.

(** ** C102 *)
(** For paths without expressions the machine gives exactly what the short evaluator [take_path]
    gives, and panics exactly when it does, if the order of the members of objects is of no
    importance: because no object has two, or because the path has no * and no .. *)
Theorem C102_reference : forall TX s ss jp W t root r, accepted TX s ss jp -> fits jp -> orders_ok W -> doc root ->
  Forall (fun st => Forall exprless (st_args st)) ss -> lone_members root \/ direct ss -> JP_Eval W t jp root r ->
  r = match take_path ss [root] with Some l => OK l | None => Panics end.
Proof. exact text_taken. Qed.
Print Assumptions C102_reference.

(** If slices are applied to arrays only, then whatever the order of members and whatever the
    steps, it gives the same values in some order.  Otherwise the values can depend on the order
    (C29). *)
Theorem C102_unordered : forall TX s ss jp W t root r, accepted TX s ss jp -> fits jp -> orders_ok W -> doc root ->
  Forall (fun st => Forall exprless (st_args st)) ss -> slices_arrays ss [root] = true -> JP_Eval W t jp root r ->
  match take_path ss [root] with Some l0 => exists l, r = OK l /\ Permutation l l0 | None => r = Panics end.
Proof. exact text_alike. Qed.
Print Assumptions C102_unordered.

(** slices that are applied to an object or a number, where what came before is forgotten; slices
    that go backwards; a path without * and ..; and the panic *)
Example C102_ex :
  let s1 := b_of "$..[::2,'a']" in let s2 := b_of "$.a[-1:0:-2,1:][0]" in let s3 := b_of "$[1:2:9223372036854775807]" in
  let r1 := VArr [VInt64 1; VObj [(b_of "a", VArr [VInt64 2; VInt64 3; VInt64 4])]] in
  let r2 := VObj [(b_of "b", VNil); (b_of "a", VArr [VInt64 5; VArr [VInt64 6]; VInt64 7; VArr [VInt64 8]])] in
  let r3 := VArr [VNil; VNil] in
  Forall (fun st => Forall exprless (st_args st)) (steps_of s1) /\ Forall (fun st => Forall exprless (st_args st)) (steps_of s2) /\ Forall (fun st => Forall exprless (st_args st)) (steps_of s3) /\
  lone_members r1 /\ gives s1 r1 [VArr [VInt64 2; VInt64 3; VInt64 4]; VInt64 2; VInt64 4] /\
  direct (steps_of s2) /\ gives s2 r2 [VInt64 8; VInt64 6; VInt64 6; VInt64 8] /\
  accepted x_text s3 (steps_of s3) (jp_of s3) /\ fits (jp_of s3) /\ doc r3 /\ direct (steps_of s3) /\ take_path (steps_of s3) [r3] = None.
Proof.
  cbv zeta. split; [vm_compute; repeat constructor|]. split; [vm_compute; repeat constructor|].
  split; [vm_compute; repeat constructor|]. split; [unfold lone_members; apply loneb_ok; vm_compute; reflexivity|].
  split; [gives_tac|]. split; [vm_compute; repeat constructor|]. split; [gives_tac|].
  split; [apply acceptedb_ok; vm_compute; reflexivity|]. split; [vm_compute; reflexivity|]. split; [apply docb_doc; vm_compute; reflexivity|].
  split; [vm_compute; repeat constructor|vm_compute; reflexivity].
Qed.

(** a slice under an object of two members *)
Example C102_unordered_ex : let s := b_of "$.*[1:].*" in
  let root := VObj [(b_of "a", VArr [VNil; VArr [VInt64 1; VInt64 2]]); (b_of "b", VArr [VNil; VInt64 3; VArr [VInt64 4]])] in
  Forall (fun st => Forall exprless (st_args st)) (steps_of s) /\ slices_arrays (steps_of s) [root] = true /\
  take_path (steps_of s) [root] = Some [VInt64 1; VInt64 2; VInt64 4] /\ ~ lone_members root /\ ~ direct (steps_of s) /\
  gives s root [VInt64 1; VInt64 2; VInt64 4].
Proof.
  cbv zeta. split; [vm_compute; repeat constructor|]. split; [vm_compute; reflexivity|]. split; [vm_compute; reflexivity|].
  split; [intro H; specialize (H _ (WSelf _)); cbn in H; lia|]. split; [intro H; vm_compute in H; inversion H; discriminate|]. gives_tac.
Qed.
