(** Changes of a document at one place (C99). *)
From Coq Require Import Permutation.
From Verif Require Import Base Syntax SpecSyntax Value Machine Parser Api SpecDoc SpecSelect SpecRun SpecText SpecSem SpecLaws SpecOnce SpecReach SpecEdit
  ReachProofs EditProofs EditMore OnceMore Examples.
Local Open Scope Z_scope.

(** ** C99 *)
(** If a document is changed at one place, a path of names, strings, integers and * still
    selects the same places outside the value that was changed. *)
Theorem C99_outside : forall TX s ss jp W W' t t' p root root' r r', accepted TX s ss jp -> fits jp -> orders_ok W -> orders_ok W' ->
  doc root -> doc root' -> Forall (fun st => Forall literal_key (st_args st)) ss -> edits root p root' ->
  JP_Eval W t jp root r -> JP_Eval W' t' jp root' r' ->
  exists l ps l' ps', r = OK l /\ r' = OK l' /\ Forall2 (value_at root) ps l /\ Forall2 (value_at root') ps' l' /\
    (forall q, ~ below p q -> (In q ps <-> In q ps')) /\
    (no_union ss -> (descents ss <= 1)%nat -> NoDup ps /\ NoDup ps').
Proof. exact text_edits. Qed.
Print Assumptions C99_outside.

(** At places elsewhere the values are the same. *)
Theorem C99_elsewhere : forall v p v' q x, doc v -> edits v p v' -> elsewhere p q -> value_at v q x -> value_at v' q x.
Proof. exact edits_value. Qed.
Print Assumptions C99_elsewhere.

(** So a change that meets no selected place has no effect but perhaps on the order, and none on
    it if no object has more than one member. *)
Theorem C99_unaffected : forall TX s ss jp W W' t t' p root root' r r', accepted TX s ss jp -> fits jp -> orders_ok W -> orders_ok W' ->
  doc root -> doc root' -> Forall (fun st => Forall literal_key (st_args st)) ss -> edits root p root' ->
  (forall q x, reaches root ss q x \/ reaches root' ss q x -> elsewhere p q) ->
  JP_Eval W t jp root r -> JP_Eval W' t' jp root' r' ->
  exists l l', r = OK l /\ r' = OK l' /\ Permutation l l' /\ (lone_members root -> lone_members root' -> l = l').
Proof. exact text_unaffected. Qed.
Print Assumptions C99_unaffected.

(** the last element of b is changed: $..[-1] selects it before and after *)
Example C99_ex : let s := b_of "$..[-1]" in let s' := b_of "$..a" in
  let root := VObj [(b_of "a", VArr [VInt64 1; VInt64 2]); (b_of "b", VArr [VNil; VInt64 3])] in
  let root' := VObj [(b_of "a", VArr [VInt64 1; VInt64 2]); (b_of "b", VArr [VNil; VArr [VInt64 4]])] in
  edits root [AtName (b_of "b"); AtIndex 1] root' /\
  Forall (fun st => Forall literal_key (st_args st)) (steps_of s) /\ Forall (fun st => Forall literal_key (st_args st)) (steps_of s') /\
  gives s root [VInt64 2; VInt64 3] /\ gives s root' [VInt64 2; VArr [VInt64 4]; VInt64 4] /\
  gives s' root [VArr [VInt64 1; VInt64 2]] /\ gives s' root' [VArr [VInt64 1; VInt64 2]] /\
  (forall q x, reaches root (steps_of s') q x \/ reaches root' (steps_of s') q x -> elsewhere [AtName (b_of "b"); AtIndex 1] q).
Proof.
  cbv zeta. split.
  { apply (EdName [(b_of "a", VArr [VInt64 1; VInt64 2])] []). apply (EdIndex [VNil] []). constructor. }
  split; [vm_compute; repeat constructor|]. split; [vm_compute; repeat constructor|].
  split; [gives_tac|]. split; [gives_tac|]. split; [gives_tac|]. split; [gives_tac|].
  intros q x H.
  assert (K : q = [AtName (b_of "a")]).
  { vm_compute (steps_of _) in H. destruct H as [H|H]; pose proof (OnceFinal.places_all _ _ _ (ReachMore.reaches_at _ _ _ _ H)) as P; cbn in P;
      inversion H as [|? ? ? k z u' ? E|? ? ? q0 d k z u' ? E Hq Hs Hk K]; subst; try discriminate;
      destruct Hs as (a & [<-|[]] & Ek); cbn in Ek; subst k; inversion K; subst; clear - P;
      repeat (destruct P as [P|P]; [apply (f_equal (fun l => (last l (AtIndex 0), length l))) in P; cbv beta in P; rewrite last_last, app_length in P;
        first [discriminate P|apply (f_equal snd) in P; destruct q0; [reflexivity|cbn in P; lia]]|]); destruct P. }
  subst q. split; [discriminate|]. split; intros (k & r & C); discriminate C.
Qed.

(** with a union that selects a value twice, and one member in each object *)
Example C99_union_ex : let s := b_of "$[0,0,-1].a[0]" in
  let root := VArr [VObj [(b_of "a", VArr [VInt64 1; VInt64 2])]; VInt64 5; VObj [(b_of "a", VArr [VInt64 3])]] in
  let root' := VArr [VObj [(b_of "a", VArr [VInt64 1; VStr (b_of "z")])]; VInt64 5; VObj [(b_of "a", VArr [VInt64 3])]] in
  let p := [AtIndex 0; AtName (b_of "a"); AtIndex 1] in
  edits root p root' /\ Forall (fun st => Forall literal_key (st_args st)) (steps_of s) /\ ~ no_union (steps_of s) /\
  lone_members root /\ lone_members root' /\
  gives s root [VInt64 1; VInt64 1; VInt64 3] /\ gives s root' [VInt64 1; VInt64 1; VInt64 3] /\
  (forall q x, reaches root (steps_of s) q x \/ reaches root' (steps_of s) q x -> elsewhere p q).
Proof.
  cbv zeta. split.
  { apply (EdIndex []). apply (EdName [] []). apply (EdIndex [VInt64 1] []). constructor. }
  split; [vm_compute; repeat constructor|].
  split; [intro H; specialize (H _ (or_introl eq_refl)); vm_compute in H; discriminate|].
  split; [unfold lone_members; apply loneb_ok; vm_compute; reflexivity|]. split; [unfold lone_members; apply loneb_ok; vm_compute; reflexivity|].
  split; [gives_tac|]. split; [gives_tac|].
  intros q x H. vm_compute (steps_of _) in H.
  assert (K : exists k1 k2 k3, q = [k1; k2; k3] /\ k3 <> AtIndex 1).
  { destruct H as [H|H]; inversion H as [|? ? ? k1 y1 p1 ? N1 S1 V1 H1|]; subst; try discriminate;
      inversion H1 as [|? ? ? k2 y2 p2 ? N2 S2 V2 H2|]; subst; try discriminate;
      inversion H2 as [|? ? ? k3 y3 p3 ? N3 S3 V3 H3|]; subst; try discriminate; inversion H3; subst;
      exists k1, k2, k3; (split; [reflexivity|]); destruct S3 as (a & [<-|[]] & [->|(l & i & _ & -> & [E|(_ & E & _)])]);
      try discriminate; try lia; intro C; injection C as ->; lia. }
  destruct K as (k1 & k2 & k3 & -> & K). split; [intros C; injection C as <- <- <-; apply K; reflexivity|].
  split; intros (k & r & C); injection C as _ _ _ C; discriminate C.
Qed.
