(** Paths that select a place twice, or out of order. *)
From Verif Require Import Base Syntax SpecSyntax Value Machine Parser Api SpecDoc SpecSelect SpecRun SpecText SpecOnce SpecCost
  OnceFinal Examples.
Local Open Scope Z_scope.

Ltac found_tac A :=
  let H := fresh in pose proof (places_all _ _ _ A) as H; cbn in H;
  repeat (destruct H as [<-|H]; [try reflexivity; exfalso;
    repeat match goal with
    | K : value_at _ _ _ |- _ => inversion K; clear K; subst
    | K : nth_error _ _ = Some _ |- _ => cbn in K; first [discriminate K|injection K as K; subst]
    end|]); try destruct H.

(** whether the conditions hold of the steps of a text *)
Definition unionless (s : bytes) : bool := forallb (fun st => negb (is_union (st_op st))) (steps_of s).
Lemma unionless_ok : forall s, unionless s = true -> no_union (steps_of s).
Proof.
  intros s H st Hs. unfold unionless in H. rewrite forallb_forall in H. apply H in Hs. destruct (is_union (st_op st)); [discriminate|reflexivity].
Qed.

Lemma too_many : forall root l, (nodes root < length l)%nat -> ~ places_once root l.
Proof. intros root l H K. apply once_count in K. lia. Qed.

(** a text, a document of arrays, and what is selected from it *)
Definition gives (s : bytes) (root : val) (l : list val) : Prop :=
  accepted x_text s (steps_of s) (jp_of s) /\ fits (jp_of s) /\ doc root /\ JP_Eval x_world 0 (jp_of s) root (OK l).
Ltac gives_tac := split; [apply acceptedb_ok; vm_compute; reflexivity|]; split; [vm_compute; reflexivity|];
  split; [apply docb_doc; vm_compute; reflexivity|]; split; [discriminate|]; exists 400%nat; vm_compute; reflexivity.

Definition chain : val := VArr [VArr [VArr [VArr [VArr [VArr []]]]]].
Lemma once_limits :
  (exists s l, no_union (steps_of s) /\ descents (steps_of s) = 2%nat /\ gives s chain l /\ ~ places_once chain l) /\
  (exists s root l, descents (steps_of s) = O /\ ~ no_union (steps_of s) /\ gives s root l /\ ~ places_once root l).
Proof.
  split.
  - exists (b_of "$..*..*"). eexists. split; [apply unionless_ok; vm_compute; reflexivity|]. split; [vm_compute; reflexivity|].
    split; [gives_tac|]. apply too_many. vm_compute. lia.
  - exists (b_of "$[0,0,0]"), (VArr [VInt64 1]). eexists. split; [vm_compute; reflexivity|].
    split; [intro H; specialize (H _ (or_introl eq_refl)); vm_compute in H; discriminate|].
    split; [gives_tac|]. apply too_many. vm_compute. lia.
Qed.

Lemma order_limits :
  (exists s root l, no_union (steps_of s) /\ descents (steps_of s) = 1%nat /\ forwards (steps_of s) /\ gives s root l /\ ~ places_in_order root l) /\
  (exists s root l, no_union (steps_of s) /\ descents (steps_of s) = O /\ gives s root l /\ ~ places_in_order root l).
Proof.
  split.
  - exists (b_of "$..*"), (VArr [VArr [VInt64 1]; VInt64 2]), [VArr [VInt64 1]; VInt64 2; VInt64 1].
    split; [apply unionless_ok; vm_compute; reflexivity|]. split; [vm_compute; reflexivity|].
    split; [intros a b c (st & sl & [<-|[]] & H & _); vm_compute in H; destruct H|].
    split; [gives_tac|]. intros (ps & _ & H & K).
    inversion H as [|p0 ? ps0 ? A0 H0]; subst. inversion H0 as [|p1 ? ps1 ? A1 H1]; subst. inversion H1 as [|p2 ? ps2 ? A2 H2]; subst.
    inversion H2; subst. clear H H0 H1 H2. clear A0.
    assert (E1 : p1 = [AtIndex 1]) by (clear A2; found_tac A1).
    assert (E2 : p2 = [AtIndex 0; AtIndex 0]) by (clear A1; found_tac A2). subst.
    specialize (K [] 0%nat 1%nat [AtIndex 0] [] ltac:(lia) 2%nat 1%nat eq_refl eq_refl). lia.
  - exists (b_of "$[::-1]"), (VArr [VInt64 1; VInt64 2]), [VInt64 2; VInt64 1].
    split; [apply unionless_ok; vm_compute; reflexivity|]. split; [vm_compute; reflexivity|].
    split; [gives_tac|]. intros (ps & _ & H & K).
    inversion H as [|p1 ? ps1 ? A1 H1]; subst. inversion H1 as [|p2 ? ps2 ? A2 H2]; subst. inversion H2; subst. clear H H1 H2.
    assert (E1 : p1 = [AtIndex 1]) by (clear A2; found_tac A1).
    assert (E2 : p2 = [AtIndex 0]) by (clear A1; found_tac A2). subst.
    specialize (K [] 0%nat 1%nat [] [] ltac:(lia) 1%nat 0%nat eq_refl eq_refl). lia.
Qed.
