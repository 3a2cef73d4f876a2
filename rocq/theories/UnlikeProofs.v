(** Expressions that cannot stand for each other, and conditions that are not equal. *)
From Verif Require Import Syntax SpecSyntax Machine Coder Eval Api ProgramProofs CoderProofs MachineProofs SpecDoc DocProofs SpecSelect SpecRun SpecOp SpecExpr OpProofs ExprProofs
  LogicProofs SpecEq EqProofs AlgebraProofs EvalProofs TextProofs SpecText SpecCode SpecSem SemProofs SemFinal UniqueProofs EveryOrder ErrorProofs SpecLaws LawProofs SpecContext ContextProofs EquivProofs InstanceProofs.
Import ListNotations.
Local Open Scope Z_scope.

Ltac keyless_tac :=
  intros ? ?; repeat match goal with
  | H : In _ (_ :: _) |- _ => destruct H as [<-|H]
  | H : In _ [] |- _ => destruct H
  | H : b_of _ = b_of _ |- _ => discriminate H
  | H : part_of _ _ |- _ => inversion H; clear H; subst
  end.
Ltac narrow_tac := intros ? ? K; cbn in K; repeat (destruct K as [K|K]; [first [discriminate K|injection K as <- <-; cbn; lia]|]); destruct K.
Ltac wf_tac := repeat first [apply WfInt; vm_compute; intuition discriminate|apply WfStr|apply WfBool|apply WfNull|apply WfCurrent|apply WfRoot
  |apply WfDot|apply WfArray|apply WfCall|apply WfUnary; [tauto|]|apply WfBinary; [reflexivity| |]|apply Forall_nil|apply Forall_cons].

Lemma ev_value : forall W root e d r, orders_ok W -> good_expr e -> ev W root d 0 e = (let! v := r in OK (v, 0%nat)) -> r <> Panics -> r <> OutOfFuel -> means W root d e r.
Proof.
  intros W root e d r HW [Hw Hn] E N N'. pose proof (ev_means W root HW e Hw Hn d 0%nat) as M. rewrite E in M. destruct r; cbn in M; try contradiction; try congruence; exact M.
Qed.
Lemma not_equivalent : forall W root e e' r r', orders_ok W -> good_expr e -> good_expr e' -> SpecLaws.keyless e' ->
  ev W root VNil 0 e = (let! v := r in OK (v, 0%nat)) -> ev W root VNil 0 e' = (let! v := r' in OK (v, 0%nat)) ->
  r <> Panics -> r <> OutOfFuel -> r' <> Panics -> r' <> OutOfFuel -> r <> r' -> ~ equivalent W root e e'.
Proof.
  intros W root e e' r r' HW G G' K E E' N1 N2 N3 N4 D Q. apply D. eapply (keyless_unique W root HW e' VNil); [apply G'|exact K| |].
  - apply Q; [apply DocProofs.doc_nil|]. apply ev_value; assumption.
  - apply ev_value; assumption.
Qed.

Theorem not_exchangeable : forall W root, orders_ok W ->
  ~ equivalent W root (EInner OpAdd [r_f "f"; r_f "g"]) (EInner OpAdd [r_f "g"; r_f "f"]) /\
  ~ equivalent W root (EInner OpOr [EInner OpOr [r_a; EInt 0]; r_abs]) (EInner OpOr [r_a; EInner OpOr [EInt 0; r_abs]]) /\
  ~ equivalent W root (EInner OpNin [r_a; EInner OpArray [EInt 0]]) (EInner OpNot [EInner OpIn [r_a; EInner OpArray [EInt 0]]]) /\
  ~ equivalent W root (EInner OpGE [r_a; EInt 0]) (EInner OpNot [EInner OpLT [r_a; EInt 0]]).
Proof.
  intros W root HW. unfold r_f, r_a, r_abs. split; [|split; [|split]].
  - eapply (not_equivalent W root _ _ (Fail (RNoFunction (b_of "f"))) (Fail (RNoFunction (b_of "g"))));
      [exact HW|split; [wf_tac|narrow_tac]|split; [wf_tac|narrow_tac]|keyless_tac|vm_compute; reflexivity|vm_compute; reflexivity|discriminate..].
  - eapply (not_equivalent W root _ _ (OK (VErr KType)) (OK (VErr KFailure)));
      [exact HW|split; [wf_tac|narrow_tac]|split; [wf_tac|narrow_tac]|keyless_tac|vm_compute; reflexivity|vm_compute; reflexivity|discriminate..].
  - eapply (not_equivalent W root _ _ (OK (VErr KFailure)) (OK (VBool true)));
      [exact HW|split; [wf_tac|narrow_tac]|split; [wf_tac|narrow_tac]|keyless_tac|vm_compute; reflexivity|vm_compute; reflexivity|discriminate..].
  - eapply (not_equivalent W root _ _ (OK (VErr KFailure)) (OK (VBool true)));
      [exact HW|split; [wf_tac|narrow_tac]|split; [wf_tac|narrow_tac]|keyless_tac|vm_compute; reflexivity|vm_compute; reflexivity|discriminate..].
Qed.

Theorem not_alike : forall W root, orders_ok W ->
  ~ alike W root (EInner OpIn [r_a; EInner OpArray [ENull]]) (EInner OpEQ [r_a; ENull]) /\
  ~ alike W root (EInner OpAnd [EBool false; r_f "f"]) (EBool false).
Proof.
  intros W root HW. unfold r_f, r_a. split; intro Q.
  - assert (D : OK false = OK true :> M bool); [|discriminate D].
    eapply (outs_unique W root HW (EInner OpEQ [EInner OpDot [ECurrent; EName (b_of "a")]; ENull]) VNil); [wf_tac|keyless_tac| |].
    + apply Q; [apply DocProofs.doc_nil|]. apply outs_ok. exists (VErr KFailure). split; [|reflexivity].
      apply ev_value; [exact HW|split; [wf_tac|narrow_tac]|vm_compute; reflexivity|discriminate..].
    + apply outs_ok. exists (VBool true). split; [|reflexivity]. apply ev_value; [exact HW|split; [wf_tac|narrow_tac]|vm_compute; reflexivity|discriminate..].
  - assert (D : Fail (RNoFunction (b_of "f")) = OK false :> M bool); [|discriminate D].
    eapply (outs_unique W root HW (EBool false) VNil); [wf_tac|keyless_tac| |].
    + apply Q; [apply DocProofs.doc_nil|]. apply outs_fail. apply ev_value; [exact HW|split; [wf_tac|narrow_tac]|vm_compute; reflexivity|discriminate..].
    + apply outs_ok. exists (VBool false). split; [|reflexivity]. apply ev_value; [exact HW|split; [wf_tac|narrow_tac]|vm_compute; reflexivity|discriminate..].
Qed.
