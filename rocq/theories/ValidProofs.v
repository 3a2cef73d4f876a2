(** What values expressions can give. *)
From Coq Require Import QArith Permutation.
From Verif Require Import SpecSyntax Machine Eval SpecDoc SpecSelect SpecRun RunProofs SelectProofs WalkProofs MachineProofs CoderProofs
  SpecCode ExprProofs SpecOp OpProofs SpecExpr ArithProofs SpecText SpecSem SaneProofs SemProofs SemFinal UniqueProofs.
Local Open Scope Z_scope.

Lemma means_valid : forall W root dot e v, (forall s f, o_parse_float (w_text W) s = Some f -> double f) ->
  doc root -> doc dot -> wf_expr e -> (forall f, part_of (EFloat f) e -> double f) -> means W root dot e (OK v) ->
  forall x, within x v ->
  match x with
  | VFloat f => double f
  | VObj m => within (VObj m) root \/ within (VObj m) dot
  | VSlice _ => False
  | _ => True
  end.
Proof.
  intros W root dot e v Hread Hr Hd Hw Hlit Hm.
  set (OB := fun m => within (VObj m) root \/ within (VObj m) dot).
  assert (Hrs : sane True OB root) by (apply sane_doc; [exact Hr|intros m H; left; exact H]).
  assert (Hds : sane True OB dot) by (apply sane_doc; [exact Hd|intros m H; right; exact H]).
  enough (G : sane True OB v).
  { intros x Hx. apply G in Hx. destruct x; try exact I; cbn in Hx; auto. }
  revert v Hm Hw Hlit. induction e using expr_tree_ind; intros v Hm Hw Hlit;
    try (inversion Hm as [? ? Hl| |]; subst; inversion Hl; subst; auto; apply sane_atom; try reflexivity; try exact I; cbn).
  - inversion Hw; subst. unfold in_int64 in *. lia.
  - intros _. apply Hlit. constructor.
  - inversion Hm as [? ? Hl|? ? vs ? F Y|]; subst; [inversion Hl|].
    pose proof (wf_inner _ _ Hw) as (Hk & _ & Ho).
    assert (Ho' : inner_ok o (length vs)) by (apply F2_length in F; rewrite <- F; exact Ho).
    apply yields_inv in Y as (perm & t & _ & E); [|exact Ho'].
    destruct (apply_op (reordered W perm) t o vs) as [[v' t']| | |] eqn:Ea; try discriminate. injection E as <-.
    eapply (apply_sane True OB (reordered W perm)); [intros _; exact Hread|exact Ho'| |exact Ea].
    assert (HF : Forall (fun e => forall v, means W root dot e (OK v) -> sane True OB v) kids).
    { rewrite Forall_forall in *. intros a Ha q Hq. eapply H; eauto. intros f Hf. apply Hlit. eapply PoKid; eauto. }
    clear - F HF. induction F; [constructor|]. apply Forall_cons_iff in HF as [? ?]. constructor; auto.
Qed.
