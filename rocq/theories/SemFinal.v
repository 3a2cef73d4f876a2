(** The machine's outcomes are meanings of the path. *)
From Coq Require Import Permutation.
From Verif Require Import SpecSyntax Machine Eval Coder Api ProgramProofs CoderProofs MachineProofs SpecDoc DocProofs SpecSelect
  SpecRun RunProofs SelectProofs WalkProofs ExprProofs StepProofs SpecCode CodeProofs EvalProofs TextProofs
  StepExact SpecOp SpecExpr SpecText SpecSem SemProofs.
Local Open Scope Z_scope.

Lemma list_expr_nonempty : forall e, (1 <= length (list_expr e))%nat.
Proof. intro e. destruct e; simpl; try lia. rewrite app_length. simpl. lia. Qed.

Lemma flat_map_count : forall A (f : A -> list instr) l, (forall a, In a l -> (1 <= length (f a))%nat) ->
  (length l <= length (flat_map f l))%nat.
Proof.
  induction l as [|a l IH]; intro H; [simpl; lia|]. cbn [flat_map]. rewrite app_length. cbn [length].
  pose proof (H a (or_introl eq_refl)). specialize (IH (fun x Hx => H x (or_intror Hx))). lia.
Qed.

Lemma list_expr_takes : forall e o n, In (IApply o n) (list_expr e) -> (n < length (list_expr e))%nat.
Proof.
  intro e. induction e using expr_tree_ind; intros o' n Hin; try (destruct Hin as [Hin|[]]; discriminate).
  cbn [list_expr] in *. rewrite app_length. cbn [length].
  pose proof (flat_map_count _ list_expr kids (fun a _ => list_expr_nonempty a)) as Hc.
  apply in_app_or in Hin as [Hin|[Hin|[]]].
  - apply in_flat_map in Hin as (e & He & Hin). rewrite Forall_forall in H. specialize (H e He o' n Hin).
    apply in_split in He as (l1 & l2 & ->). rewrite flat_map_app in *. cbn [flat_map] in *.
    rewrite !app_length in *. lia.
  - injection Hin as <- <-. lia.
Qed.

Lemma step_in_path : forall ss a s, In s ss ->
  exists a' c1 c2, list_path a ss = c1 ++ list_step a' s ++ c2.
Proof.
  induction ss as [|s0 ss IH]; intros a s H; [destruct H|]. destruct H as [->|H]; cbn [list_path].
  - exists a, [], (list_path (a + Z.of_nat (length (list_step a s))) ss). reflexivity.
  - destruct (IH (a + Z.of_nat (length (list_step a s0))) s H) as (a' & c1 & c2 & E). rewrite E.
    exists a', (list_step a s0 ++ c1), c2. rewrite <- app_assoc. reflexivity.
Qed.

Lemma body_in_step : forall a s, exists c1 c2, list_step a s = c1 ++ list_body s ++ c2.
Proof.
  intros a s. unfold list_step. destruct (loop_of (st_op s)) as [k|].
  - exists [ILoop k (a + 2 + Z.of_nat (length (list_body s)))], [IRep (a + 1)]. reflexivity.
  - exists [], []. rewrite app_nil_r. reflexivity.
Qed.

Lemma expr_in_path : forall ss s e, In s ss -> In (PExpr e) (st_args s) ->
  (length (list_expr e) <= length (list_path 0 ss))%nat.
Proof.
  intros ss s e Hs He. destruct (step_in_path ss 0 s Hs) as (a & c1 & c2 & ->).
  destruct (body_in_step a s) as (d1 & d2 & ->). unfold list_body.
  apply in_split in He as (l1 & l2 & ->). rewrite flat_map_app. cbn [flat_map list_arg].
  rewrite !app_length. lia.
Qed.

Lemma step_exprs : forall s e, wf_step s -> In (PExpr e) (st_args s) -> wf_expr e.
Proof.
  assert (Hu : forall l e, Forall wf_union_elt l -> In (PExpr e) l -> wf_expr e).
  { intros l e H He. rewrite Forall_forall in H. specialize (H _ He). inversion H. }
  intros s e H He. inversion H; subst; cbn [st_args] in He; try contradiction;
    try (eapply Hu; eassumption);
    destruct He as [He|[]]; try injection He as ->; subst; auto;
    match goal with K : wf_member _ |- _ => inversion K; subst; auto
                  | K : wf_sub _ |- _ => inversion K; subst; auto end;
    match goal with K : wf_union_elt _ |- _ => inversion K end.
Qed.

Lemma small_args : forall ss, wf_path ss -> small ss -> Forall (fun s => Forall arg_ok (st_args s)) ss.
Proof.
  intros ss Hwf Hs. unfold small in Hs. apply Forall_forall. intros s Hin. apply Forall_forall. intros a Ha.
  assert (Hw : wf_step s) by (unfold wf_path in Hwf; rewrite Forall_forall in Hwf; auto).
  split.
  - pose proof (arg_ints s Hw) as Hi. rewrite Forall_forall in Hi. auto.
  - destruct a; auto. split; [eapply step_exprs; eauto|]. intros o n Hn.
    pose proof (list_expr_takes e o n Hn). pose proof (expr_in_path ss s e Hin Ha). lia.
Qed.

Lemma runs_means : forall W root t cands ss r, orders_ok W -> doc root -> Forall doc cands -> wf_path ss -> small ss ->
  runs W root t cands ss r -> path_means W root ss cands (selected r).
Proof.
  intros W root t cands ss r HW Hr Hc Hwf Hs H.
  apply (runs_exact W root t cands ss r HW Hr Hc Hwf Hs) in H. subst r. unfold ev_sel.
  pose proof (path_meaning W root HW Hr ss Hwf (small_args ss Hwf Hs) (Some cands) t Hc) as Hm.
  destruct (ev_path W root ss (Some cands) t) as [[g t1]|err| |]; cbn [obind selected]; try contradiction; exact Hm.
Qed.

Lemma text_small : forall TX s ss jp, accepted TX s ss jp -> fits jp -> small ss.
Proof.
  intros TX s ss jp Ha Hf. unfold small. unfold fits in Hf.
  rewrite <- (compile_length ss (jp_prog jp) (text_wf _ _ _ _ Ha) (text_compile _ _ _ _ Ha)). exact Hf.
Qed.

Lemma text_means : forall TX s ss jp W t root r, accepted TX s ss jp -> fits jp -> orders_ok W -> doc root ->
  JP_Eval W t jp root r -> path_means W root ss [root] r.
Proof.
  intros TX s ss jp W t root r Ha Hf HW Hr H.
  apply (text_eval TX s ss jp Ha Hf W t root r HW Hr) in H. subst r. unfold ev_run.
  pose proof (text_wf _ _ _ _ Ha) as Hwf.
  pose proof (path_meaning W root HW Hr ss Hwf (small_args ss Hwf (text_small _ _ _ _ Ha Hf)) (Some [root]) t
    (Forall_cons root Hr (Forall_nil _))) as Hm.
  destruct (ev_path W root ss (Some [root]) t) as [[g t1]|err| |]; cbn [obind]; try contradiction; exact Hm.
Qed.
