(** Paths that do not mention $ in expressions do not depend on the document as a whole. *)
From Verif Require Import Syntax SpecSyntax Machine Coder Eval SpecDoc SpecSelect SpecRun SpecSem SpecText Api CoderProofs TextProofs LawProofs SpecLaws DocProofs Examples.
Local Open Scope Z_scope.

Section root.
Variable W : world.
Variables root root' : val.

Lemma ev_rootless : forall e, ~ part_of ERoot e -> forall d t, ev W root d t e = ev W root' d t e.
Proof.
  intro e. induction e as [| | | | | | | | |o kids IH] using expr_tree_ind; intros H d t; try reflexivity; [destruct H; constructor|].
  rewrite !ev_inner. assert (K : forall t, evs W root d t kids = evs W root' d t kids); [|rewrite K; reflexivity].
  assert (HK : forall e, In e kids -> ~ part_of ERoot e) by (intros e He Hp; apply H; eapply PoKid; eauto).
  clear H. induction IH as [|k ks Hk _ IHk]; intro t0; [reflexivity|]. cbn [evs]. rewrite (Hk (HK k (or_introl eq_refl))).
  destruct (ev W root' d t0 k) as [[v t1]| | |]; try reflexivity. cbn [obind]. rewrite IHk by (intros e He; apply HK; right; exact He). reflexivity.
Qed.
Lemma args_rootless : forall l, (forall e, In (PExpr e) l -> ~ part_of ERoot e) -> forall d t, ev_args W root d t l = ev_args W root' d t l.
Proof.
  induction l as [|a l IH]; intros H d t; [reflexivity|]. cbn [ev_args].
  assert (A : ev_arg W root d t a = ev_arg W root' d t a) by (destruct a; try reflexivity; apply ev_rootless; apply H; left; reflexivity).
  rewrite A. destruct (ev_arg W root' d t a) as [[v t1]| | |]; try reflexivity. cbn [obind]. rewrite IH by (intros e He; apply H; right; exact He). reflexivity.
Qed.
Lemma loop_rootless : forall s, (forall d t, ev_args W root d t (st_args s) = ev_args W root' d t (st_args s)) ->
  forall dots out t, ev_loop W root s dots out t = ev_loop W root' s dots out t.
Proof.
  intros s H. induction dots as [|d dots IH]; intros out t; [reflexivity|]. cbn [ev_loop].
  assert (B : ev_body W root s d out t = ev_body W root' s d out t) by (unfold ev_body; rewrite H; reflexivity).
  rewrite B. destruct (ev_body W root' s d out t) as [[o t1]| | |]; try reflexivity. cbn [obind]. apply IH.
Qed.
Lemma step_rootless : forall s, (forall e, In (PExpr e) (st_args s) -> ~ part_of ERoot e) -> forall out t, ev_step W root s out t = ev_step W root' s out t.
Proof.
  intros s H out t. pose proof (args_rootless _ H) as A. pose proof (loop_rootless s A) as L. unfold ev_step. rewrite A.
  assert (S : forall p, ev_loop_step W root p s out t = ev_loop_step W root' p s out t)
    by (intro p; unfold ev_loop_step; destruct (g_list out); [reflexivity|]; destruct (p t _); apply L).
  destruct (st_op s); try reflexivity; apply S.
Qed.
Lemma path_rootless : forall ss, rootless ss -> forall out t, ev_path W root ss out t = ev_path W root' ss out t.
Proof.
  induction ss as [|s ss IH]; intros H out t; [reflexivity|]. cbn [ev_path]. rewrite step_rootless by (intros e He; eapply H; [left; reflexivity|exact He]).
  destruct (ev_step W root' s out t) as [[o t1]| | |]; try reflexivity. cbn [obind]. apply IH. intros s' e Hs. apply H. right. exact Hs.
Qed.
End root.

Lemma eval_relocated : forall TX s1 p jp1 s2 q jp2 s jp W t root v, accepted TX s1 p jp1 -> fits jp1 -> accepted TX s2 q jp2 -> fits jp2 ->
  accepted TX s (p ++ q) jp -> fits jp -> rootless q -> orders_ok W -> doc root -> JP_Eval W t jp1 root (OK [v]) ->
  exists t', forall r, JP_Eval W t jp root r <-> JP_Eval W t' jp2 v r.
Proof.
  intros TX s1 p jp1 s2 q jp2 s jp W t root v A1 F1 A2 F2 A F R O D E.
  assert (Dv : doc v) by (destruct (text_within TX s1 p jp1 A1 W t root [v] O E v (or_introl eq_refl)) as [H|[-> _]]; [eapply doc_within; eauto|apply docb_doc; reflexivity]).
  apply (text_eval TX s1 p jp1 A1 F1 W t root _ O D) in E. unfold ev_run in E.
  destruct (ev_path W root p (Some [root]) t) as [[o t1]| | |] eqn:P; try discriminate E. cbn [obind] in E. injection E as E.
  assert (G : o = Some [v]) by (destruct o as [l|]; cbn in E; [congruence|discriminate E]). subst o.
  exists t1. intro r. rewrite (text_eval TX s (p ++ q) jp A F W t root r O D), (text_eval TX s2 q jp2 A2 F2 W t1 v r O Dv).
  unfold ev_run. rewrite path_app, P. cbn [obind]. rewrite (path_rootless W root v q R). reflexivity.
Qed.

(** a test for examples *)
Fixpoint mentions_root (e : expr) : bool := match e with ERoot => true | EInner _ kids => existsb mentions_root kids | _ => false end.
Definition rootlessb (ss : path) : bool :=
  forallb (fun s => forallb (fun a => match a with PExpr e => negb (mentions_root e) | _ => true end) (st_args s)) ss.
Lemma rootlessb_ok : forall ss, rootlessb ss = true -> rootless ss.
Proof.
  intros ss H s e Hs He Hp. unfold rootlessb in H. rewrite forallb_forall in H. specialize (H s Hs). cbv beta in H. rewrite forallb_forall in H. specialize (H _ He). cbn in H.
  assert (M : mentions_root e = true); [|rewrite M in H; discriminate]. clear - Hp. induction Hp as [|o kids e Hin Hp IH]; [reflexivity|].
  cbn. apply existsb_exists. exists e. auto.
Qed.
