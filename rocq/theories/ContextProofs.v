(** Equivalent expressions can be exchanged in paths. *)
From Verif Require Import Syntax SpecSyntax Machine Coder Eval Api ProgramProofs CoderProofs MachineProofs SpecDoc DocProofs SpecSelect SpecRun SpecOp
  WalkProofs StepProofs EvalProofs TextProofs SpecText SpecCode SpecSem SemProofs SemFinal UniqueProofs OrderProofs EveryOrder UniquePath SpecLaws LawProofs SpecContext.
Import ListNotations.
Local Open Scope Z_scope.

Lemma F2_swap : forall A B (R : A -> B -> Prop) (S : B -> A -> Prop) l l', Forall2 R l l' -> (forall a b, In a l -> R a b -> S b a) -> Forall2 S l' l.
Proof.
  intros A B R S l l' H. induction H as [|a b l l' H1 H IH]; intro K; constructor; [apply K; [left; reflexivity|exact H1]|].
  apply IH. intros x y Hx. apply K. right. exact Hx.
Qed.

Lemma exchanged_sym : forall e e' x x', exchanged e e' x x' -> exchanged e' e x' x.
Proof.
  intros e e'. induction x using expr_tree_ind; intros x' H0; inversion H0; subst; try apply ExHere; try apply ExSame.
  apply ExInner. eapply F2_swap; [eassumption|]. intros a b Ha Hab. rewrite Forall_forall in H. apply H; assumption.
Qed.
Lemma exchanged_path_sym : forall e e' ss ss', exchanged_path e e' ss ss' -> exchanged_path e' e ss' ss.
Proof.
  intros e e' ss ss' H. eapply F2_swap; [exact H|]. intros s s' _ [E F]. split; [symmetry; exact E|].
  eapply F2_swap; [exact F|]. intros a b _ [x x' K|k]; [apply ExExpr, exchanged_sym, K|apply ExKey].
Qed.

Section relational.
Variable W : world.
Variable root : val.
Variables e e' : expr.
Hypothesis HW : orders_ok W.
Hypothesis Hroot : doc root.
Hypothesis Q : forall dot r, doc dot -> means W root dot e r -> means W root dot e' r.

Lemma F2_exchanged : forall dot kids kids' vs, Forall2 (exchanged e e') kids kids' ->
  Forall (fun x => forall x', exchanged e e' x x' -> forall r, means W root dot x r -> means W root dot x' r) kids ->
  Forall2 (fun x v => means W root dot x (OK v)) kids vs -> Forall2 (fun x v => means W root dot x (OK v)) kids' vs.
Proof.
  intros dot kids kids' vs H. revert vs. induction H as [|x x' kids kids' H1 H IH]; intros vs HF F; inversion F; subst; [constructor|].
  inversion HF; subst. constructor; [eauto|]. apply IH; assumption.
Qed.

Lemma means_exchanged : forall dot, doc dot -> forall x x', exchanged e e' x x' -> forall r, means W root dot x r -> means W root dot x' r.
Proof.
  intros dot Hd. induction x using expr_tree_ind; intros x' Hx r Hm; inversion Hx; subst; try assumption; try (apply Q; assumption).
  inversion Hm as [? ? Hl|? ? vs ? F Y|? pre a post vs err F E]; subst; [inversion Hl| |].
  - eapply MnInner; [|exact Y]. eapply F2_exchanged; eassumption.
  - match goal with K : Forall2 (exchanged e e') _ kids' |- _ => destruct (Forall2_app_inv_l _ _ K) as (pre' & rest' & K1 & K2 & ->) end.
    inversion K2 as [|? a' ? post' Ka Kp]; subst. apply Forall_app in H as [H1 H2]. inversion H2; subst.
    eapply MnError; [eapply F2_exchanged; eassumption|eauto].
Qed.

Lemma arg_exchanged : forall dot back a a' r, doc dot -> exchanged_arg e e' a a' -> arg_means W root dot back a r -> arg_means W root dot back a' r.
Proof.
  intros dot back a a' r Hd [x x' H|k] Hm; [|exact Hm].
  inversion Hm; subst; [eapply AmExpr; [eapply means_exchanged; eassumption|assumption]|eapply AmError, means_exchanged; eassumption].
Qed.

Lemma F2_args : forall dot back args args' os, doc dot -> Forall2 (exchanged_arg e e') args args' ->
  Forall2 (fun a o => arg_means W root dot back a (OK o)) args os -> Forall2 (fun a o => arg_means W root dot back a (OK o)) args' os.
Proof.
  intros dot back args args' os Hd H. revert os. induction H as [|a a' args args' H1 H IH]; intros os F; inversion F; subst; [constructor|].
  constructor; [eapply arg_exchanged; eassumption|]. apply IH. assumption.
Qed.

Lemma args_exchanged : forall dot back args args' r, doc dot -> Forall2 (exchanged_arg e e') args args' ->
  args_mean W root dot back args r -> args_mean W root dot back args' r.
Proof.
  intros dot back args args' r Hd H Hm. inversion Hm as [? os F|pre a post os err F E]; subst.
  - apply AsOK. eapply F2_args; eassumption.
  - destruct (Forall2_app_inv_l _ _ H) as (pre' & rest' & K1 & K2 & ->). inversion K2 as [|? a' ? post' Ka Kp]; subst.
    eapply AsError; [eapply F2_args; eassumption|eapply arg_exchanged; eassumption].
Qed.

Lemma keeps_exchanged : forall x x' dots r, exchanged e e' x x' -> Forall doc dots -> keeps W root x dots r -> keeps W root x' dots r.
Proof.
  intros x x' dots r Hx Hd H. induction H; inversion Hd; subst; [constructor|..].
  - eapply KpTrue; [eapply means_exchanged; eassumption|assumption|auto].
  - eapply KpFalse; [eapply means_exchanged; eassumption|assumption|auto].
  - eapply KpError, means_exchanged; eassumption.
Qed.

Lemma sweeps_exchanged : forall back args args' dots r, Forall2 (exchanged_arg e e') args args' -> Forall doc dots ->
  sweeps W root back args dots r -> sweeps W root back args' dots r.
Proof.
  intros back args args' dots r Ha Hd H. induction H; inversion Hd; subst; [constructor|..].
  - eapply SwDot; [eapply args_exchanged; eassumption|assumption|auto].
  - eapply SwOverflow; [eapply args_exchanged; eassumption|assumption].
  - eapply SwError, args_exchanged; eassumption.
Qed.

Lemma rounds_doc : forall (pick : val -> list val -> Prop) cands dots, (forall v l x, pick v l -> In x l -> within x v) -> Forall doc cands -> rounds pick cands dots -> Forall doc dots.
Proof.
  intros pick cands dots Hp Hc H. inversion H; subst; [constructor|constructor; [apply DocProofs.doc_nil|constructor]|].
  eapply gathers_doc; eassumption.
Qed.

Lemma step_exchanged : forall s s' cands r, exchanged_step e e' s s' -> Forall doc cands -> step_means W root s cands r -> step_means W root s' cands r.
Proof.
  intros s s' cands r [Eo Ha] Hc H. destruct H.
  - apply SmWild; congruence.
  - eapply SmSelect; rewrite <- ?Eo; try eassumption. eapply args_exchanged; [apply DocProofs.doc_nil|exact Ha|assumption].
  - eapply SmOverflow; rewrite <- ?Eo; try eassumption. eapply args_exchanged; [apply DocProofs.doc_nil|exact Ha|assumption].
  - eapply SmError; rewrite <- ?Eo; try eassumption. eapply args_exchanged; [apply DocProofs.doc_nil|exact Ha|assumption].
  - match goal with E : st_args s = _ |- _ => rewrite E in Ha end. inversion Ha as [|? a' ? l' Ka Kl Ea El]; subst. inversion Kl; subst.
    assert (exists x', a' = PExpr x' /\ exchanged e e' e0 x') as (x' & -> & Kx) by (inversion Ka; subst; eauto using ExSame).
    eapply SmFilter; [congruence|symmetry; eassumption|eassumption|]. eapply keeps_exchanged; [eassumption| |eassumption].
    eapply rounds_doc; [|exact Hc|eassumption]. apply children_sub.
  - eapply SmNestWild; [congruence|eassumption|eassumption].
  - match goal with E : st_args s = _ |- _ => rewrite E in Ha end. inversion Ha as [|? a' ? l' Ka Kl Ea El]; subst. inversion Kl; subst.
    assert (exists x', a' = PExpr x' /\ exchanged e e' e0 x') as (x' & -> & Kx) by (inversion Ka; subst; eauto using ExSame).
    eapply SmNestFilter; [congruence|symmetry; eassumption|eassumption|]. eapply keeps_exchanged; [eassumption| |eassumption].
    eapply rounds_doc; [|exact Hc|eassumption]. apply WalkProofs.walks_within.
  - eapply SmNest; rewrite <- ?Eo; try eassumption. eapply sweeps_exchanged; [exact Ha| |eassumption].
    eapply rounds_doc; [|exact Hc|eassumption]. apply WalkProofs.walks_within.
  - eapply SmNestError; rewrite <- ?Eo; try eassumption. eapply sweeps_exchanged; [exact Ha| |eassumption].
    eapply rounds_doc; [|exact Hc|eassumption]. apply WalkProofs.walks_within.
  - eapply SmNestOverflow; rewrite <- ?Eo; try eassumption. eapply sweeps_exchanged; [exact Ha| |eassumption].
    eapply rounds_doc; [|exact Hc|eassumption]. apply WalkProofs.walks_within.
Qed.

Lemma step_docs : forall s cands l, wf_step s -> Forall arg_ok (st_args s) -> Forall doc cands -> step_means W root s cands (OK l) -> Forall doc l.
Proof.
  intros s cands l Hw Ha Hc H.
  destruct (step_reach W root Hroot s (Some cands) (OK l) Hw Ha Hc H) as (r' & (g & -> & Eg) & Hr). cbn [g_list app] in Eg.
  destruct (Hr (w_perm W) 0%nat HW) as (p & Vp & _ & E). unfold stepc in E.
  destruct (step_outcome (reordered W p) root doc false Vp (fun v c Hv => doc_child c v Hv) doc_node (doc_noslice root Hroot)
    s (Some cands) 0%nat Hw (guard_of_wf doc s Hw) (fun _ => DocProofs.doc_nil) Hc) as [_ Hd].
  destruct (ev_step (reordered W p) root s (Some cands) 0%nat) as [[g' t']| | |]; try discriminate E. injection E as ->.
  rewrite <- Eg. eapply Hd; reflexivity.
Qed.

Lemma path_exchanged : forall ss ss', exchanged_path e e' ss ss' -> wf_path ss -> Forall (fun s => Forall arg_ok (st_args s)) ss ->
  forall cands r, Forall doc cands -> path_means W root ss cands r -> path_means W root ss' cands r.
Proof.
  intros ss ss' H. induction H as [|s s' ss ss' Hs H IH]; intros Hw Ha cands r Hc Hm; [exact Hm|].
  apply Forall_cons_iff in Hw as [Hw1 Hw2]. apply Forall_cons_iff in Ha as [Ha1 Ha2].
  inversion Hm; subst.
  - eapply PmStep; [eapply step_exchanged; eassumption|]. apply IH; try assumption. eapply step_docs; eassumption.
  - eapply PmError, step_exchanged; eassumption.
  - eapply PmPanic, step_exchanged; eassumption.
Qed.
End relational.

Theorem eval_context : forall TX TX' s ss jp s' ss' jp' W t root e e', accepted TX s ss jp -> fits jp -> accepted TX' s' ss' jp' -> fits jp' ->
  orders_ok W -> doc root -> exchanged_path e e' ss ss' -> equivalent W root e e' -> forall r,
  (exists perm, orders_ok (reordered W perm) /\ JP_Eval (reordered W perm) t jp root r) <->
  (exists perm, orders_ok (reordered W perm) /\ JP_Eval (reordered W perm) t jp' root r).
Proof.
  intros TX TX' s ss jp s' ss' jp' W t root e e' A F A' F' HW Hr X Q r.
  rewrite <- (text_every TX s ss jp W t root r A F HW Hr), <- (text_every TX' s' ss' jp' W t root r A' F' HW Hr).
  assert (Hc : Forall doc [root]) by (constructor; [exact Hr|constructor]).
  pose proof (text_wf _ _ _ _ A) as Hw. pose proof (text_wf _ _ _ _ A') as Hw'.
  split; intro H.
  - eapply (path_exchanged W root e e' HW Hr); try eassumption; [intros dot r0 Hd; apply Q, Hd|].
    apply small_args; [exact Hw|eapply text_small; eassumption].
  - eapply (path_exchanged W root e' e HW Hr); try eassumption; [intros dot r0 Hd; apply Q, Hd|apply exchanged_path_sym, X|].
    apply small_args; [exact Hw'|eapply text_small; eassumption].
Qed.

(** ** With the same orders *)
Section direct.
Variable W : world.
Variable root : val.
Variables e e' : expr.
Hypothesis HW : orders_ok W.
Hypothesis Hroot : doc root.
Hypothesis Q : equivalent W root e e'.
Hypothesis K : SpecLaws.keyless e.
Hypothesis K' : SpecLaws.keyless e'.

Lemma ev_keyless : forall d (t : nat) x r, wf_expr x -> SpecLaws.keyless x -> narrow (list_expr x) -> (forall t, ev W root d t x = let! v := r in OK (v, t)) ->
  means W root d x r /\ forall r', means W root d x r' -> r' = r.
Proof.
  intros d t x r Hw Hk Hn E. split.
  - pose proof (ev_means W root HW x Hw Hn d t) as H. rewrite E in H. destruct r; exact H.
  - intros r' H. pose proof (ev_reach W root x Hw d r' H) as R. destruct (R (w_perm W) t HW) as (p & _ & _ & E'). unfold evc in E'.
    destruct (ev_every W root d x Hw Hk) as [r0 E0]. rewrite E0 in E'. specialize (E0 (w_perm W) t). rewrite reordered_self, E in E0.
    destruct r' as [v| | |], r0 as [v0| | |], r as [v1| | |]; cbn in *; congruence.
Qed.

Lemma ev_here : forall d, doc d -> wf_expr e -> wf_expr e' -> narrow (list_expr e) -> narrow (list_expr e') -> forall t, ev W root d t e = ev W root d t e'.
Proof.
  intros d Hd Hw Hw' Hn Hn' t. destruct (ev_fixed W root d e Hw K) as [r E], (ev_fixed W root d e' Hw' K') as [r' E'].
  destruct (ev_keyless d t e r Hw K Hn E) as [M _]. destruct (ev_keyless d t e' r' Hw' K' Hn' E') as [_ U].
  apply Q in M; [|exact Hd]. apply U in M. subst r'. rewrite E, E'. reflexivity.
Qed.

Definition good_expr (x : expr) : Prop := wf_expr x /\ narrow (list_expr x).
Lemma good_kids : forall o kids, good_expr (EInner o kids) -> Forall good_expr kids.
Proof.
  intros o kids [Hw Hn]. pose proof (wf_inner _ _ Hw) as (Hk & _). cbn [list_expr] in Hn. apply narrow_app in Hn as [Hn _].
  rewrite Forall_forall in *. intros x Hx. split; [auto|]. eapply narrow_in; eassumption.
Qed.

Lemma exchanged_inv : forall x x', exchanged e e' x x' -> x = e /\ x' = e' \/ x = x' \/
  exists o kids kids', x = EInner o kids /\ x' = EInner o kids' /\ Forall2 (exchanged e e') kids kids'.
Proof. intros x x' [ |y|o k k' F]; [left; split; reflexivity|right; left; reflexivity|right; right; exists o, k, k'; repeat split; exact F]. Qed.

Lemma ev_exchanged : forall d, doc d -> forall x x', exchanged e e' x x' -> good_expr x -> good_expr x' -> forall t, ev W root d t x = ev W root d t x'.
Proof.
  intros d Hd. induction x using expr_tree_ind; intros x' Hx G G' t; (destruct (exchanged_inv _ _ Hx) as [[E1 E2]|[E1|(o' & k & kids' & E1 & E2 & F)]];
    [rewrite E1, E2 in *; apply ev_here; [exact Hd|apply G|apply G'|apply G|apply G']|rewrite E1; reflexivity|try discriminate E1]).
  injection E1 as <- <-. subst x'.
  rewrite !ev_inner. assert (E : forall t, evs W root d t kids = evs W root d t kids'); [|rewrite E; reflexivity].
  apply good_kids in G, G'. clear Hx t. induction F as [|x x' l l' H1 F IH]; intro t; [reflexivity|].
  inversion H; subst. inversion G; subst. inversion G'; subst. cbn [evs].
  match goal with A : forall x' : expr, _ |- _ => rewrite (A x') by assumption end.
  destruct (ev W root d t x') as [[v t1]| | |]; cbn [obind]; try reflexivity. rewrite IH by assumption. reflexivity.
Qed.

Lemma args_ev : forall d, doc d -> forall args args', Forall2 (exchanged_arg e e') args args' -> Forall arg_ok args -> Forall arg_ok args' ->
  forall t, ev_args W root d t args = ev_args W root d t args'.
Proof.
  intros d Hd args args' F. induction F as [|a a' l l' Ha F IH]; intros A A' t; [reflexivity|].
  inversion A as [|? ? A1 A2]; subst. inversion A' as [|? ? A1' A2']; subst. cbn [ev_args].
  assert (E : ev_arg W root d t a = ev_arg W root d t a').
  { destruct Ha as [x x' Hx|k]; [|reflexivity]. apply ev_exchanged; [exact Hd|exact Hx|apply A1|apply A1']. }
  rewrite E. destruct (ev_arg W root d t a') as [[v t1]| | |]; cbn [obind]; try reflexivity. rewrite IH by assumption. reflexivity.
Qed.

Lemma loop_ev : forall s s', exchanged_step e e' s s' -> Forall arg_ok (st_args s) -> Forall arg_ok (st_args s') ->
  forall dots out t, Forall doc dots -> ev_loop W root s dots out t = ev_loop W root s' dots out t.
Proof.
  intros s s' [Eo F] A A' dots. induction dots as [|d dots IH]; intros out t Hd; [reflexivity|]. inversion Hd; subst. cbn [ev_loop].
  assert (E : ev_body W root s d out t = ev_body W root s' d out t).
  { unfold ev_body. rewrite <- Eo, (args_ev d) with (args' := st_args s') by assumption. reflexivity. }
  rewrite E. destruct (ev_body W root s' d out t) as [[g t1]| | |]; cbn [obind]; try reflexivity. apply IH. assumption.
Qed.

Lemma step_ev : forall s s' out t, exchanged_step e e' s s' -> Forall arg_ok (st_args s) -> Forall arg_ok (st_args s') -> Forall doc (g_list out) ->
  ev_step W root s out t = ev_step W root s' out t.
Proof.
  intros s s' out t X A A' Hc. pose proof X as [Eo F]. unfold ev_step. rewrite <- Eo.
  rewrite (args_ev VNil DocProofs.doc_nil _ _ F A A').
  assert (P : forall prod (pick : val -> list val -> Prop), (forall v l x, pick v l -> In x l -> within x v) ->
    (forall cands t, gathers pick cands (fst (prod t cands))) -> ev_loop_step W root prod s out t = ev_loop_step W root prod s' out t).
  { intros prod pick Hp Hg. unfold ev_loop_step. destruct (g_list out) as [|c cands]; [reflexivity|]. specialize (Hg (c :: cands) t).
    destruct (prod t (c :: cands)) as [dots t1]. cbn [fst] in Hg. apply loop_ev; try assumption. apply loop_dots_doc. eapply gathers_doc; eassumption. }
  destruct (st_op s); try reflexivity;
    first [apply (P _ _ WalkProofs.walks_within (walker_gathers W HW))|apply (P _ _ children_sub (stepping_gathers W HW))].
Qed.

Lemma path_ev : forall ss ss', exchanged_path e e' ss ss' -> wf_path ss -> Forall (fun s => Forall arg_ok (st_args s)) ss ->
  Forall (fun s => Forall arg_ok (st_args s)) ss' -> forall out t, Forall doc (g_list out) -> ev_path W root ss out t = ev_path W root ss' out t.
Proof.
  intros ss ss' H. induction H as [|s s' ss ss' Hs H IH]; intros Hw A A' out t Hc; [reflexivity|].
  apply Forall_cons_iff in Hw as [Hw1 Hw2]. apply Forall_cons_iff in A as [A1 A2]. apply Forall_cons_iff in A' as [A1' A2']. cbn [ev_path].
  destruct (step_outcome W root doc false HW (fun v c Hv => doc_child c v Hv) doc_node (doc_noslice root Hroot)
    s out t Hw1 (guard_of_wf doc s Hw1) (fun _ => DocProofs.doc_nil) Hc) as [_ Hd].
  rewrite <- (step_ev s s') by assumption. destruct (ev_step W root s out t) as [[g t1]| | |]; cbn [obind]; try reflexivity.
  apply IH; try assumption. eapply Hd; reflexivity.
Qed.
End direct.

Theorem eval_same_context : forall TX TX' s ss jp s' ss' jp' W t root e e', accepted TX s ss jp -> fits jp -> accepted TX' s' ss' jp' -> fits jp' ->
  orders_ok W -> doc root -> exchanged_path e e' ss ss' -> equivalent W root e e' -> SpecLaws.keyless e -> SpecLaws.keyless e' ->
  forall r, JP_Eval W t jp root r <-> JP_Eval W t jp' root r.
Proof.
  intros TX TX' s ss jp s' ss' jp' W t root e e' A F A' F' HW Hr X Q K K' r.
  rewrite (text_eval TX s ss jp A F W t root r HW Hr), (text_eval TX' s' ss' jp' A' F' W t root r HW Hr). unfold ev_run.
  rewrite (path_ev W root e e' HW Hr Q K K' ss ss' X); [reflexivity|eapply text_wf; eassumption| | |constructor; [exact Hr|constructor]].
  - apply small_args; [eapply text_wf; eassumption|eapply text_small; eassumption].
  - apply small_args; [eapply text_wf; eassumption|eapply text_small; eassumption].
Qed.
