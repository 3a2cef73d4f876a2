(** Equal conditions can be exchanged in the filters of paths. *)
From Verif Require Import Syntax SpecSyntax Machine Coder Eval Api ProgramProofs CoderProofs MachineProofs SpecDoc DocProofs SpecSelect SpecRun SpecOp SpecExpr ExprProofs
  LogicProofs WalkProofs StepProofs EvalProofs TextProofs SpecText SpecCode SpecSem SemProofs SemFinal UniqueProofs OrderProofs EveryOrder UniquePath SpecLaws LawProofs
  SpecContext ContextProofs EquivProofs.
Import ListNotations.
Local Open Scope Z_scope.

Lemma recast_sym : forall e e' x x', recast e e' x x' -> recast e' e x' x.
Proof. intros e e' x x' H. induction H; [apply RcHere|apply RcSame|apply RcNot; assumption|apply RcBoth; assumption]. Qed.
Lemma recast_path_sym : forall e e' ss ss', recast_path e e' ss ss' -> recast_path e' e ss' ss.
Proof.
  intros e e' ss ss' H. eapply F2_swap; [exact H|]. intros s s' _ [? ? x x' Ho Eo A A' R|?]; [|apply RsSame].
  eapply RsFilter; [rewrite Eo; exact Ho|symmetry; exact Eo|exact A'|exact A|apply recast_sym, R].
Qed.

Section relational.
Variable W : world.
Variable root : val.
Variables e e' : expr.
Hypothesis HW : orders_ok W.
Hypothesis Hroot : doc root.
Hypothesis Q : forall dot r, doc dot -> turns_out W root dot e r -> turns_out W root dot e' r.

Lemma keeps_recast : forall x x' dots r, recast e e' x x' -> Forall doc dots -> keeps W root x dots r -> keeps W root x' dots r.
Proof.
  intros x x' dots r Hx Hd H. induction H as [|d v dots r M N K IH|d v dots r M N K IH|d err dots M]; inversion Hd; subst; [constructor|..].
  - assert (O : turns_out W root d x' (OK true)) by (eapply outs_recast; [exact HW|intro; apply Q; assumption|exact Hx|eapply ToTrue; eassumption]).
    inversion O; subst. eapply KpTrue; eauto.
  - assert (O : turns_out W root d x' (OK false)) by (eapply outs_recast; [exact HW|intro; apply Q; assumption|exact Hx|eapply ToFalse; eassumption]).
    inversion O; subst. eapply KpFalse; eauto.
  - assert (O : turns_out W root d x' (Fail err)) by (eapply outs_recast; [exact HW|intro; apply Q; assumption|exact Hx|eapply ToError; eassumption]).
    inversion O; subst. eapply KpError; eauto.
Qed.

Lemma step_recast : forall s s' cands r, recast_step e e' s s' -> Forall doc cands -> step_means W root s cands r -> step_means W root s' cands r.
Proof.
  intros s s' cands r [? ? x x' Ho Eo A A' R|?] Hc H; [|exact H].
  destruct H; try (destruct Ho; congruence);
    repeat match goal with E : is_select _ = true |- _ => destruct Ho as [Ho|Ho]; rewrite Ho in E; discriminate E
      | E : is_nest_select _ = true |- _ => destruct Ho as [Ho|Ho]; rewrite Ho in E; discriminate E end.
  - rewrite A in *. match goal with E : [_] = [_] |- _ => injection E as <- end.
    eapply SmFilter; [congruence|exact A'|eassumption|]. eapply keeps_recast; [exact R| |eassumption].
    eapply rounds_doc; [|exact Hc|eassumption]. apply children_sub.
  - rewrite A in *. match goal with E : [_] = [_] |- _ => injection E as <- end.
    eapply SmNestFilter; [congruence|exact A'|eassumption|]. eapply keeps_recast; [exact R| |eassumption].
    eapply rounds_doc; [|exact Hc|eassumption]. apply WalkProofs.walks_within.
Qed.

Lemma path_recast : forall ss ss', recast_path e e' ss ss' -> wf_path ss -> Forall (fun s => Forall arg_ok (st_args s)) ss ->
  forall cands r, Forall doc cands -> path_means W root ss cands r -> path_means W root ss' cands r.
Proof.
  intros ss ss' H. induction H as [|s s' ss ss' Hs H IH]; intros Hw Ha cands r Hc Hm; [exact Hm|].
  apply Forall_cons_iff in Hw as [Hw1 Hw2]. apply Forall_cons_iff in Ha as [Ha1 Ha2].
  inversion Hm; subst.
  - eapply PmStep; [eapply step_recast; eassumption|]. apply IH; try assumption. eapply step_docs; eassumption.
  - eapply PmError, step_recast; eassumption.
  - eapply PmPanic, step_recast; eassumption.
Qed.
End relational.

Theorem eval_recast : forall TX TX' s ss jp s' ss' jp' W t root e e', accepted TX s ss jp -> fits jp -> accepted TX' s' ss' jp' -> fits jp' ->
  orders_ok W -> doc root -> recast_path e e' ss ss' -> alike W root e e' -> forall r,
  (exists perm, orders_ok (reordered W perm) /\ JP_Eval (reordered W perm) t jp root r) <->
  (exists perm, orders_ok (reordered W perm) /\ JP_Eval (reordered W perm) t jp' root r).
Proof.
  intros TX TX' s ss jp s' ss' jp' W t root e e' A F A' F' HW Hr X Q r.
  rewrite <- (text_every TX s ss jp W t root r A F HW Hr), <- (text_every TX' s' ss' jp' W t root r A' F' HW Hr).
  assert (Hc : Forall doc [root]) by (constructor; [exact Hr|constructor]).
  pose proof (text_wf _ _ _ _ A) as Hw. pose proof (text_wf _ _ _ _ A') as Hw'.
  split; intro H.
  - eapply (path_recast W root e e' HW Hr); try eassumption; [intros dot r0 Hd; apply Q, Hd|].
    apply small_args; [exact Hw|eapply text_small; eassumption].
  - eapply (path_recast W root e' e HW Hr); try eassumption; [intros dot r0 Hd; apply Q, Hd|apply recast_path_sym, X|].
    apply small_args; [exact Hw'|eapply text_small; eassumption].
Qed.

(** ** With the same orders *)
Section direct.
Variable W : world.
Variable root : val.
Variables e e' : expr.
Hypothesis HW : orders_ok W.
Hypothesis Hroot : doc root.
Hypothesis Q : alike W root e e'.
Hypothesis K : SpecLaws.keyless e.
Hypothesis K' : SpecLaws.keyless e'.

Definition same_cond (r r' : M (val * nat)) : Prop :=
  match r, r' with
  | OK (v, t), OK (v', t') => cvb W v = cvb W v' /\ t = t'
  | Fail x, Fail y => x = y
  | Panics, Panics | OutOfFuel, OutOfFuel => True
  | _, _ => False
  end.
Lemma same_refl : forall r, same_cond r r.
Proof. intros [[v t]| | |]; cbn; auto. Qed.

Lemma cond_here : forall d, doc d -> good_expr e -> good_expr e' -> forall t, same_cond (ev W root d t e) (ev W root d t e').
Proof.
  intros d Hd [Hw Hn] [Hw' Hn'] t. destruct (ev_fixed W root d e Hw K) as [r E], (ev_fixed W root d e' Hw' K') as [r' E'].
  destruct (ev_keyless W root HW d t e r Hw K Hn E) as [M U]. destruct (ev_keyless W root HW d t e' r' Hw' K' Hn' E') as [M' U'].
  pose proof (ev_clean W root e Hw d t) as [C1 C2]. pose proof (ev_clean W root e' Hw' d t) as [C1' C2'].
  rewrite E in *. rewrite E' in *.
  destruct r as [v|x| |]; cbn [obind] in *; try congruence.
  - assert (O : turns_out W root d e (OK (cvb W v))) by (apply outs_ok; eauto).
    apply (Q d _ Hd) in O. apply outs_ok in O as (v' & M2 & Ev). apply U' in M2. subst r'. cbn. split; congruence.
  - assert (O : turns_out W root d e (Fail x)) by (apply outs_fail; eauto).
    apply (Q d _ Hd) in O. apply outs_fail in O. apply U' in O. subst r'. reflexivity.
Qed.

Lemma ev_two : forall d t o a b, ev W root d t (EInner o [a; b]) =
  let! (va, t1) := ev W root d t a in let! (vb, t2) := ev W root d t1 b in apply_op W t2 o [va; vb].
Proof.
  intros d t o a b. rewrite ev_inner. cbn [evs]. destruct (ev W root d t a) as [[va t1]| | |]; cbn [obind]; try reflexivity.
  destruct (ev W root d t1 b) as [[vb t2]| | |]; reflexivity.
Qed.

Lemma cond_recast : forall d, doc d -> forall x x', recast e e' x x' -> good_expr x -> good_expr x' -> forall t, same_cond (ev W root d t x) (ev W root d t x').
Proof.
  intros d Hd x x' H. induction H as [|x|x x' H IH|o a b a' b' Ho H1 IH1 H2 IH2]; intros G G' t; [apply cond_here; assumption|apply same_refl|..].
  - apply good_kids in G, G'. inversion G; subst. inversion G'; subst. rewrite !ev_not.
    match goal with A : good_expr x, B : good_expr x' |- _ => specialize (IH A B t) end.
    destruct (ev W root d t x) as [[v t1]| | |], (ev W root d t x') as [[v' t1']| | |]; cbn in *; try contradiction; auto.
    destruct IH as [-> ->]. auto.
  - apply good_kids in G, G'. inversion G as [|? ? Ga G1]; subst. inversion G1 as [|? ? Gb _]; subst. inversion G' as [|? ? Ga' G1']; subst. inversion G1' as [|? ? Gb' _]; subst.
    rewrite !ev_two. specialize (IH1 Ga Ga' t).
    destruct (ev W root d t a) as [[va t1]| | |], (ev W root d t a') as [[va' t1']| | |]; cbn [obind same_cond] in *; try contradiction; auto.
    destruct IH1 as [Ea <-]. specialize (IH2 Gb Gb' t1).
    destruct (ev W root d t1 b) as [[vb t2]| | |], (ev W root d t1 b') as [[vb' t2']| | |]; cbn [obind same_cond] in *; try contradiction; auto.
    destruct IH2 as [Eb <-]. destruct (cond_two W o Ho) as (f & B & F & C).
    assert (A : forall x y, apply_op W t2 o [x; y] = OK (f x y, t2)) by (intros; destruct Ho as [->| ->]; cbn [apply_op]; rewrite F; reflexivity).
    rewrite !A. cbn. rewrite !C, Ea, Eb. auto.
Qed.

Lemma loop_cond : forall s s' x x', st_op s = OpFilter \/ st_op s = OpNestFilter -> st_op s' = st_op s -> st_args s = [PExpr x] -> st_args s' = [PExpr x'] ->
  recast e e' x x' -> good_expr x -> good_expr x' ->
  forall dots out t, Forall doc dots -> ev_loop W root s dots out t = ev_loop W root s' dots out t.
Proof.
  intros s s' x x' Ho Eo A A' R G G' dots. induction dots as [|d dots IH]; intros out t Hd; [reflexivity|]. inversion Hd; subst. cbn [ev_loop].
  assert (E : ev_body W root s d out t = ev_body W root s' d out t).
  { unfold ev_body. rewrite Eo, A, A'. cbn [ev_args ev_arg].
    match goal with D : doc d |- _ => pose proof (cond_recast d D x x' R G G' t) as S end.
    destruct (ev W root d t x) as [[v t1]| | |], (ev W root d t x') as [[v' t1']| | |]; cbn [obind same_cond] in *; try contradiction; try congruence.
    destruct S as [Ev <-].
    assert (N : negb (isNothing v) && cvb W v = negb (isNothing v') && cvb W v').
    { rewrite Ev. pose proof (failure_false W v) as N. pose proof (failure_false W v') as N'.
      destruct (isNothing v), (isNothing v'), (cvb W v'); try reflexivity; try (specialize (N eq_refl); congruence); specialize (N' eq_refl); congruence. }
    destruct Ho as [-> | ->]; rewrite N; reflexivity. }
  rewrite E. destruct (ev_body W root s' d out t) as [[g t1]| | |]; cbn [obind]; try reflexivity. apply IH. assumption.
Qed.

Lemma step_cond : forall s s' out t, recast_step e e' s s' -> Forall arg_ok (st_args s) -> Forall arg_ok (st_args s') -> Forall doc (g_list out) ->
  ev_step W root s out t = ev_step W root s' out t.
Proof.
  intros s s' out t [s0 s1 x x' Ho Eo A A' R|?] Ga Ga' Hc; [|reflexivity].
  rewrite A in Ga. rewrite A' in Ga'. inversion Ga as [|? ? G _]; subst. inversion Ga' as [|? ? G' _]; subst. cbn [arg_ok] in G, G'.
  unfold ev_step. rewrite Eo.
  assert (P : forall prod (pick : val -> list val -> Prop), (forall v l x, pick v l -> In x l -> within x v) ->
    (forall cands t, gathers pick cands (fst (prod t cands))) -> ev_loop_step W root prod s0 out t = ev_loop_step W root prod s1 out t).
  { intros prod pick Hp Hg. unfold ev_loop_step. destruct (g_list out) as [|c cands]; [reflexivity|]. specialize (Hg (c :: cands) t).
    destruct (prod t (c :: cands)) as [dots t1]. cbn [fst] in Hg. eapply (loop_cond s0 s1 x x'); try eassumption; [split; apply G|split; apply G'|]. apply loop_dots_doc. eapply gathers_doc; eassumption. }
  destruct Ho as [-> | ->];
    first [apply (P _ _ WalkProofs.walks_within (walker_gathers W HW))|apply (P _ _ children_sub (stepping_gathers W HW))].
Qed.

Lemma path_cond : forall ss ss', recast_path e e' ss ss' -> wf_path ss -> Forall (fun s => Forall arg_ok (st_args s)) ss ->
  Forall (fun s => Forall arg_ok (st_args s)) ss' -> forall out t, Forall doc (g_list out) -> ev_path W root ss out t = ev_path W root ss' out t.
Proof.
  intros ss ss' H. induction H as [|s s' ss ss' Hs H IH]; intros Hw A A' out t Hc; [reflexivity|].
  apply Forall_cons_iff in Hw as [Hw1 Hw2]. apply Forall_cons_iff in A as [A1 A2]. apply Forall_cons_iff in A' as [A1' A2']. cbn [ev_path].
  destruct (step_outcome W root doc false HW (fun v c Hv => doc_child c v Hv) doc_node (doc_noslice root Hroot)
    s out t Hw1 (guard_of_wf doc s Hw1) (fun _ => DocProofs.doc_nil) Hc) as [_ Hd].
  rewrite <- (step_cond s s') by assumption. destruct (ev_step W root s out t) as [[g t1]| | |]; cbn [obind]; try reflexivity.
  apply IH; try assumption. eapply Hd; reflexivity.
Qed.
End direct.

Theorem eval_same_recast : forall TX TX' s ss jp s' ss' jp' W t root e e', accepted TX s ss jp -> fits jp -> accepted TX' s' ss' jp' -> fits jp' ->
  orders_ok W -> doc root -> recast_path e e' ss ss' -> alike W root e e' -> SpecLaws.keyless e -> SpecLaws.keyless e' ->
  forall r, JP_Eval W t jp root r <-> JP_Eval W t jp' root r.
Proof.
  intros TX TX' s ss jp s' ss' jp' W t root e e' A F A' F' HW Hr X Q K K' r.
  rewrite (text_eval TX s ss jp A F W t root r HW Hr), (text_eval TX' s' ss' jp' A' F' W t root r HW Hr). unfold ev_run.
  rewrite (path_cond W root e e' HW Hr Q K K' ss ss' X); [reflexivity|eapply text_wf; eassumption| | |constructor; [exact Hr|constructor]].
  - apply small_args; [eapply text_wf; eassumption|eapply text_small; eassumption].
  - apply small_args; [eapply text_wf; eassumption|eapply text_small; eassumption].
Qed.
