(** Meanings of steps and paths: unique on documents without objects of several members,
    unique up to the order of results for paths without slices and keys(). *)
From Coq Require Import QArith Permutation.
From Verif Require Import SpecSyntax Machine Eval ProgramProofs StackProofs MachineProofs CoderProofs SpecDoc DocProofs SpecSelect
  SpecRun SelectProofs WalkProofs ExprProofs SpecCode StepExact SpecOp OpProofs SpecExpr LogicProofs ArithProofs FloatProofs
  SaneProofs SpecText SpecSem SemProofs SemFinal UniqueProofs.
Local Open Scope Z_scope.

(** ** What steps select is in the candidates, or null *)
Lemma picks_within : forall s v l x, picks s v l -> In x l -> within x v.
Proof.
  assert (HN : forall k v l x, picks_name k v l -> In x l -> within x v).
  { intros k v l x H Hx. destruct H; cbn [In] in Hx; try contradiction. destruct Hx as [<-|[]].
    eapply WMember; [eassumption|constructor]. }
  intros s v l x H Hx. destruct H; eauto; try contradiction.
  - destruct Hx as [<-|[]]. destruct H0 as [_ H0]. eapply WElem; [eapply nth_error_In; exact H0|constructor].
  - destruct (Forall2_in_r _ _ _ _ _ _ H0 Hx) as (i & _ & _ & Hi). eapply WElem; [eapply nth_error_In; exact Hi|constructor].
Qed.

Lemma children_sub : forall v l x, children_in_order v l -> In x l -> within x v.
Proof. intros v l x H Hx. apply within_child. eapply children_within; eauto. Qed.

Section closed.
Variable G : val -> Prop.
Hypothesis Gnil : G VNil.
Hypothesis Gsub : forall x v, G v -> within x v -> G x.

Lemma gathers_closed : forall (pick : val -> list val -> Prop) cands dots,
  (forall v l x, pick v l -> In x l -> within x v) -> Forall G cands -> gathers pick cands dots -> Forall G dots.
Proof.
  intros pick cands dots Hp Hc (ls & Hls & ->). apply Forall_forall. intros x Hx.
  apply in_concat in Hx as (y & Hy & Hxy). destruct (Forall2_in_r _ _ _ _ _ _ Hls Hy) as (v & Hv & Hvy).
  rewrite Forall_forall in Hc. exact (Gsub x v (Hc v Hv) (Hp v y x Hvy Hxy)).
Qed.

Lemma rounds_closed : forall (pick : val -> list val -> Prop) cands dots,
  (forall v l x, pick v l -> In x l -> within x v) -> Forall G cands -> rounds pick cands dots -> Forall G dots.
Proof. intros pick cands dots Hp Hc H. destruct H; auto. eapply gathers_closed; eauto. Qed.

Lemma keeps_closed : forall W root e dots r l, keeps W root e dots r -> Forall G dots -> r = OK l -> Forall G l.
Proof.
  intros W root e dots r l H. revert l. induction H; intros l Hd E.
  - injection E as <-. constructor.
  - apply Forall_cons_iff in Hd as [Hd Hds]. destruct r; try discriminate. cbn [obind] in E. injection E as <-.
    constructor; auto.
  - apply Forall_cons_iff in Hd as [Hd Hds]. auto.
  - discriminate.
Qed.

Lemma collects_closed : forall apps l, Forall (fun a => G (snd a)) apps -> collects apps l -> Forall G l.
Proof.
  intros apps l Ha (b & a & -> & _ & _ & ls & Hls & ->). apply Forall_app in Ha as [_ Ha].
  apply Forall_forall. intros x Hx. apply in_concat in Hx as (y & Hy & Hxy).
  destruct (Forall2_in_r _ _ _ _ _ _ Hls Hy) as (v & Hv & Hvy). rewrite Forall_forall in Ha.
  eapply Gsub; [apply (Ha v Hv)|eapply picks_within; eauto].
Qed.

Lemma applications_closed : forall sels cands, Forall G cands -> Forall (fun a => G (snd a)) (applications sels cands).
Proof.
  intros sels cands H. apply Forall_forall. intros a Ha. apply in_flat_map in Ha as (v & Hv & Ha).
  apply in_map_iff in Ha as (s & <- & _). rewrite Forall_forall in H. apply H. exact Hv.
Qed.

Lemma sweeps_closed : forall W root back args dots r apps, sweeps W root back args dots r -> Forall G dots ->
  r = OK apps -> Forall (fun a => G (snd a)) apps.
Proof.
  intros W root back args dots r apps H. revert apps. induction H; intros apps Hd E; try discriminate.
  - injection E as <-. constructor.
  - apply Forall_cons_iff in Hd as [Hd Hds]. destruct r as [apps'| | |]; try discriminate. cbn [obind] in E. injection E as <-.
    apply Forall_app. split; [apply (applications_closed sels [d]); auto|auto].
Qed.

Lemma step_closed : forall W root s cands l, Forall G cands -> step_means W root s cands (OK l) -> Forall G l.
Proof.
  intros W root s cands l Hc H. inversion H; subst.
  - eapply gathers_closed; [exact children_sub| |eassumption]; exact Hc.
  - eapply collects_closed; [|eassumption]. apply applications_closed. exact Hc.
  - eapply keeps_closed; [eassumption| |reflexivity]. eapply rounds_closed; [exact children_sub| |eassumption]. exact Hc.
  - eapply gathers_closed; [exact children_sub| |eassumption]. eapply rounds_closed; [exact walks_within| |eassumption]. exact Hc.
  - eapply keeps_closed; [eassumption| |reflexivity]. eapply rounds_closed; [exact walks_within| |eassumption]. exact Hc.
  - eapply collects_closed; [|eassumption]. eapply sweeps_closed; [eassumption| |reflexivity].
    eapply rounds_closed; [exact walks_within| |eassumption]. exact Hc.
Qed.
End closed.

(** ** Documents where no object has two members *)
Definition lone_doc (v : val) : Prop := doc v /\ lone_members v.

Lemma lone_sub : forall x v, lone_doc v -> within x v -> lone_doc x.
Proof.
  intros x v [Hd Hl] Hx. split; [eapply doc_within; eauto|]. intros m Hm. apply Hl. eapply within_trans; eauto.
Qed.
Lemma lone_nil : lone_doc VNil.
Proof.
  split.
  - intros x H. inversion H; subst. exact I.
  - intros m H. inversion H.
Qed.
Lemma doc_nil : doc VNil.
Proof. apply lone_nil. Qed.

Lemma short_perm : forall A (l l' : list A), (length l <= 1)%nat -> Permutation l l' -> l' = l.
Proof.
  intros A [|x [|]] l' Hl H; cbn in Hl; try lia.
  - apply Permutation_nil in H. exact H.
  - apply Permutation_length_1_inv in H. exact H.
Qed.

Lemma children_fun : forall v l l', lone_doc v -> children_in_order v l -> children_in_order v l' -> l = l'.
Proof.
  intros v l l' [_ Hv] H H'. destruct H; inversion H'; subst; try reflexivity; try discriminate.
  pose proof (Hv m (WSelf _)) as Hm. rewrite (short_perm _ m m') by assumption.
  rewrite (short_perm _ m m'0) by assumption. reflexivity.
Qed.

Lemma Forall2_fun_in : forall A B (R : A -> B -> Prop) l bs bs',
  (forall a b b', In a l -> R a b -> R a b' -> b = b') -> Forall2 R l bs -> Forall2 R l bs' -> bs = bs'.
Proof.
  intros A B R l bs bs' F H. revert bs'. induction H as [|a b l bs Hab Hl IH]; intros bs' H';
    inversion H' as [|? b' ? bs2 Hab' Hl']; subst; [reflexivity|].
  f_equal; [eapply F; eauto; left; reflexivity|]. apply IH; auto. intros. eapply F; eauto. right. assumption.
Qed.

Lemma walks_fun : forall v l l', lone_doc v -> walks v l -> walks v l' -> l = l'.
Proof.
  intro v. induction v as [|x0|x0|x0|x0|s0|s0|l0 IH|m IH|s0|s0|s0|k0] using val_tree_ind; intros r r' Hv H H';
    inversion H; inversion H'; subst; try reflexivity; try discriminate.
  - f_equal. f_equal. eapply Forall2_fun_in; [|eassumption|eassumption]. intros a b b' Ha. rewrite Forall_forall in IH.
    apply IH; auto. eapply lone_sub; [exact Hv|]. eapply WElem; [exact Ha|constructor].
  - f_equal. f_equal. pose proof (proj2 Hv m (WSelf _)) as Hm.
    match goal with A : Permutation m ?x, B : Permutation m ?y |- _ =>
      apply (short_perm _ m x Hm) in A; apply (short_perm _ m y Hm) in B end. subst.
    eapply Forall2_fun_in; [|eassumption|eassumption]. intros a b b' Ha. rewrite Forall_forall in IH.
    apply in_map_iff in Ha as ([k v] & <- & Hin). apply (IH (k, v) Hin). eapply lone_sub; [exact Hv|].
    eapply WMember; [exact Hin|constructor].
Qed.

Lemma gathers_fun : forall (pick : val -> list val -> Prop) cands l l',
  (forall v l l', lone_doc v -> pick v l -> pick v l' -> l = l') -> Forall lone_doc cands ->
  gathers pick cands l -> gathers pick cands l' -> l = l'.
Proof.
  intros pick cands l l' Hp Hc (ls & H & ->) (ls' & H' & ->). f_equal.
  eapply Forall2_fun_in; [|exact H|exact H']. intros a b b' Ha. apply Hp. rewrite Forall_forall in Hc. auto.
Qed.

Lemma rounds_fun : forall (pick : val -> list val -> Prop) cands l l',
  (forall v l l', lone_doc v -> pick v l -> pick v l' -> l = l') -> Forall lone_doc cands ->
  rounds pick cands l -> rounds pick cands l' -> l = l'.
Proof.
  intros pick cands l l' Hp Hc H H'.
  assert (HN : forall l, gathers pick [] l -> l = []) by (intros q (ls & F & ->); inversion F; reflexivity).
  inversion H; inversion H'; subst; try reflexivity; try contradiction;
    try (match goal with A : gathers _ [] ?q |- _ => apply HN in A; congruence end);
    match goal with A : gathers _ _ ?x, B : gathers _ _ ?y |- _ => pose proof (gathers_fun pick cands x y Hp Hc A B) end; congruence.
Qed.

(** ** Unique meanings *)
Lemma lone_tame : forall v, lone_doc v -> sane False (few True) v.
Proof. intros v [Hd Hl]. apply sane_doc; [exact Hd|]. intros m Hm _. apply Hl. exact Hm. Qed.
Lemma lones_tame : forall l, Forall lone_doc l -> Forall (sane False (few True)) l.
Proof. intros l H. eapply Forall_impl; [|exact H]. apply lone_tame. Qed.
Lemma lones_nodes : forall l : list (sel * val), Forall (fun a => lone_doc (snd a)) l -> Forall (fun a => json_node (snd a)) l.
Proof. intros l H. eapply Forall_impl; [|exact H]. intros a [Ha _]. apply Ha. constructor. Qed.

Lemma step_plain : forall s, wf_step s -> plain True (st_args s).
Proof. intros s Hs e He. split; [eapply step_exprs; eauto|]. intros args _. exact I. Qed.

Ltac other_op := match goal with
  | A : st_op ?s = _, B : st_op ?s = _ |- _ => rewrite A in B; discriminate B
  | A : st_op ?s = _, B : is_select (st_op ?s) = true |- _ => rewrite A in B; discriminate B
  | A : st_op ?s = _, B : is_nest_select (st_op ?s) = true |- _ => rewrite A in B; discriminate B
  | A : is_select (st_op ?s) = true, B : is_nest_select (st_op ?s) = true |- _ =>
      destruct (st_op s); try discriminate A; discriminate B
  end.

Lemma step_fun : forall W root s cands r r', lone_doc root -> wf_step s -> Forall lone_doc cands ->
  step_means W root s cands r -> step_means W root s cands r' -> r = r'.
Proof.
  intros W root s cands r r' Hr Hs Hc H H'.
  pose proof (step_plain s Hs) as Hp. pose proof (lone_tame root Hr) as Ht. pose proof (lone_tame VNil lone_nil) as Hn.
  inversion H; subst; inversion H'; subst; try other_op;
    try (match goal with A : args_mean _ _ _ _ _ ?x, B : args_mean _ _ _ _ _ ?y |- _ =>
      pose proof (args_fun W True root Ht VNil (counts_back (st_op s)) (st_args s) x y Hn Hp A B) as Q end;
      try discriminate Q; try (injection Q as Q; subst));
    try (match goal with A : rounds _ cands ?x, B : rounds _ cands ?y |- _ =>
      assert (x = y) by (eapply rounds_fun; [|exact Hc|exact A|exact B]; first [exact children_fun|exact walks_fun]); subst;
      assert (Hdots : Forall lone_doc y) by (eapply rounds_closed; [exact lone_nil|exact lone_sub| |exact Hc|exact B];
        first [exact children_sub|exact walks_within]); pose proof (lones_tame _ Hdots) as Htd end);
    try (match goal with A : sweeps _ _ _ _ _ ?x, B : sweeps _ _ _ _ _ ?y |- _ =>
      pose proof (sweeps_fun W True root Ht _ _ _ x y Hp Htd A B) as Q end;
      try discriminate Q; try (injection Q as Q; subst));
    try reflexivity.
  - f_equal. eapply gathers_fun; [exact children_fun|exact Hc| |]; eassumption.
  - f_equal. eapply collects_fun; [|eassumption|eassumption].
    apply lones_nodes. apply applications_closed. exact Hc.
  - exfalso. eapply none_some; eassumption.
  - exfalso. eapply none_some; eassumption.
  - match goal with A : st_args s = [PExpr e], B : st_args s = [PExpr ?e'] |- _ =>
      rewrite A in B; injection B as <-; destruct (Hp e) as [Hw Hk]; [rewrite A; left; reflexivity|] end.
    eapply (keeps_fun W True root Ht); eassumption.
  - f_equal. eapply gathers_fun; [exact children_fun|exact Hdots| |]; eassumption.
  - match goal with A : st_args s = [PExpr e], B : st_args s = [PExpr ?e'] |- _ =>
      rewrite A in B; injection B as <-; destruct (Hp e) as [Hw Hk]; [rewrite A; left; reflexivity|] end.
    eapply (keeps_fun W True root Ht); eassumption.
  - f_equal. eapply collects_fun; [|eassumption|eassumption].
    apply lones_nodes. eapply sweeps_closed; [eassumption|exact Hdots|reflexivity].
Qed.

Lemma path_fun : forall W root ss cands r r', lone_doc root -> wf_path ss -> Forall lone_doc cands ->
  path_means W root ss cands r -> path_means W root ss cands r' -> r = r'.
Proof.
  intros W root ss. induction ss as [|s ss IH]; intros cands r r' Hr Hw Hc H H'.
  - inversion H; inversion H'; subst. congruence.
  - apply Forall_cons_iff in Hw as [Hs Hw].
    inversion H; subst; inversion H'; subst;
    match goal with A : step_means _ _ _ _ ?x, B : step_means _ _ _ _ ?y |- _ =>
      pose proof (step_fun W root s cands x y Hr Hs Hc A B) as Q end; try discriminate Q; try reflexivity.
    + injection Q as ->. eapply IH; [exact Hr|exact Hw| |eassumption|eassumption].
      eapply step_closed; [exact lone_nil|exact lone_sub|exact Hc|eassumption].
    + congruence.
Qed.
