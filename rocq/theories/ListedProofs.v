(** The order of the members of objects that are not listed has no effect. *)
From Coq Require Import QArith Permutation.
From Verif Require Import Base Syntax SpecSyntax Value Machine Parser Api SpecDoc DocProofs SpecSelect SpecRun SpecText SpecSem SpecOnce SpecFind SpecListed
  SaneProofs WalkProofs StepExact TextProofs SemFinal UniqueProofs UniquePath OrderProofs EveryOrder TakeProofs.
Local Open Scope Z_scope.

Lemma gathers_fun_in : forall (pick : val -> list val -> Prop) cands l l', (forall v l l', In v cands -> pick v l -> pick v l' -> l = l') ->
  gathers pick cands l -> gathers pick cands l' -> l = l'.
Proof. intros pick cands l l' Hp (ls & H & ->) (ls' & H' & ->). f_equal. eapply Forall2_fun_in; [|exact H|exact H']. exact Hp. Qed.
Lemma rounds_fun_in : forall (pick : val -> list val -> Prop) cands l l', (forall v l l', In v cands -> pick v l -> pick v l' -> l = l') ->
  rounds pick cands l -> rounds pick cands l' -> l = l'.
Proof.
  intros pick cands l l' Hp H H'.
  assert (HN : forall l, gathers pick [] l -> l = []) by (intros q (ls & F & ->); inversion F; reflexivity).
  inversion H; inversion H'; subst; try reflexivity; try contradiction;
    try (match goal with A : gathers _ [] ?q |- _ => apply HN in A; congruence end);
    match goal with A : gathers _ _ ?x, B : gathers _ _ ?y |- _ => pose proof (gathers_fun_in pick cands x y Hp A B) end; congruence.
Qed.
Lemma lone_children : forall v l l', lone v -> children_in_order v l -> children_in_order v l' -> l = l'.
Proof.
  intros v l l' Hv H H'. destruct H; inversion H'; subst; try reflexivity; try discriminate.
  pose proof (Hv m eq_refl) as Hm. rewrite (short_perm _ m m') by assumption. rewrite (short_perm _ m m'0) by assumption. reflexivity.
Qed.

(** all objects in a value are listed after .. *)
Lemma object_contained : forall v m, within (VObj m) v -> In (VObj m) (containers v).
Proof.
  intros v m H. remember (VObj m) as x. induction H; subst.
  - left. reflexivity.
  - right. apply in_flat_map. eauto.
  - right. apply in_flat_map. eexists (_, _). eauto.
Qed.
Lemma contained_lone : forall vs v, Forall lone (flat_map containers vs) -> In v vs -> lone_members v.
Proof.
  intros vs v H Hv m Hm. rewrite Forall_forall in H. apply (H (VObj m)); [|reflexivity]. apply in_flat_map. exists v. split; [exact Hv|].
  apply object_contained. exact Hm.
Qed.

Lemma doc_tame : forall v, doc v -> sane False (few False) v.
Proof. intros v Hd. apply sane_doc; [exact Hd|]. intros m _ []. Qed.
Lemma docs_tame : forall l, Forall doc l -> Forall (sane False (few False)) l.
Proof. intros l H. eapply Forall_impl; [|exact H]. apply doc_tame. Qed.
Lemma docs_nodes : forall l : list (sel * val), Forall (fun a => doc (snd a)) l -> Forall (fun a => json_node (snd a)) l.
Proof. intros l H. eapply Forall_impl; [|exact H]. intros a Ha. apply Ha. constructor. Qed.
Lemma doc_sub' : forall x v, doc v -> within x v -> doc x.
Proof. exact doc_within. Qed.

Lemma step_fun_listed : forall W root s cands r r', doc root -> wf_step s -> plain False (st_args s) -> Forall doc cands ->
  Forall lone (listed s cands) -> step_means W root s cands r -> step_means W root s cands r' -> r = r'.
Proof.
  intros W root s cands r r' Hr Hs Hp Hc HL H H'.
  pose proof (doc_tame root Hr) as Ht. pose proof (doc_tame VNil doc_nil) as Hn.
  assert (KC : st_op s = OpWild \/ st_op s = OpFilter -> forall v l l', In v cands -> children_in_order v l -> children_in_order v l' -> l = l').
  { intros Ho v l l' Hv. apply lone_children. unfold listed in HL. rewrite Forall_forall in HL. apply HL. destruct Ho as [-> | ->]; exact Hv. }
  assert (KL : SpecOnce.is_nest (st_op s) = true -> Forall lone_doc cands).
  { intro Ho. assert (HL' : Forall lone (flat_map containers cands)) by (unfold listed in HL; destruct (st_op s); try discriminate Ho; exact HL).
    rewrite Forall_forall in Hc |- *. intros v Hv. split; [auto|eapply contained_lone; eauto]. }
  assert (KN : is_nest_select (st_op s) = true -> SpecOnce.is_nest (st_op s) = true) by (destruct (st_op s); discriminate || reflexivity).
  inversion H; subst; inversion H'; subst; try other_op;
    try (match goal with A : args_mean _ _ _ _ _ ?x, B : args_mean _ _ _ _ _ ?y |- _ =>
      pose proof (args_fun W False root Ht VNil (counts_back (st_op s)) (st_args s) x y Hn Hp A B) as Q end;
      try discriminate Q; try (injection Q as Q; subst));
    try (match goal with A : rounds _ cands ?x, B : rounds _ cands ?y |- _ =>
      assert (x = y) by (first [eapply (rounds_fun_in children_in_order); [|exact A|exact B]; apply KC; right; assumption
        |eapply (rounds_fun walks); [exact walks_fun| |exact A|exact B]; apply KL; first [apply KN; assumption|match goal with Q : st_op s = _ |- _ => rewrite Q; reflexivity end]]); subst;
      assert (Hdots : Forall doc y) by (eapply rounds_closed; [exact doc_nil|exact doc_sub'| |exact Hc|exact B];
        first [exact children_sub|exact walks_within]); pose proof (docs_tame _ Hdots) as Htd end);
    try (match goal with A : sweeps _ _ _ _ _ ?x, B : sweeps _ _ _ _ _ ?y |- _ =>
      pose proof (sweeps_fun W False root Ht _ _ _ x y Hp Htd A B) as Q end;
      try discriminate Q; try (injection Q as Q; subst));
    try reflexivity.
  - f_equal. eapply gathers_fun_in; [apply KC; left; assumption| |]; eassumption.
  - f_equal. eapply collects_fun; [|eassumption|eassumption].
    apply docs_nodes. apply applications_closed. exact Hc.
  - exfalso. eapply none_some; eassumption.
  - exfalso. eapply none_some; eassumption.
  - match goal with A : st_args s = [PExpr e], B : st_args s = [PExpr ?e'] |- _ =>
      rewrite A in B; injection B as <-; destruct (Hp e) as [Hw Hk]; [rewrite A; left; reflexivity|] end.
    eapply (keeps_fun W False root Ht); eassumption.
  - f_equal. assert (L : Forall lone_doc dots0).
    { eapply rounds_closed; [exact lone_nil|exact lone_sub|exact walks_within|apply KL; match goal with Q : st_op s = _ |- _ => rewrite Q; reflexivity end|eassumption]. }
    eapply gathers_fun; [exact children_fun|exact L| |]; eassumption.
  - match goal with A : st_args s = [PExpr e], B : st_args s = [PExpr ?e'] |- _ =>
      rewrite A in B; injection B as <-; destruct (Hp e) as [Hw Hk]; [rewrite A; left; reflexivity|] end.
    eapply (keeps_fun W False root Ht); eassumption.
  - f_equal. eapply collects_fun; [|eassumption|eassumption].
    apply docs_nodes. eapply sweeps_closed; [eassumption|exact Hdots|reflexivity].
Qed.

Lemma path_fun_listed : forall W root ss cands r r', doc root -> wf_path ss -> Forall (fun s => plain False (st_args s)) ss -> Forall doc cands ->
  orderly W root ss cands -> path_means W root ss cands r -> path_means W root ss cands r' -> r = r'.
Proof.
  intros W root ss. induction ss as [|s ss IH]; intros cands r r' Hr Hw Hp Hc HL H H'.
  - inversion H; inversion H'; subst. congruence.
  - apply Forall_cons_iff in Hw as [Hs Hw]. apply Forall_cons_iff in Hp as [Hps Hp]. destruct HL as [HL1 HL2].
    inversion H; subst; inversion H'; subst;
    match goal with A : step_means _ _ _ _ ?x, B : step_means _ _ _ _ ?y |- _ =>
      pose proof (step_fun_listed W root s cands x y Hr Hs Hps Hc HL1 A B) as Q end; try discriminate Q; try reflexivity.
    + injection Q as ->. eapply IH; [exact Hr|exact Hw|exact Hp| |apply HL2; eassumption|eassumption|eassumption].
      eapply step_closed; [exact doc_nil|exact doc_sub'|exact Hc|eassumption].
    + congruence.
Qed.
Lemma keyless_plain : forall ss, wf_path ss -> ~ calls_keys ss -> Forall (fun s => plain False (st_args s)) ss.
Proof.
  intros ss Hw Hk. apply Forall_forall. intros s Hs e He. split.
  - unfold wf_path in Hw. rewrite Forall_forall in Hw. eapply step_plain; [apply Hw; exact Hs|exact He].
  - intros args P. apply Hk. exists args, s, e. auto.
Qed.

Lemma text_listed : forall TX s ss jp W perm t t' root r r', accepted TX s ss jp -> fits jp -> orders_ok W ->
  orders_ok (reordered W perm) -> doc root -> ~ calls_keys ss -> orderly W root ss [root] ->
  JP_Eval W t jp root r -> JP_Eval (reordered W perm) t' jp root r' -> r = r'.
Proof.
  intros TX s ss jp W perm t t' root r r' Ha Hf Hw Hw' Hd Hk Hl H H'.
  apply (text_means _ _ _ _ _ _ _ _ Ha Hf Hw Hd) in H. apply (text_means _ _ _ _ _ _ _ _ Ha Hf Hw' Hd) in H'.
  apply path_reordered in H'. assert (Hwf : wf_path ss) by (eapply text_wf; eauto).
  apply (path_fun_listed W root ss [root]); auto using keyless_plain.
Qed.
(** whole objects, and lists of them *)
Lemma lone_orderly : forall W root ss cands, lone_members root -> Forall lone_members cands -> orderly W root ss cands.
Proof.
  intros W root ss. induction ss as [|s ss IH]; intros cands Hr Hc; [exact I|].
  assert (Sub : forall x v, lone_members v -> within x v -> lone_members x) by (intros x v Hv Hx m Hm; apply Hv; eapply within_trans; eauto).
  assert (Nil : lone_members VNil) by (intros m Hm; inversion Hm; discriminate).
  split.
  - apply Forall_forall. intros x Hx m ->. unfold listed in Hx. rewrite Forall_forall in Hc.
    assert (Q : exists v, In v cands /\ within (VObj m) v).
    { destruct (st_op s); try destruct Hx; cbn [SpecOnce.is_nest] in *; try (exists (VObj m); split; [assumption|constructor]);
        try (apply in_flat_map in Hx as (v & Hv & Hx); exists v; split; [exact Hv|eapply walks_within; [apply TakeProofs.walks_taken|exact Hx]]). }
    destruct Q as (v & Hv & Hw). exact (Hc v Hv m Hw).
  - intros l Hl. apply IH; [exact Hr|]. eapply step_closed; [exact Nil|exact Sub|exact Hc|exact Hl].
Qed.

(** ** What is listed has no order *)
Lemma wild_two : forall c1 m c2 k k' v v', In (k, v) m -> In (k', v') m -> v <> v' ->
  exists l l', gathers children_in_order (c1 ++ VObj m :: c2) l /\ gathers children_in_order (c1 ++ VObj m :: c2) l' /\ l <> l'.
Proof.
  intros c1 m c2 k k' v v' H H' N.
  assert (G : forall m', Permutation m m' -> gathers children_in_order (c1 ++ VObj m :: c2) (flat_map offspring c1 ++ map snd m' ++ flat_map offspring c2)).
  { intros m' P. destruct (children_taken c1) as (l1 & F1 & E1), (children_taken c2) as (l2 & F2 & E2). exists (l1 ++ map snd m' :: l2).
    split; [apply Forall2_app; [exact F1|constructor; [apply CiObj; exact P|exact F2]]|]. rewrite E1, E2, concat_app. reflexivity. }
  apply in_split in H as (a & b & ->). apply in_split in H' as (a' & b' & E).
  exists (flat_map offspring c1 ++ map snd ((k, v) :: a ++ b) ++ flat_map offspring c2), (flat_map offspring c1 ++ map snd ((k', v') :: a' ++ b') ++ flat_map offspring c2).
  split; [apply G; apply Permutation_sym, Permutation_middle|]. split; [apply G; rewrite E; apply Permutation_sym, Permutation_middle|].
  intro Q. apply app_inv_head in Q. cbn in Q. congruence.
Qed.
Lemma text_wild : forall TX s ss jp W t root cands m k k' v v', accepted TX s (ss ++ [mkStep OpWild []]) jp -> fits jp -> orders_ok W -> doc root ->
  path_means W root ss [root] (OK cands) -> In (VObj m) cands -> In (k, v) m -> In (k', v') m -> v <> v' ->
  exists perm perm' l l', orders_ok (reordered W perm) /\ orders_ok (reordered W perm') /\
    JP_Eval (reordered W perm) t jp root (OK l) /\ JP_Eval (reordered W perm') t jp root (OK l') /\ l <> l'.
Proof.
  intros TX s ss jp W t root cands m k k' v v' Ha Hf HW Hd Hp Hm H H' N. apply in_split in Hm as (c1 & c2 & ->).
  destruct (wild_two c1 m c2 k k' v v' H H' N) as (l & l' & G & G' & D).
  assert (K : forall q, gathers children_in_order (c1 ++ VObj m :: c2) q -> exists perm, orders_ok (reordered W perm) /\ JP_Eval (reordered W perm) t jp root (OK q)).
  { intros q Hq. apply (EveryOrder.text_every TX s (ss ++ [mkStep OpWild []]) jp W t root (OK q) Ha Hf HW Hd).
    remember (c1 ++ VObj m :: c2) as cands eqn:Ec. clear Ec Ha G G' D l l'. remember (OK cands) as r eqn:Er. revert cands Hq Er.
    induction Hp as [c|st ss c l0 r Hs Hp IH|st ss c err Hs|st ss c Hs]; intros cands Hq Er; try discriminate Er.
    - injection Er as ->. cbn [app]. eapply PmStep; [apply SmWild; [reflexivity|exact Hq]|constructor].
    - cbn [app]. eapply PmStep; [exact Hs|]. eapply IH; [exact Hq|exact Er]. }
  destruct (K l G) as (perm & O & E), (K l' G') as (perm' & O' & E'). exists perm, perm', l, l'. auto.
Qed.
