(** What the orders of iteration over maps can change. *)
From Coq Require Import QArith Permutation.
From Verif Require Import SpecSyntax Machine Eval ProgramProofs StackProofs MachineProofs CoderProofs SpecDoc DocProofs SpecSelect
  SpecRun SelectProofs WalkProofs ExprProofs SpecCode StepExact SpecOp OpProofs SpecExpr LogicProofs ArithProofs FloatProofs
  SaneProofs Api SpecText TextProofs SpecSem SemProofs SemFinal UniqueProofs UniquePath.
Local Open Scope Z_scope.

(** ** The meaning of a path does not mention the orders *)
Section reordering.
Variable W : world.
Variable p : nat -> nat -> list nat.
Notation W' := (reordered W p).

Lemma yields_reordered : forall o vs r, yields W' o vs r -> yields W o vs r.
Proof. intros o vs r (H & perm & t & r' & H1 & H2 & H3). split; [exact H|]. exists perm, t, r'. auto. Qed.

Lemma means_reordered : forall root e dot r, means W' root dot e r -> means W root dot e r.
Proof.
  intros root e. induction e using expr_tree_ind; intros dot r Hm; inversion Hm; subst; try (constructor; assumption).
  - apply MnInner with (vs := vs); [|apply yields_reordered; assumption].
    match goal with A : Forall2 _ kids vs |- _ => rename A into F end. clear - F H. revert H.
    induction F; intro Hk; constructor; apply Forall_cons_iff in Hk as [? ?]; auto.
  - apply Forall_app in H as [Hp He]. apply Forall_cons_iff in He as [He _].
    apply MnError with (vs := vs); auto.
    match goal with A : Forall2 _ pre vs |- _ => rename A into F end. clear - F Hp. revert Hp.
    induction F; intro Hk; constructor; apply Forall_cons_iff in Hk as [? ?]; auto.
Qed.

Lemma truncated_reordered : forall f z, truncated W' f z -> truncated W f z.
Proof. intros f z H. destruct H; [eapply TrIn|eapply TrOut]; eauto. Qed.
Lemma named_reordered : forall v k, named W' v k -> named W v k.
Proof.
  intros v k H. destruct H; try constructor; try (apply truncated_reordered; assumption); cbn [w_sprint reordered]; constructor.
Qed.
Lemma acts_reordered : forall back v o, acts_as W' back v o -> acts_as W back v o.
Proof. intros back v o H. destruct H; constructor; auto. apply named_reordered. assumption. Qed.
Lemma arg_reordered : forall root dot back a r, arg_means W' root dot back a r -> arg_means W root dot back a r.
Proof.
  intros root dot back a r H. destruct H; try constructor.
  - eapply AmExpr; [apply means_reordered; eassumption|apply acts_reordered; assumption].
  - apply means_reordered. assumption.
Qed.
Lemma args_reordered : forall root dot back args r, args_mean W' root dot back args r -> args_mean W root dot back args r.
Proof.
  assert (HF : forall root dot back args os, Forall2 (fun a o => arg_means W' root dot back a (OK o)) args os ->
    Forall2 (fun a o => arg_means W root dot back a (OK o)) args os)
    by (intros root dot back args os H; induction H; constructor; auto; apply arg_reordered; assumption).
  intros root dot back args r H. destruct H; [constructor; auto|].
  eapply AsError; [apply HF; eassumption|apply arg_reordered; assumption].
Qed.
Lemma falsy_reordered : forall v, falsy W' v <-> falsy W v.
Proof.
  intro v. split; intro H; destruct H; [exact (FaNull _)|exact (FaFailure _ _ H)|exact (FaFalse _)|exact (FaInt _)|exact (FaInt64 _)|
    exact (FaZero _ _)|exact (FaNan _)|exact (FaStr _)|exact (FaNumInt _ _ H)|exact (FaNumReal W _ _ H H0)|exact (FaNumEmpty W H)|
    exact (FaNull _)|exact (FaFailure _ _ H)|exact (FaFalse _)|exact (FaInt _)|exact (FaInt64 _)|
    exact (FaZero _ _)|exact (FaNan _)|exact (FaStr _)|exact (FaNumInt _ _ H)|exact (FaNumReal W' _ _ H H0)|exact (FaNumEmpty W' H)].
Qed.
Lemma keeps_reordered : forall root e dots r, keeps W' root e dots r -> keeps W root e dots r.
Proof.
  intros root e dots r H. induction H.
  - constructor.
  - eapply KpTrue; eauto; [apply means_reordered; eassumption|]. rewrite <- falsy_reordered. assumption.
  - eapply KpFalse; eauto; [apply means_reordered; eassumption|]. apply falsy_reordered. assumption.
  - apply KpError. apply means_reordered. assumption.
Qed.
Lemma sweeps_reordered : forall root back args dots r, sweeps W' root back args dots r -> sweeps W root back args dots r.
Proof.
  intros root back args dots r H. induction H.
  - constructor.
  - apply SwDot; auto. apply args_reordered. assumption.
  - eapply SwOverflow; eauto. apply args_reordered. eassumption.
  - apply SwError. apply args_reordered. assumption.
Qed.
Lemma step_reordered : forall root s cands r, step_means W' root s cands r -> step_means W root s cands r.
Proof.
  intros root s cands r H. destruct H.
  - apply SmWild; assumption.
  - apply SmSelect with (sels := sels); auto. apply args_reordered. assumption.
  - apply SmOverflow with (sels := sels); auto. apply args_reordered. assumption.
  - apply SmError; auto. apply args_reordered. assumption.
  - apply SmFilter with (e := e) (dots := dots); auto. apply keeps_reordered. assumption.
  - apply SmNestWild with (dots := dots); auto.
  - apply SmNestFilter with (e := e) (dots := dots); auto. apply keeps_reordered. assumption.
  - apply SmNest with (dots := dots) (apps := apps); auto. apply sweeps_reordered. assumption.
  - apply SmNestError with (dots := dots); auto. apply sweeps_reordered. assumption.
  - apply SmNestOverflow with (dots := dots); auto. apply sweeps_reordered. assumption.
Qed.
Lemma path_reordered : forall root ss cands r, path_means W' root ss cands r -> path_means W root ss cands r.
Proof.
  intros root ss cands r H. induction H.
  - constructor.
  - eapply PmStep; eauto. apply step_reordered. assumption.
  - apply PmError. apply step_reordered. assumption.
  - apply PmPanic. apply step_reordered. assumption.
Qed.
End reordering.

(** ** Selections up to order *)
Lemma concat_perm2 : forall A (ls ls' : list (list A)), Forall2 (@Permutation A) ls ls' -> Permutation (concat ls) (concat ls').
Proof. intros A ls ls' H. induction H; cbn [concat]; [constructor|]. apply Permutation_app; assumption. Qed.
Lemma concat_perm : forall A (ls ls' : list (list A)), Permutation ls ls' -> Permutation (concat ls) (concat ls').
Proof.
  intros A ls ls' H. induction H; cbn [concat].
  - constructor.
  - apply Permutation_app_head. assumption.
  - rewrite !app_assoc. apply Permutation_app_tail, Permutation_app_comm.
  - eapply Permutation_trans; eauto.
Qed.

Lemma F2_both : forall A B (R : A -> B -> Prop) (S : B -> B -> Prop) l bs bs',
  (forall a b b', In a l -> R a b -> R a b' -> S b b') -> Forall2 R l bs -> Forall2 R l bs' -> Forall2 S bs bs'.
Proof.
  intros A B R S l bs bs' F H. revert bs'. induction H as [|a b l bs Hab Hl IH]; intros bs' H';
    inversion H' as [|? b' ? bs2 Hab' Hl']; subst; constructor.
  - eapply F; eauto. left. reflexivity.
  - apply IH; auto. intros. eapply F; eauto. right. assumption.
Qed.

Lemma F2_perm : forall A B (R : A -> B -> Prop) l l' bs, Permutation l l' -> Forall2 R l bs ->
  exists bs', Permutation bs bs' /\ Forall2 R l' bs'.
Proof.
  intros A B R l l' bs H. revert bs. induction H; intros bs F.
  - inversion F; subst. exists []. split; constructor.
  - inversion F as [|? b ? bs2 Hb Hbs]; subst. destruct (IHPermutation _ Hbs) as (bs' & Hp & Hf).
    exists (b :: bs'). split; constructor; assumption.
  - inversion F as [|? b ? bs2 Hb Hbs]; subst. inversion Hbs as [|? b' ? bs3 Hb' Hbs']; subst.
    exists (b' :: b :: bs3). split; [apply perm_swap|]. repeat constructor; assumption.
  - destruct (IHPermutation1 _ F) as (b1 & Hp1 & Hf1). destruct (IHPermutation2 _ Hf1) as (b2 & Hp2 & Hf2).
    exists b2. split; [eapply Permutation_trans; eauto|assumption].
Qed.

Lemma gathers_perm : forall (pick : val -> list val -> Prop) cands cands' l l',
  (forall v l l', pick v l -> pick v l' -> Permutation l l') -> Permutation cands cands' ->
  gathers pick cands l -> gathers pick cands' l' -> Permutation l l'.
Proof.
  intros pick cands cands' l l' Hp Hc (ls & H & ->) (ls' & H' & ->).
  destruct (F2_perm _ _ _ _ _ _ Hc H) as (ls2 & Hq & H2). eapply Permutation_trans; [apply concat_perm; exact Hq|].
  apply concat_perm2. eapply F2_both; [|exact H2|exact H']. intros a b b' _. apply Hp.
Qed.

Lemma children_perm : forall v l l', children_in_order v l -> children_in_order v l' -> Permutation l l'.
Proof.
  intros v l l' H H'. destruct H; inversion H'; subst; try discriminate; try apply Permutation_refl.
  apply Permutation_map. eapply Permutation_trans; [apply Permutation_sym; eassumption|eassumption].
Qed.

Lemma walks_perm : forall v l l', walks v l -> walks v l' -> Permutation l l'.
Proof.
  intro v. induction v as [|x0|x0|x0|x0|s0|s0|l0 IH|m IH|s0|s0|s0|k0] using val_tree_ind; intros r r' H H';
    inversion H; inversion H'; subst; try apply Permutation_refl; try discriminate; apply perm_skip.
  - apply concat_perm2. eapply F2_both; [|eassumption|eassumption]. intros a b b' Ha. rewrite Forall_forall in IH. exact (IH a Ha b b').
  - assert (Hxy : Permutation (map snd m') (map snd m'0))
      by (apply Permutation_map; eapply Permutation_trans; [apply Permutation_sym; exact H1|exact H5]).
    destruct (F2_perm _ _ _ _ _ _ Hxy H2) as (ls2 & Hq & F2).
    eapply Permutation_trans; [apply concat_perm; exact Hq|]. apply concat_perm2. eapply F2_both; [|exact F2|exact H6].
    intros a b b' Ha. rewrite Forall_forall in IH. apply in_map_iff in Ha as ([k v] & <- & Hin). apply (IH (k, v)).
    eapply Permutation_in; [apply Permutation_sym; eassumption|exact Hin].
Qed.

Lemma rounds_perm : forall (pick : val -> list val -> Prop) cands cands' l l',
  (forall v l l', pick v l -> pick v l' -> Permutation l l') -> Permutation cands cands' ->
  rounds pick cands l -> rounds pick cands' l' -> Permutation l l'.
Proof.
  intros pick cands cands' l l' Hp Hc H H'.
  assert (HN : forall l, gathers pick [] l -> l = []) by (intros q (ls & F & ->); inversion F; reflexivity).
  inversion H as [|? N G|? dots N G]; subst.
  - apply Permutation_nil in Hc. subst cands'. inversion H' as [|? N' G'|? dots' N' G']; subst; try congruence; [constructor|].
    apply HN in G'. contradiction.
  - inversion H' as [|? N' G'|? dots' N' G']; subst.
    + apply Permutation_sym, Permutation_nil in Hc. contradiction.
    + constructor; constructor.
    + pose proof (gathers_perm pick _ _ _ _ Hp Hc G G') as Q. apply Permutation_nil in Q. contradiction.
  - inversion H' as [|? N' G'|? dots' N' G']; subst.
    + apply Permutation_sym, Permutation_nil in Hc. subst cands. apply HN in G. contradiction.
    + pose proof (gathers_perm pick _ _ _ _ Hp Hc G G') as Q. apply Permutation_sym, Permutation_nil in Q. contradiction.
    + exact (gathers_perm pick _ _ _ _ Hp Hc G G').
Qed.

Section permuted.
Variable W : world.
Variable root : val.
Hypothesis Hroot : doc root.

Lemma doc_tame : forall v, doc v -> sane False (few False) v.
Proof. intros v Hd. apply sane_doc; [exact Hd|]. intros m Hm []. Qed.
Lemma docs_tame : forall l, Forall doc l -> Forall (sane False (few False)) l.
Proof. intros l H. eapply Forall_impl; [|exact H]. apply doc_tame. Qed.

Lemma keeps_shape : forall e dots r, keeps W root e dots r -> (exists l, r = OK l) \/ exists err, r = Fail err.
Proof.
  intros e dots r H. induction H; eauto. destruct IHkeeps as [[l ->]|[err ->]]; cbn [obind]; eauto.
Qed.

Lemma keeps_permuted : forall e dots dots' l, Permutation dots dots' -> keeps W root e dots (OK l) ->
  exists l', keeps W root e dots' (OK l') /\ Permutation l l'.
Proof.
  assert (Inv : forall e d dots l, keeps W root e (d :: dots) (OK l) -> exists v l1, means W root d e (OK v) /\
    keeps W root e dots (OK l1) /\ ((~ falsy W v /\ l = d :: l1) \/ (falsy W v /\ l = l1))).
  { intros e d dots l H. remember (OK l) as r. inversion H; subst.
    - destruct r0 as [l1| | |]; try discriminate. cbn [obind] in *. exists v, l1. split; [assumption|]. split; [assumption|].
      left. split; [assumption|congruence].
    - exists v, l. auto.
    - discriminate. }
  assert (Con : forall e d dots v l1, means W root d e (OK v) -> keeps W root e dots (OK l1) -> ~ falsy W v ->
    keeps W root e (d :: dots) (OK (d :: l1))).
  { intros. change (@OK rerr _ (d :: l1)) with (let! l := @OK rerr _ l1 in @OK rerr _ (d :: l)). eapply KpTrue; eauto. }
  intros e dots dots' l H. revert l. induction H; intros q Hk.
  - exists q. split; [exact Hk|apply Permutation_refl].
  - apply Inv in Hk as (v & l1 & Hm & Hk & C). destruct (IHPermutation _ Hk) as (l2 & Hk2 & Hp).
    destruct C as [[Hf ->]|[Hf ->]].
    + exists (x :: l2). split; [eapply Con; eauto|constructor; exact Hp].
    + exists l2. split; [eapply KpFalse; eauto|exact Hp].
  - apply Inv in Hk as (v & l1 & Hm & Hk & C). apply Inv in Hk as (v' & l2 & Hm' & Hk & C').
    destruct C as [[Hf ->]|[Hf ->]], C' as [[Hf' ->]|[Hf' ->]].
    + exists (x :: y :: l2). split; [eapply Con; eauto|apply perm_swap].
    + exists (y :: l2). split; [eapply KpFalse; eauto|apply Permutation_refl].
    + exists (x :: l2). split; [eapply Con; eauto; eapply KpFalse; eauto|apply Permutation_refl].
    + exists l2. split; [eapply KpFalse; eauto; eapply KpFalse; eauto|apply Permutation_refl].
  - destruct (IHPermutation1 _ Hk) as (l1 & Hk1 & Hp1). destruct (IHPermutation2 _ Hk1) as (l2 & Hk2 & Hp2).
    exists l2. split; [exact Hk2|eapply Permutation_trans; eauto].
Qed.

Lemma keeps_alike : forall e dots dots' r r', wf_expr e -> keyless False e -> Forall doc dots -> Permutation dots dots' ->
  keeps W root e dots r -> keeps W root e dots' r' -> alike r r'.
Proof.
  intros e dots dots' r r' Hw Hk Hd Hp H H'. pose proof (doc_tame root Hroot) as Ht.
  assert (Hd' : Forall doc dots') by (eapply Permutation_Forall; eauto).
  destruct (keeps_shape _ _ _ H) as [[l ->]|[err ->]].
  - destruct (keeps_permuted _ _ _ _ Hp H) as (l' & Hl & Hq).
    rewrite (keeps_fun W False root Ht e dots' r' (OK l') Hw Hk (docs_tame _ Hd') H' Hl). exact Hq.
  - destruct (keeps_shape _ _ _ H') as [[l ->]|[err' ->]]; [|exact I].
    destruct (keeps_permuted _ _ _ _ (Permutation_sym Hp) H') as (l' & Hl & Hq).
    pose proof (keeps_fun W False root Ht e dots _ _ Hw Hk (docs_tame _ Hd) H Hl). discriminate.
Qed.

Definition sliceless (args : list pval) : Prop := forall sl, ~ In (PSlice sl) args.

Lemma arg_sliceless : forall dot back a s, (forall sl, a <> PSlice sl) -> arg_means W root dot back a (OK (Some s)) -> is_slice s = false.
Proof.
  intros dot back a s Ha H. inversion H; subst; try reflexivity.
  - exfalso. eapply Ha. reflexivity.
  - match goal with A : acts_as _ _ _ _ |- _ => inversion A; reflexivity end.
Qed.

Lemma args_sliceless : forall dot back args sels, sliceless args -> args_mean W root dot back args (OK sels) ->
  Forall (fun s => is_slice s = false) sels.
Proof.
  intros dot back args sels Ha H. inversion H as [? os F|]; subst. clear H. induction F as [|a o args os Hao F IH]; [constructor|].
  cbn [flat_map]. apply Forall_app. split.
  - destruct o as [s|]; constructor; [|constructor]. eapply arg_sliceless; [|exact Hao]. intros sl ->. apply (Ha sl). left. reflexivity.
  - apply IH. intros sl Hsl. apply (Ha sl). right. exact Hsl.
Qed.

Definition unsliced (apps : list (sel * val)) : Prop := Forall (fun a => is_slice (fst a) = false) apps.

Lemma applications_unsliced : forall sels cands, Forall (fun s => is_slice s = false) sels -> unsliced (applications sels cands).
Proof.
  intros sels cands H. apply Forall_forall. intros a Ha. apply in_flat_map in Ha as (v & _ & Ha).
  apply in_map_iff in Ha as (s & <- & Hs). rewrite Forall_forall in H. apply H. exact Hs.
Qed.

Lemma unsliced_fits : forall apps, unsliced apps -> Exists app_overflows apps -> False.
Proof.
  intros apps H He. apply Exists_exists in He as ([s v] & Ha & Ho). unfold unsliced in H. rewrite Forall_forall in H.
  specialize (H _ Ha). destruct s; try discriminate; exact Ho.
Qed.

Lemma unsliced_collects : forall apps l, unsliced apps -> collects apps l ->
  exists ls, Forall2 (fun a l => picks (fst a) (snd a) l) apps ls /\ l = concat ls.
Proof.
  intros apps l Hu (b & a & -> & [->|(b' & x & -> & Hx)] & _ & ls & Hls & ->); [eauto|].
  exfalso. apply Forall_app in Hu as [Hu _]. apply Forall_app in Hu as [_ Hu]. apply Forall_inv in Hu.
  destruct x as [[]]; try discriminate; exact Hx.
Qed.

Lemma collects_perm : forall apps apps' l l', unsliced apps -> Forall (fun a => json_node (snd a)) apps -> Permutation apps apps' ->
  collects apps l -> collects apps' l' -> Permutation l l'.
Proof.
  intros apps apps' l l' Hu Hn Hp H H'. assert (Hu' : unsliced apps') by (eapply Permutation_Forall; eauto).
  assert (Hn' : Forall (fun a => json_node (snd a)) apps') by (eapply Permutation_Forall; eauto).
  apply unsliced_collects in H as (ls & F & ->); [|exact Hu]. apply unsliced_collects in H' as (ls' & F' & ->); [|exact Hu'].
  destruct (F2_perm _ _ _ _ _ _ Hp F) as (ls2 & Hq & F2). rewrite (picked_fun apps' ls' ls2 Hn' F' F2). apply concat_perm. exact Hq.
Qed.

Lemma sweeps_shape : forall back args dots r, sliceless args -> sweeps W root back args dots r ->
  (exists apps, r = OK apps /\ unsliced apps) \/ exists err, r = Fail err.
Proof.
  intros back args dots r Hs H. induction H; eauto.
  - left. exists []. split; [reflexivity|constructor].
  - destruct IHsweeps as [(apps & -> & Hu)|[err ->]]; cbn [obind]; eauto. left. eexists. split; [reflexivity|].
    apply Forall_app. split; [|exact Hu]. apply applications_unsliced. eapply args_sliceless; eauto.
  - exfalso. eapply unsliced_fits; [|eassumption]. apply applications_unsliced. eapply args_sliceless; eauto.
Qed.

Lemma sweeps_permuted : forall back args dots dots' apps, Permutation dots dots' -> sweeps W root back args dots (OK apps) ->
  exists apps', sweeps W root back args dots' (OK apps') /\ Permutation apps apps'.
Proof.
  assert (Inv : forall back args d dots apps, sweeps W root back args (d :: dots) (OK apps) -> exists sels apps1,
    args_mean W root d back args (OK sels) /\ Forall (fun a => ~ app_overflows a) (applications sels [d]) /\
    sweeps W root back args dots (OK apps1) /\ apps = applications sels [d] ++ apps1).
  { intros back args d dots apps H. remember (OK apps) as r. inversion H; subst; try discriminate.
    destruct r0 as [apps1| | |]; try discriminate. exists sels, apps1. repeat split; try assumption. cbn [obind] in *. congruence. }
  assert (Con : forall back args d dots sels apps1, args_mean W root d back args (OK sels) ->
    Forall (fun a => ~ app_overflows a) (applications sels [d]) -> sweeps W root back args dots (OK apps1) ->
    sweeps W root back args (d :: dots) (OK (applications sels [d] ++ apps1))).
  { intros. change (@OK rerr _ (applications sels [d] ++ apps1)) with
      (let! l := @OK rerr _ apps1 in @OK rerr _ (applications sels [d] ++ l)). apply SwDot; auto. }
  intros back args dots dots' apps H. revert apps. induction H; intros q Hk.
  - exists q. split; [exact Hk|apply Permutation_refl].
  - apply Inv in Hk as (sels & a1 & Ha & Ho & Hk & ->). destruct (IHPermutation _ Hk) as (a2 & Hk2 & Hp).
    exists (applications sels [x] ++ a2). split; [apply Con; auto|apply Permutation_app_head; exact Hp].
  - apply Inv in Hk as (sels & a1 & Ha & Ho & Hk & ->). apply Inv in Hk as (sels' & a2 & Ha' & Ho' & Hk & ->).
    exists (applications sels' [x] ++ applications sels [y] ++ a2). split; [apply Con; auto|].
    rewrite !app_assoc. apply Permutation_app_tail, Permutation_app_comm.
  - destruct (IHPermutation1 _ Hk) as (l1 & Hk1 & Hp1). destruct (IHPermutation2 _ Hk1) as (l2 & Hk2 & Hp2).
    exists l2. split; [exact Hk2|eapply Permutation_trans; eauto].
Qed.

Lemma sweeps_alike : forall back args dots dots' r r', plain False args -> sliceless args -> Forall doc dots -> Permutation dots dots' ->
  sweeps W root back args dots r -> sweeps W root back args dots' r' ->
  match r, r' with
  | OK apps, OK apps' => Permutation apps apps' /\ unsliced apps
  | Fail _, Fail _ => True
  | _, _ => False
  end.
Proof.
  intros back args dots dots' r r' Ha Hs Hd Hp H H'. pose proof (doc_tame root Hroot) as Ht.
  assert (Hd' : Forall doc dots') by (eapply Permutation_Forall; eauto).
  destruct (sweeps_shape _ _ _ _ Hs H) as [(l & -> & Hu)|[err ->]].
  - destruct (sweeps_permuted _ _ _ _ _ Hp H) as (l' & Hl & Hq).
    rewrite (sweeps_fun W False root Ht back args dots' r' (OK l') Ha (docs_tame _ Hd') H' Hl). auto.
  - destruct (sweeps_shape _ _ _ _ Hs H') as [(l & -> & Hu)|[err' ->]]; [|exact I].
    destruct (sweeps_permuted _ _ _ _ _ (Permutation_sym Hp) H') as (l' & Hl & Hq).
    pose proof (sweeps_fun W False root Ht back args dots _ _ Ha (docs_tame _ Hd) H Hl). discriminate.
Qed.

Lemma docs_nodes : forall l : list (sel * val), Forall (fun a => doc (snd a)) l -> Forall (fun a => json_node (snd a)) l.
Proof. intros l H. eapply Forall_impl; [|exact H]. intros a Ha. apply Ha. constructor. Qed.
Lemma doc_sub : forall x v, doc v -> within x v -> doc x.
Proof. intros x v H Hx. eapply doc_within; eauto. Qed.

Lemma step_alike : forall s cands cands' r r', wf_step s -> plain False (st_args s) -> sliceless (st_args s) ->
  Forall doc cands -> Permutation cands cands' ->
  step_means W root s cands r -> step_means W root s cands' r' -> alike r r'.
Proof.
  intros s cands cands' r r' Hw Hp Hs Hc Hcc H H'.
  pose proof (doc_tame root Hroot) as Ht. pose proof (doc_tame VNil doc_nil) as Hn.
  assert (Hc' : Forall doc cands') by (eapply Permutation_Forall; eauto).
  inversion H; subst; inversion H'; subst; try other_op;
    try (match goal with A : args_mean _ _ _ _ _ ?x, B : args_mean _ _ _ _ _ ?y |- _ =>
      pose proof (args_fun W False root Ht VNil (counts_back (st_op s)) (st_args s) x y Hn Hp A B) as Q end;
      try discriminate Q; try (injection Q as Q; subst));
    try (match goal with A : args_mean _ _ _ _ _ (OK _), E : Exists app_overflows _ |- _ =>
      exfalso; eapply unsliced_fits; [apply applications_unsliced; eapply args_sliceless; [exact Hs|exact A]|exact E] end);
    try (match goal with A : rounds _ cands ?x, B : rounds _ cands' ?y |- _ =>
      assert (Hxy : Permutation x y) by (eapply rounds_perm; [|exact Hcc|exact A|exact B]; first [exact children_perm|exact walks_perm]);
      assert (Hdots : Forall doc x) by (eapply rounds_closed; [exact doc_nil|exact doc_sub| |exact Hc|exact A];
        first [exact children_sub|exact walks_within]) end);
    try (match goal with A : sweeps _ _ _ _ _ ?x, B : sweeps _ _ _ _ _ ?y |- _ =>
      pose proof (sweeps_alike _ _ _ _ x y Hp Hs Hdots Hxy A B) as Q; cbn in Q; try contradiction end);
    try exact I.
  - eapply gathers_perm; [exact children_perm|exact Hcc| |]; eassumption.
  - eapply collects_perm; [| | |eassumption|eassumption].
    + apply applications_unsliced. eapply args_sliceless; [exact Hs|]. eassumption.
    + apply docs_nodes. apply (applications_closed doc). exact Hc.
    + apply flat_map_perm. exact Hcc.
  - match goal with A : st_args s = [PExpr e], B : st_args s = [PExpr ?e'] |- _ =>
      rewrite A in B; injection B as <-; destruct (Hp e) as [Hwe Hk]; [rewrite A; left; reflexivity|] end.
    eapply keeps_alike; eassumption.
  - eapply gathers_perm; [exact children_perm|exact Hxy| |]; eassumption.
  - match goal with A : st_args s = [PExpr e], B : st_args s = [PExpr ?e'] |- _ =>
      rewrite A in B; injection B as <-; destruct (Hp e) as [Hwe Hk]; [rewrite A; left; reflexivity|] end.
    eapply keeps_alike; eassumption.
  - destruct Q as [Q Hu]. eapply collects_perm; [exact Hu| |exact Q|eassumption|eassumption].
    apply docs_nodes. match goal with A : rounds _ cands _, B : sweeps _ _ _ _ dots _ |- _ => exact (sweeps_closed doc _ _ _ _ _ _ _ B Hdots eq_refl) end.
Qed.

Lemma path_alike : forall ss cands cands' r r', wf_path ss -> Forall (fun s => plain False (st_args s) /\ sliceless (st_args s)) ss ->
  Forall doc cands -> Permutation cands cands' ->
  path_means W root ss cands r -> path_means W root ss cands' r' -> alike r r'.
Proof.
  induction ss as [|s ss IH]; intros cands cands' r r' Hw Ha Hc Hcc H H'.
  - inversion H; inversion H'; subst. exact Hcc.
  - apply Forall_cons_iff in Hw as [Hs Hw]. apply Forall_cons_iff in Ha as [[Hp Hsl] Ha].
    inversion H; subst; inversion H'; subst;
    match goal with A : step_means _ _ _ _ ?x, B : step_means _ _ _ _ ?y |- _ =>
      pose proof (step_alike s cands cands' x y Hs Hp Hsl Hc Hcc A B) as Q; cbn in Q end; try contradiction; try exact I.
    eapply IH; [exact Hw|exact Ha| |exact Q|eassumption|eassumption].
    eapply step_closed; [exact doc_nil|exact doc_sub|exact Hc|eassumption].
Qed.
End permuted.

(** ** For texts *)
Lemma text_unique : forall TX s ss jp W t root r, accepted TX s ss jp -> fits jp -> orders_ok W -> doc root -> lone_members root ->
  (JP_Eval W t jp root r <-> path_means W root ss [root] r).
Proof.
  intros TX s ss jp W t root r Ha Hf Hw Hd Hl. split; [eapply text_means; eauto|].
  intro H. destruct (text_ends TX s ss jp Ha Hf W t root Hw Hd) as (r' & Hr').
  pose proof (text_means _ _ _ _ _ _ _ _ Ha Hf Hw Hd Hr') as H'.
  assert (Hr : lone_doc root) by (split; assumption).
  rewrite (path_fun W root ss [root] r r' Hr (text_wf _ _ _ _ Ha)); auto.
Qed.

Lemma text_orders : forall TX s ss jp W perm t t' root r r', accepted TX s ss jp -> fits jp -> orders_ok W ->
  orders_ok (reordered W perm) -> doc root -> ~ has_slice ss -> ~ calls_keys ss ->
  JP_Eval W t jp root r -> JP_Eval (reordered W perm) t' jp root r' -> alike r r'.
Proof.
  intros TX s ss jp W perm t t' root r r' Ha Hf Hw Hw' Hd Hs Hk H H'.
  pose proof (text_wf _ _ _ _ Ha) as Hwf.
  apply (text_means _ _ _ _ _ _ _ _ Ha Hf Hw Hd) in H. apply (text_means _ _ _ _ _ _ _ _ Ha Hf Hw' Hd) in H'.
  apply path_reordered in H'. apply (path_alike W root Hd ss [root] [root]); auto.
  apply Forall_forall. intros st Hst. unfold wf_path in Hwf. rewrite Forall_forall in Hwf. split.
  - intros e He. split; [eapply step_exprs; eauto|]. intros args Hp. apply Hk. exists args, st, e. auto.
  - intros sl Hsl. apply Hs. exists st, sl. auto.
Qed.

Lemma text_lone : forall TX s ss jp W perm t t' root r r', accepted TX s ss jp -> fits jp -> orders_ok W ->
  orders_ok (reordered W perm) -> doc root -> lone_members root ->
  JP_Eval W t jp root r -> JP_Eval (reordered W perm) t' jp root r' -> r = r'.
Proof.
  intros TX s ss jp W perm t t' root r r' Ha Hf Hw Hw' Hd Hl H H'.
  apply (text_means _ _ _ _ _ _ _ _ Ha Hf Hw Hd) in H. apply (text_means _ _ _ _ _ _ _ _ Ha Hf Hw' Hd) in H'.
  apply path_reordered in H'. assert (Hr : lone_doc root) by (split; assumption).
  apply (path_fun W root ss [root]); auto. eapply text_wf; eauto.
Qed.
