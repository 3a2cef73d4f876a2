(** Whole texts as sequences of steps, and texts whose slices discard. *)
From Verif Require Import Syntax SpecSyntax Value Machine Coder Eval SpecDoc DocProofs SpecSelect SpecRun SpecCode
  RunProofs StepExact SelectFinal SpecGrammar Parser Api SpecText TextProofs RefuteProofs Examples.
Local Open Scope Z_scope.

Lemma Forall2_length : forall A B (R : A -> B -> Prop) l l', Forall2 R l l' -> length l = length l'.
Proof. intros A B R l l' H. induction H; cbn; auto. Qed.

Lemma fits_small : forall TX s ss jp, accepted TX s ss jp -> fits jp -> small ss.
Proof.
  intros TX s ss jp Ha Hf. unfold small, fits, prog_size in *.
  destruct (text_constants TX s ss jp Ha) as [H _]. apply Forall2_length in H. lia.
Qed.

Lemma text_runs : forall TX s ss jp, accepted TX s ss jp -> fits jp ->
  forall W t root r, orders_ok W -> doc root ->
  (JP_Eval W t jp root r <->
   exists r', runs W root t [root] ss r' /\ r = (let! (l, _) := r' in OK l)).
Proof.
  intros TX s ss jp Ha Hf W t root r HW Hr. rewrite (text_eval TX s ss jp Ha Hf) by auto.
  pose proof (fits_small TX s ss jp Ha Hf) as Hs. pose proof (text_wf TX s ss jp Ha) as Hwf.
  assert (Hc : Forall doc [root]) by auto.
  assert (E : ev_run W root t ss = (let! (l, _) := ev_sel W root t [root] ss in OK l)).
  { unfold ev_run, ev_sel. destruct (ev_path W root ss (Some [root]) t) as [[o t1]| | |]; reflexivity. }
  split.
  - intros ->. exists (ev_sel W root t [root] ss). split; [apply runs_exact; auto|exact E].
  - intros (r' & H & ->). apply runs_exact in H; auto. subst r'. symmetry. exact E.
Qed.

Lemma text_app : forall TX s s1 ss q jp jp1, accepted TX s (ss ++ q) jp -> accepted TX s1 ss jp1 -> fits jp ->
  forall W t root l, orders_ok W -> doc root ->
  (JP_Eval W t jp root (OK l) <->
   exists l1 t1 t2, runs W root t [root] ss (OK (l1, t1)) /\ JP_Eval W t jp1 root (OK l1) /\
     runs W root t1 l1 q (OK (l, t2))).
Proof.
  intros TX s s1 ss q jp jp1 Ha Ha1 Hf W t root l HW Hr.
  pose proof (fits_small _ _ _ _ Ha Hf) as Hs. pose proof (text_wf _ _ _ _ Ha) as Hwf.
  assert (Hc : Forall doc [root]) by auto.
  assert (Hf1 : fits jp1).
  { destruct (small_app _ _ Hs) as [Hs1 _]. unfold fits, small, prog_size in *.
    destruct (text_constants TX s1 ss jp1 Ha1) as [H _]. apply Forall2_length in H. lia. }
  rewrite (text_runs _ _ _ _ Ha Hf) by auto. split.
  - intros (r' & H & E). destruct r' as [[l' t2]| | |]; cbn in E; try discriminate. injection E as <-.
    apply runs_app in H; auto. destruct H as [(l1 & t1 & H1 & H2)|[(e & _ & E)|[_ E]]]; try discriminate.
    exists l1, t1, t2. split; [exact H1|]. split; [|exact H2]. apply (text_runs _ _ _ _ Ha1 Hf1); auto.
    exists (OK (l1, t1)). auto.
  - intros (l1 & t1 & t2 & H1 & _ & H2). exists (OK (l, t2)). split; [|reflexivity].
    apply runs_app; auto. left. eauto.
Qed.

(** 0:1 *)
Definition first_slice : slice := mkSlice (Some (BInt 0)) (Some (BInt 1)) None.

Lemma slice_discards : exists s cands, wf_step s /\ Forall doc cands /\ forall W root t,
  runs W root t cands [s] (OK ([], t)) /\ one_by_one W root s t cands [VInt64 1] t.
Proof.
  exists (mkStep OpSelect [PSlice first_slice]), [VArr [VInt64 1]; VInt64 2].
  split; [|split].
  - repeat constructor; cbn; discriminate.
  - repeat constructor; apply docb_doc; reflexivity.
  - intros W root t. split.
    + eexists. split; [vm_compute; reflexivity|]. split; [vm_compute; reflexivity|]. split; [discriminate|].
      exists 5%nat. vm_compute. reflexivity.
    + change [VInt64 1] with ([VInt64 1] ++ [] ++ []). apply ObCons with t; [|apply ObCons with t; [|constructor]].
      all: eexists; (split; [vm_compute; reflexivity|]); (split; [vm_compute; reflexivity|]); (split; [discriminate|]);
        exists 5%nat; vm_compute; reflexivity.
Qed.

Lemma union_discards : exists s root args sels, doc root /\ Forall2 (selector true) args sels /\
  picks_all sels root [VInt64 1] /\ forall TX, ParsePath TX s = OK [mkStep OpUnion args] /\
  exists jp, JP_Compile TX s = OK jp /\ forall W t, JP_Eval W t jp root (OK []).
Proof.
  exists (b_of "$['a',0:1]"), (VObj [(b_of "a", VInt64 1)]), [PStr (b_of "a"); PSlice first_slice],
    [SName (b_of "a"); SSlice (Some 0) (Some 1) None].
  split; [apply docb_doc; reflexivity|]. split; [repeat constructor|]. split.
  - exists [[VInt64 1]; []]. split; [|reflexivity]. constructor; [|constructor; [|constructor]].
    + apply PkName. apply PnMember. left. reflexivity.
    + apply PkSliceOther. reflexivity.
  - intro TX. split; [vm_compute; reflexivity|]. eexists. split; [vm_compute; reflexivity|].
    intros W t. split; [discriminate|]. exists 10%nat. vm_compute. reflexivity.
Qed.

Lemma slice_panics : exists s root l, doc root /\ picks (SSlice (Some 1) (Some 3) (Some 9223372036854775807)) root l /\
  forall TX, ParsePath TX s = OK [mkStep OpSelect [PSlice (mkSlice (Some (BInt 1)) (Some (BInt 3))
    (Some (BInt 9223372036854775807)))]] /\
  exists jp, JP_Compile TX s = OK jp /\ forall W t, JP_Eval W t jp root Panics.
Proof.
  exists (b_of "$[1:3:9223372036854775807]"), (VArr [VNil; VBool true; VNil]), [VBool true].
  split; [apply docb_doc; reflexivity|]. split.
  - apply PkSlice with [1].
    + apply (SlUp 3 (Some 1) (Some 3) (Some 9223372036854775807) 9223372036854775807 1); [reflexivity|lia|].
      intro k. change (clip 0 3 (from_end 3 (or_default 0 (Some 1)))) with 1.
      change (clip 0 3 (from_end 3 (or_default 3 (Some 3)))) with 3. nia.
    + repeat constructor. lia.
  - intro TX. split; [vm_compute; reflexivity|]. eexists. split; [vm_compute; reflexivity|].
    intros W t. split; [discriminate|]. exists 3%nat. vm_compute. reflexivity.
Qed.

Lemma nest_null : exists s root, doc root /\ IsStructure root = false /\ forall TX,
  ParsePath TX s = OK [mkStep OpNestFilter [PExpr (EInner OpEQ [EInt 1; EInt 1])]] /\
  exists jp, JP_Compile TX s = OK jp /\ forall W t, JP_Eval W t jp root (OK [VNil]).
Proof.
  exists (b_of "$..[?(1==1)]"), (VInt64 42). split; [apply docb_doc; reflexivity|]. split; [reflexivity|].
  intro TX. split; [vm_compute; reflexivity|]. eexists. split; [vm_compute; reflexivity|].
  intros W t. split; [discriminate|]. exists 10%nat. vm_compute. reflexivity.
Qed.

Lemma union_exact : forall W root t cands args sels r, orders_ok W -> doc root -> Forall doc cands ->
  wf_step (mkStep OpUnion args) -> small [mkStep OpUnion args] -> Forall2 (selector true) args sels ->
  (runs W root t cands [mkStep OpUnion args] r <->
   (exists l, r = OK (l, t) /\ collects (applications sels cands) l /\
      Forall (fun a => ~ app_overflows a) (applications sels cands)) \/
   (r = Panics /\ Exists app_overflows (applications sels cands))).
Proof. intros. apply select_exact; auto. Qed.

Lemma union_gathers : forall W root t cands args sels l t', orders_ok W -> doc root -> Forall doc cands ->
  wf_step (mkStep OpUnion args) -> small [mkStep OpUnion args] -> Forall2 (selector true) args sels ->
  (Exists (fun s => is_slice s = true) sels -> Forall (fun v => IsArray v = true) cands) ->
  runs W root t cands [mkStep OpUnion args] (OK (l, t')) -> t' = t /\ gathers (picks_all sels) cands l.
Proof.
  intros W root t cands args sels l t' HW Hr Hc Hwf Hs Hsels Hsl H.
  apply (union_exact W root t cands args sels) in H; auto. destruct H as [(l1 & E & H & _)|[E _]]; [|discriminate].
  injection E as -> ->. split; [reflexivity|]. apply collects_gathers; auto. apply applications_of.
  intros s v Hin Hv Hd. destruct s as [| |a b c]; cbn in Hd; auto.
  assert (He : Exists (fun s => is_slice s = true) sels) by (apply Exists_exists; eauto).
  apply Hsl in He. rewrite Forall_forall in He. apply He in Hv. unfold discards in Hd. cbn in Hd. congruence.
Qed.

Lemma nest_visits : forall W root t cands s sels, orders_ok W -> doc root -> Forall doc cands ->
  wf_step s -> small [s] -> is_nest_select (st_op s) = true ->
  Forall2 (selector (counts_back (st_op s))) (st_args s) sels ->
  (exists r, runs W root t cands [s] r) /\
  forall r, runs W root t cands [s] r -> exists dots, gathers visits_containers cands dots /\
   ((exists l t', r = OK (l, t') /\ collects (applications sels dots) l /\
      Forall (fun a => ~ app_overflows a) (applications sels dots)) \/
    (r = Panics /\ Exists app_overflows (applications sels dots))).
Proof.
  intros W root t cands s sels HW Hr Hc Hwf Hs Ho Hsels.
  destruct (nest_exact W root t cands s sels HW Hr Hc Hwf Hs Ho Hsels) as [H1 H2]. split; auto.
  intros r H. destruct (H2 r H) as (dots & Hd & H3). exists dots. split; auto. apply gathers_visits; auto.
Qed.

Lemma nest_wild_visits : forall W root t cands, orders_ok W -> doc root -> Forall doc cands ->
  (exists r, runs W root t cands [mkStep OpNestWild []] r) /\
  forall r, runs W root t cands [mkStep OpNestWild []] r ->
    exists dots l t', r = OK (l, t') /\ gathers visits_containers cands dots /\ gathers children_in_order dots l.
Proof.
  intros W root t cands HW Hr Hc. destruct (nest_wild_exact W root t cands HW Hr Hc) as [H1 H2]. split; auto.
  intros r H. destruct (H2 r H) as (dots & l & t' & -> & Hd & Hl). exists dots, l, t'.
  split; [reflexivity|]. split; auto. apply gathers_visits; auto.
Qed.
