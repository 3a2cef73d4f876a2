(** How much a path can select. *)
From Coq Require Import Permutation.
From Verif Require Import Syntax SpecSyntax Value Machine Eval Coder Api SpecDoc DocProofs SpecSelect SpecRun SpecCode SpecText SpecSem SpecCost
  ProgramProofs SelectProofs RunProofs CodeProofs ExprProofs StepProofs EvalProofs CostProofs TextProofs StepExact SemFinal SemExact SpecLaws UnfoldProofs.
Local Open Scope nat_scope.

Section amount.
Variable W : world.
Variable root : val.
Variable h : nat.
Hypothesis HW : orders_ok W.
Hypothesis Hn : noslice root.
Hypothesis Hh : 1 <= h.

Lemma path_weight : forall ss, wf_path ss -> forall out t out' t', lows h out -> ev_path W root ss out t = OK (out', t') ->
  weight (g_list out') <= copies h ss * weight (g_list out).
Proof.
  induction ss as [|s ss IH]; intros Hwf out t out' t' Hout H.
  - cbn [ev_path] in H. injection H as <- <-. cbn. lia.
  - inversion Hwf as [|? ? Hs Hss]; subst. cbn [ev_path] in H.
    assert (Hnil : is_filter (st_op s) = true -> low h VNil) by (intros _; split; [apply doc_nil|exact Hh]).
    destruct (step_outcome W root (low h) false HW (low_child h) (low_node h) Hn s out t Hs (guard_of_wf (low h) s Hs) Hnil Hout) as [_ Ho].
    destruct (ev_step W root s out t) as [[out1 t1]| | |] eqn:E; cbn [obind] in H; try discriminate.
    pose proof (step_weight W root h HW Hn s out t out1 t1 Hs Hh Hout E) as Hw.
    specialize (IH Hss out1 t1 out' t' (Ho _ _ eq_refl) H). unfold copies in *. cbn [fold_right].
    eapply Nat.le_trans; [exact IH|]. rewrite (Nat.mul_comm (growth h s)), <- Nat.mul_assoc. apply Nat.mul_le_mono_l. exact Hw.
Qed.
End amount.

Lemma eval_amount : forall TX s ss jp W t root l, accepted TX s ss jp -> fits jp -> orders_ok W -> doc root ->
  JP_Eval W t jp root (OK l) -> length l <= weight l /\ weight l <= copies (levels root) ss * nodes root.
Proof.
  intros TX s ss jp W t root l A F HW Hd H. split; [apply length_weight|].
  apply (text_eval TX s ss jp A F W t root _ HW Hd) in H. unfold ev_run in H.
  destruct (ev_path W root ss (Some [root]) t) as [[g t1]| | |] eqn:E; cbn [obind] in H; try discriminate. injection H as ->.
  eapply path_weight in E; eauto using doc_noslice, levels_pos, text_wf.
  - unfold weight at 2 in E. cbn in E. rewrite Nat.add_0_r in E. exact E.
  - constructor; [split; [exact Hd|apply le_n]|constructor].
Qed.

Lemma nested_doc : forall n, doc (nested_arrays n).
Proof.
  induction n as [|n IH]; intros x Hx.
  - inversion Hx; subst. exact I.
  - change (within x (VArr [nested_arrays n])) in Hx. inversion Hx as [|? e ? Hi He|]; subst; [vm_compute; discriminate|]. destruct Hi as [<-|[]]. apply IH. exact He.
Qed.
Lemma twice_step : forall W root c n r, step_means W root twice (repeat (nested_arrays (S n)) c) r -> r = OK (repeat (nested_arrays n) (2 * c)).
Proof.
  intros W root c n r H. destruct (plain_step _ _ _ _ _ _ _ NsUnion (Forall_cons (PInt 0) I (Forall_cons (PInt 0) I (Forall_nil _))) H) as (l & -> & G). f_equal.
  clear H. revert l G. induction c as [|c IH]; intros l G.
  - destruct G as (ls & G & ->). inversion G; subst. reflexivity.
  - cbn [repeat] in G. apply gathers_cons in G as (a & b & Ha & G & ->). rewrite (IH b G). replace (2 * S c) with (S (S (2 * c))) by lia. cbn [repeat].
    destruct Ha as (ls & Ha & ->). inversion Ha as [|? x ? y Hx Hy]; subst. inversion Hy as [|? x' ? y' Hx' Hy']; subst. inversion Hy'; subst.
    assert (Hp : picks (SIndex true 0) (nested_arrays (S n)) [nested_arrays n]) by (apply PkElem with (i := 0%Z); [auto|split; [lia|reflexivity]]).
    assert (Hj : json_node (nested_arrays (S n))) by exact (nested_doc (S n) _ (WSelf _)).
    rewrite (picks_fun _ _ _ _ Hj Hx Hp), (picks_fun _ _ _ _ Hj Hx' Hp). reflexivity.
Qed.
Lemma twice_path : forall W root n c r, path_means W root (repeat twice n) (repeat (nested_arrays n) c) r -> r = OK (repeat VNil (2 ^ n * c)).
Proof.
  intros W root n. induction n as [|n IH]; intros c r H; cbn [repeat] in H.
  - inversion H; subst. cbn. rewrite Nat.add_0_r. reflexivity.
  - inversion H as [|? ? ? l ? S P|? ? ? err S|? ? ? S]; subst; apply twice_step in S; try discriminate S. injection S as ->.
    rewrite (IH _ _ P). do 2 f_equal. cbn [Nat.pow]. lia.
Qed.
Lemma twice_small : forall n at_, length (list_path at_ (repeat twice n)) = 3 * n.
Proof. induction n as [|n IH]; intro at_; [reflexivity|]. cbn [repeat list_path]. rewrite app_length, IH. cbn. lia. Qed.
Lemma twice_wf : forall n, wf_path (repeat twice n).
Proof. intro n. apply Forall_forall. intros s Hs. apply repeat_spec in Hs as ->. assert (E : wf_union_elt (PInt 0)) by (constructor; vm_compute; split; discriminate). apply WfUnion; auto. Qed.
Lemma runs_doubling : forall W t n, orders_ok W -> (Z.of_nat n <= 1000000)%Z -> let root := nested_arrays n in
  exists t', runs W root t [root] (repeat twice n) (OK (repeat VNil (2 ^ n), t')).
Proof.
  intros W t n HW Hn root. assert (Hs : small (repeat twice n)) by (unfold small; rewrite twice_small; lia).
  assert (Hd : doc root) by apply nested_doc. assert (Hc : Forall doc [root]) by (repeat constructor; exact Hd).
  destruct (runs_some W root t [root] HW Hd Hc _ (twice_wf n) Hs) as (r & Hr).
  pose proof (runs_means W root t [root] _ r HW Hd Hc (twice_wf n) Hs Hr) as H.
  apply (twice_path W root n 1) in H. rewrite Nat.mul_1_r in H. destruct r as [[l t']| | |]; try discriminate H. cbn in H. injection H as ->. eauto.
Qed.
