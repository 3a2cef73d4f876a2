(** Evaluating an expression never panics, and yields no slice. *)
From Verif Require Import SpecSyntax Machine Eval CoderProofs SpecDoc DocProofs WalkProofs.
Local Open Scope Z_scope.

(** neither a panic nor out of fuel *)
Definition clean {A} (r : M A) : Prop := r <> Panics /\ r <> OutOfFuel.

Lemma clean_ok : forall A (a : A), clean (OK a).
Proof. split; discriminate. Qed.
Lemma clean_fail : forall A (e : rerr), clean (@Fail rerr A e).
Proof. split; discriminate. Qed.
#[export] Hint Resolve clean_ok clean_fail : core.

Lemma clean_bind : forall A B (x : M A) (f : A -> M B), clean x ->
  (forall a, x = OK a -> clean (f a)) -> clean (obind x f).
Proof. intros A B x f [H1 H2] H. destruct x; simpl; auto; congruence. Qed.

(** ** Functions *)
Lemma call_clean : forall W t id args, clean (call W t id args).
Proof.
  intros W t id args. unfold call. destruct (lookup id functions) as [fn|] eqn:E; auto.
  assert (Hin : exists k, In (k, fn) functions).
  { revert E. generalize functions. induction l as [|[k f] l IH]; simpl; [discriminate|].
    destruct (beqb id k); intro H; [injection H as ->; eauto|].
    destruct (IH H) as [k' Hk]. eauto. }
  destruct Hin as [k Hin].
  assert (Harg1 : forall f, length args = 1%nat -> (forall v, clean (f v)) -> clean (with_arg args 0 f)).
  { intros f Hl Hf. destruct args; simpl in Hl; [discriminate|]. apply Hf. }
  assert (Harg2 : forall f, length args = 2%nat -> (forall a b, clean (f a b)) ->
    clean (with_arg args 0 (fun a => with_arg args 1 (fun b => f a b)))).
  { intros f Hl Hf. destruct args as [|a [|b args]]; simpl in Hl; try discriminate. apply Hf. }
  unfold functions in Hin. cbn [In] in Hin.
  repeat (destruct Hin as [Hin|Hin]; [injection Hin as <- <-|]); try contradiction;
    cbn [fn_na fn_body fn1];
    try (destruct (Z.eqb_spec (Z.of_nat (length args)) 1); cbn [negb]; auto; apply Harg1; [lia|auto]; fail);
    try (destruct (Z.eqb_spec (Z.of_nat (length args)) 2); cbn [negb]; auto; apply Harg2; [lia|auto]; fail);
    try (destruct (Z.eqb_spec (Z.of_nat (length args)) 2); cbn [negb]; auto; fail); auto.
Qed.

(** ** Operators *)
Lemma op_index_clean : forall W a b, clean (op_index W a b).
Proof.
  intros W a b. unfold op_index. destruct (isNothing a || isNothing b); auto.
  destruct a; auto.
  set (i := if cvi W b <? 0 then wrap64 (cvi W b + Z.of_nat (length l)) else cvi W b).
  cbv zeta. fold i.
  destruct ((i <? 0) || (i >=? Z.of_nat (length l))) eqn:E; auto.
  apply orb_false_iff in E as [E1 E2]. apply Z.ltb_ge in E1. rewrite Z.geb_leb in E2. apply Z.leb_gt in E2.
  unfold index_Z. destruct (Z.ltb_spec i 0); [lia|].
  destruct (nth_error l (Z.to_nat i)) eqn:En; auto.
  apply nth_error_None in En. lia.
Qed.

Lemma binop_clean : forall W o a b, is_binary o = true ->
  exists r, binop W o a b = Some r /\ clean r.
Proof.
  intros W o a b Ho. destruct o; try discriminate Ho; cbn [binop]; eexists; (split; [reflexivity|]); auto.
  - apply op_index_clean.
  - unfold op_in. destruct (isNothing a || isNothing b); auto. destruct b; auto.
  - unfold op_in. destruct (isNothing a || isNothing b); auto. destruct b; auto.
  - unfold op_match. destruct (isNothing a || isNothing b); auto.
    apply clean_bind; [destruct b; auto; destruct (re_ok W s); auto|].
    intros p _. destruct a; auto.
Qed.

Lemma op_dot_clean : forall W v s, clean (op_dot W v (VName s)).
Proof.
  intros. unfold op_dot. destruct (isNothing (VName s) || isNothing v); auto.
  destruct (beqb s (b_of "length")); auto.
Qed.

Lemma evs_clean : forall W root dot l, Forall (fun e => forall t, clean (ev W root dot t e)) l ->
  forall t, clean (evs W root dot t l).
Proof.
  intros W root dot l H. induction H as [|e l He Hl IH]; intro t; cbn [evs]; auto.
  apply clean_bind; [apply He|]. intros [v t1] _.
  apply clean_bind; [apply IH|]. intros [vs t2] _. auto.
Qed.

Lemma evs_length : forall W root dot l t vs t1, evs W root dot t l = OK (vs, t1) ->
  length vs = length l.
Proof.
  induction l as [|e l IH]; intros t vs t1 H; cbn [evs] in H.
  - injection H as <- <-. reflexivity.
  - destruct (ev W root dot t e) as [[v t']| | |]; cbn [obind] in H; try discriminate.
    destruct (evs W root dot t' l) as [[vs' t'']| | |] eqn:E; cbn [obind] in H; try discriminate.
    injection H as <- <-. simpl. f_equal. eapply IH; eauto.
Qed.

Lemma ev_clean : forall W root e, wf_expr e -> forall dot t, clean (ev W root dot t e).
Proof.
  intros W root e. induction e using expr_tree_ind; intros Hwf dot t; try apply clean_ok.
  rewrite ev_inner. pose proof (wf_inner _ _ Hwf) as (Hk & _ & _).
  assert (Hall : forall l, Forall wf_expr l -> Forall (fun e => wf_expr e -> forall dot t, clean (ev W root dot t e)) l ->
    forall t, clean (evs W root dot t l)).
  { intros l Hw Hc. apply evs_clean. rewrite Forall_forall in *. intros x Hx t0. apply Hc; auto. }
  apply clean_bind; [apply Hall; auto|].
  intros [vs t1] Hvs. pose proof (evs_length _ _ _ _ _ _ _ Hvs) as Hlen.
  inversion Hwf; subst; simpl in Hlen.
  - destruct vs as [|v [|]]; try discriminate.
    match goal with H : _ \/ _ |- _ => destruct H; subst end; simpl; auto.
  - destruct vs as [|v [|v' [|]]]; try discriminate.
    destruct (binop_clean W o v v' H2) as (r & Hr & Hcr).
    unfold apply_op. rewrite Hr. destruct o; try discriminate; (apply clean_bind; [exact Hcr|]); auto.
  - cbn [evs] in Hvs.
    destruct (ev W root dot t a) as [[v t']| | |]; cbn [obind] in Hvs; try discriminate.
    cbn [ev obind] in Hvs. injection Hvs as <- <-.
    cbn [apply_op binop]. apply clean_bind; [apply op_dot_clean|auto].
  - simpl. auto.
  - cbn [evs ev obind] in Hvs.
    destruct (evs W root dot t l) as [[vs' t'']| | |] eqn:E; cbn [obind] in Hvs; try discriminate.
    injection Hvs as <- <-. cbn [apply_op]. apply call_clean.
Qed.

(** ** No expression has a slice as its value *)
Definition noslice (v : val) : Prop := forall s, ~ within (VSlice s) v.

Lemma noslice_arr : forall l, Forall noslice l <-> noslice (VArr l).
Proof.
  intro l. rewrite Forall_forall. split.
  - intros H s Hs. inversion Hs as [|? e ? Hin Hw|]; subst. exact (H _ Hin s Hw).
  - intros H e He s Hs. apply (H s). econstructor; eauto.
Qed.

Lemma noslice_atom : forall v, IsStructure v = false -> isSlice v = false -> noslice v.
Proof.
  intros v H1 H2 s Hs. inversion Hs; subst; discriminate.
Qed.

Lemma noslice_sub : forall x v, noslice v -> within x v -> noslice x.
Proof. intros x v H Hx s Hs. apply (H s). eapply within_trans; eauto. Qed.

Lemma lookup_in : forall A k (m : list (bytes * A)) v, lookup k m = Some v -> exists k', In (k', v) m.
Proof.
  induction m as [|[k' v'] m IH]; simpl; intros v H; [discriminate|].
  destruct (beqb k k'); [injection H as ->; eauto|]. destruct (IH _ H) as [k'' H']. eauto.
Qed.

Lemma valByKey_noslice : forall W src key neg v, noslice src -> valByKey W src key neg = Some v ->
  noslice v.
Proof.
  intros W src key neg v H Hv. destruct src; simpl in Hv; try discriminate.
  - injection Hv as <-. exact H.
  - match type of Hv with (if ?c then _ else _) = _ => destruct c end; try discriminate.
    unfold index_Z in Hv. match type of Hv with (if ?c then _ else _) = _ => destruct c end; try discriminate.
    apply nth_error_In in Hv. eapply noslice_sub; eauto. econstructor; eauto. constructor.
  - apply lookup_in in Hv as [k' Hv]. eapply noslice_sub; eauto. econstructor 3; eauto. constructor.
Qed.

Ltac atom := apply noslice_atom; reflexivity.

Lemma arith_loop_noslice : forall W f a i acc, noslice (arith_loop W f i acc a).
Proof. induction a as [|v a IH]; intros; cbn [arith_loop]; [atom|]. destruct (negb (isArith v)); [atom|apply IH]. Qed.
Lemma string_loop_noslice : forall f a i acc, noslice (string_loop f i acc a).
Proof. induction a as [|v a IH]; intros; cbn [string_loop]; [atom|]. destruct v; try atom. apply IH. Qed.
Lemma minMax_noslice : forall W a f g, noslice (minMaxArray W a f g).
Proof.
  intros. destruct a as [|v a]; [atom|]. unfold minMaxArray, arithArrayOp, stringArrayOp.
  destruct v; try atom; try apply arith_loop_noslice. apply string_loop_noslice.
Qed.

Lemma call_noslice : forall W t id args v t', Forall noslice args ->
  call W t id args = OK (v, t') -> noslice v.
Proof.
  intros W t id args v t' Ha H. unfold call in H.
  destruct (lookup id functions) as [fn|] eqn:E; [|discriminate].
  apply lookup_in in E as [k Hin].
  assert (Hb : fn_body fn W t args = OK (v, t')).
  { destruct (fn_na fn); auto. destruct (negb _); [discriminate|auto]. }
  clear H. unfold functions in Hin. cbn [In] in Hin.
  assert (Harg : forall f : val -> val, (forall x, noslice x -> noslice (f x)) ->
    with_arg args 0 (fun x => @OK rerr _ (f x, t)) = OK (v, t') -> noslice v).
  { intros f Hf Hw. unfold with_arg, arg in Hw. destruct args; simpl in Hw; [discriminate|].
    injection Hw as <- <-. apply Hf. inversion Ha; auto. }
  repeat (destruct Hin as [Hin|Hin]; [injection Hin as <- <-; cbn [fn_body fn1] in Hb|]); try contradiction.
  - apply Harg in Hb; auto. intros x _. destruct x; try atom; unfold fn_abs.
    + destruct (z <? 0); atom.
    + destruct (z <? 0); [destruct (neg64 z <? 0); atom|atom].
    + destruct (f_ltb f f_zero); atom.
  - apply Harg in Hb; auto. intros x _. destruct x; try atom. unfold fn_avg.
    destruct (avg_loop W f_zero l); atom.
  - apply Harg in Hb; auto. intros x _. destruct x; atom.
  - unfold with_arg, arg in Hb. destruct args as [|a [|b args]]; simpl in Hb; try discriminate.
    injection Hb as <- <-. unfold fn_contains. destruct a; try atom. destruct b; atom.
  - injection Hb as <- <-. destruct (stringArgs args) as [[? ?]|]; atom.
  - apply Harg in Hb; auto. intros x _. destruct x; atom.
  - unfold with_arg, arg in Hb. destruct args as [|a args]; simpl in Hb; try discriminate.
    injection Hb as Hv. destruct a; simpl in Hv; injection Hv as <- <-; try atom.
    apply noslice_arr. apply Forall_forall. intros x Hx. apply in_map_iff in Hx as (kv & <- & _). atom.
  - apply Harg in Hb; auto. intros x _. destruct x; atom.
  - injection Hb as <- <-. unfold fn_minmax. destruct args as [|a [|b args]]; try atom; [|apply minMax_noslice].
    destruct a; try atom. apply minMax_noslice.
  - injection Hb as <- <-. unfold fn_minmax. destruct args as [|a [|b args]]; try atom; [|apply minMax_noslice].
    destruct a; try atom. apply minMax_noslice.
  - apply Harg in Hb; auto. intros x _. destruct x; try atom. unfold fn_prod.
    destruct l; [atom|]. unfold arithArrayOp. apply arith_loop_noslice.
  - injection Hb as <- <-. destruct (stringArgs args) as [[? ?]|]; atom.
  - apply Harg in Hb; auto. intros x _. destruct x; try atom. unfold fn_sum.
    destruct l; [atom|]. unfold arithArrayOp. apply arith_loop_noslice.
  - apply Harg in Hb; auto. intros x _. destruct x; try atom. unfold fn_to_number.
    destruct (parse_float W s); atom.
  - injection Hb as <- <-. unfold fn_tokenize. destruct (stringArgs args) as [[s re]|]; [|atom].
    destruct (re_ok W re); [|atom]. apply noslice_arr. apply Forall_forall. intros x Hx.
    apply in_map_iff in Hx as (y & <- & _). atom.
Qed.

Lemma binop_noslice : forall W o a b r v, is_binary o = true \/ o = OpDot ->
  noslice a -> noslice b -> binop W o a b = Some r -> r = OK v -> noslice v.
Proof.
  intros W o a b r v Ho Ha Hb Hr Hv. subst r.
  assert (Hrel : forall f g h, noslice (relation W a b f g h)).
  { intros. unfold relation. repeat match goal with |- noslice (if ?c then _ else _) => destruct c end; atom. }
  assert (Har : forall f g, noslice (if isNothing a || isNothing b then nothing else arith W a b f g)).
  { intros. unfold arith. repeat match goal with |- noslice (if ?c then _ else _) => destruct c end; atom. }
  assert (Hdv : forall f g, noslice (if isNothing a || isNothing b then nothing else divide W a b f g)).
  { intros. unfold divide. repeat match goal with |- noslice (if ?c then _ else _) => destruct c end; atom. }
  destruct o; try (destruct Ho; discriminate); cbn [binop] in Hr; injection Hr as Hr;
    try subst v; auto; try atom.
  - unfold op_dot in Hr. destruct (isNothing b || isNothing a); [injection Hr as <-; atom|].
    destruct b; try discriminate. destruct (beqb s (b_of "length")).
    + injection Hr as <-. destruct a; atom.
    + injection Hr as <-. destruct a; try atom.
      destruct (valByKey W (VObj m) (VName s) false) eqn:E; [|atom]. exact (valByKey_noslice _ _ _ _ _ Ha E).
  - unfold op_index in Hr. destruct (isNothing a || isNothing b); [injection Hr as <-; atom|].
    destruct a; try (injection Hr as <-; atom).
    + cbv zeta in Hr. match type of Hr with (if ?c then _ else _) = _ => destruct c end;
        [injection Hr as <-; atom|].
      match type of Hr with match ?x with _ => _ end = _ => destruct x eqn:E end; [|discriminate].
      injection Hr as <-. unfold index_Z in E.
      match type of E with (if ?c then _ else _) = _ => destruct c end; try discriminate.
      apply nth_error_In in E. eapply noslice_sub; [exact Ha|]. econstructor; eauto. constructor.
    + injection Hr as <-.
      assert (Hx : forall o, valByKey W (VObj m) b true = o ->
        noslice (match o with Some v => v | None => nothing end)).
      { intros [x|] Hx; [exact (valByKey_noslice _ _ _ _ _ Ha Hx)|atom]. }
      apply Hx. reflexivity.
  - unfold op_and. destruct (isNothing a || negb (cvb W a)); auto.
  - unfold op_or. destruct (isNothing a && isNothing b); [atom|]. destruct (negb (isNothing a) && cvb W a); auto.
  - unfold op_in in Hr. destruct (isNothing a || isNothing b); [injection Hr as <-; atom|].
    destruct b; try discriminate. injection Hr as <-. atom.
  - unfold op_in in Hr. destruct (isNothing a || isNothing b); [injection Hr as <-; atom|].
    destruct b; try discriminate. injection Hr as <-. atom.
  - unfold op_match in Hr. destruct (isNothing a || isNothing b); [injection Hr as <-; atom|].
    destruct (match b with VStr s => _ | VRegexp p => _ | _ => _ end) as [p| | |]; cbn [obind] in Hr; try discriminate.
    destruct a; try discriminate. injection Hr as <-. atom.
Qed.

Lemma evs_noslice : forall W root dot l,
  Forall (fun e => forall t v t', ev W root dot t e = OK (v, t') -> noslice v) l ->
  forall t vs t', evs W root dot t l = OK (vs, t') -> Forall noslice vs.
Proof.
  intros W root dot l H. induction H as [|e l He Hl IH]; intros t vs t' Hv; cbn [evs] in Hv.
  - injection Hv as <- <-. constructor.
  - destruct (ev W root dot t e) as [[v t1]| | |] eqn:E1; cbn [obind] in Hv; try discriminate.
    destruct (evs W root dot t1 l) as [[vs' t2]| | |] eqn:E2; cbn [obind] in Hv; try discriminate.
    injection Hv as <- <-. constructor; eauto.
Qed.

Lemma ev_noslice : forall W root e, wf_expr e -> noslice root -> forall dot, noslice dot ->
  forall t v t', ev W root dot t e = OK (v, t') -> noslice v.
Proof.
  intros W root e. induction e using expr_tree_ind; intros Hwf Hroot dot Hdot t v t' Hv;
    try (cbn [ev] in Hv; injection Hv as <- <-; auto; atom).
  rewrite ev_inner in Hv. pose proof (wf_inner _ _ Hwf) as (Hk & _ & _).
  destruct (evs W root dot t kids) as [[vs t1]| | |] eqn:E; cbn [obind] in Hv; try discriminate.
  assert (Hvs : Forall noslice vs).
  { eapply evs_noslice; [|exact E]. rewrite Forall_forall in *. intros x Hx t0 v0 t0' H0.
    eapply H; eauto. }
  pose proof (evs_length _ _ _ _ _ _ _ E) as Hlen.
  inversion Hwf; subst; simpl in Hlen.
  - destruct vs as [|x [|]]; try discriminate.
    match goal with H : _ \/ _ |- _ => destruct H; subst end; cbn [apply_op unop] in Hv; injection Hv as <- <-.
    + unfold op_neg. destruct (isNothing x); [atom|]. destruct x; atom.
    + atom.
  - destruct vs as [|x [|y [|]]]; try discriminate. inversion Hvs; subst. inversion H6; subst.
    assert (exists r, binop W o x y = Some r /\ r = OK v) as (r & Hr1 & Hr2).
    { destruct o; try discriminate; unfold apply_op in Hv;
        destruct (binop W _ x y) as [r|] eqn:Eb; try discriminate;
        exists r; (split; [reflexivity|]); destruct r; cbn [obind] in Hv; try discriminate; congruence. }
    eapply binop_noslice; [left; eassumption| | |exact Hr1|exact Hr2]; auto.
  - destruct vs as [|x [|y [|]]]; try discriminate. inversion Hvs; subst. inversion H4; subst.
    cbn [apply_op] in Hv. destruct (binop W OpDot x y) as [r|] eqn:Eb; try discriminate.
    destruct r as [w| | |]; cbn [obind] in Hv; try discriminate. injection Hv as -> <-.
    eapply binop_noslice; [right; reflexivity| | |exact Eb|reflexivity]; auto.
  - cbn [apply_op] in Hv. injection Hv as <- <-. apply noslice_arr. exact Hvs.
  - cbn [apply_op] in Hv. destruct vs as [|x vs]; try discriminate. inversion Hvs; subst.
    destruct x; try discriminate. eapply call_noslice; [|exact Hv]. auto.
Qed.
