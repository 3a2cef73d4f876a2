(** How far the meaning of a path depends on the orders of iteration over maps. *)
From Coq Require Import QArith Qabs Permutation.
From Verif Require Import SpecSyntax Machine Eval ProgramProofs StackProofs MachineProofs CoderProofs SpecDoc DocProofs SpecSelect
  SpecRun SelectProofs WalkProofs ExprProofs SpecCode StepExact SpecOp OpProofs SpecExpr LogicProofs ArithProofs FloatProofs
  SaneProofs SpecText SpecSem SemProofs SemFinal.
Local Open Scope Z_scope.

Lemma F2_length : forall A B (R : A -> B -> Prop) l l', Forall2 R l l' -> length l = length l'.
Proof. intros A B R l l' H. induction H; cbn; congruence. Qed.

(** ** What one order does is unique *)
Lemma apply_no_fuel : forall W t o vs, inner_ok o (length vs) -> apply_op W t o vs <> OutOfFuel.
Proof.
  intros W t o vs Ho H.
  assert (H2 : is_binary o = true -> length vs = 2%nat -> False).
  { intros Hb L. destruct vs as [|a [|b [|]]]; try discriminate.
    destruct (binop_clean W o a b Hb) as (r & Hr & [_ Hc]).
    destruct o; try discriminate Hb; unfold apply_op in H; rewrite Hr in H; destruct r; cbn [obind] in H; congruence. }
  destruct o; cbn [inner_ok is_binary] in Ho; try (destruct Ho; discriminate);
    try exact (H2 (proj1 Ho) (proj2 Ho)).
  - destruct vs as [|a [|b [|]]]; try discriminate. cbn [apply_op binop] in H. unfold op_dot in H.
    destruct (isNothing b || isNothing a); [discriminate|]. destruct b; try discriminate.
    destruct (beqb s (b_of "length")); discriminate.
  - destruct vs as [|a [|]]; discriminate.
  - cbn [apply_op] in H. destruct vs as [|a vs]; [discriminate|]. destruct a; try discriminate.
    exact (proj2 (call_clean W t s vs) H).
  - destruct vs as [|a [|]]; discriminate.
Qed.

Lemma operates_inv : forall W t o vs r, inner_ok o (length vs) -> Z.of_nat (length vs) < 4194304 ->
  operates W t o vs r -> r = apply_op W t o vs.
Proof.
  intros W t o vs r Ho Hl H. pose proof (apply_no_fuel W t o vs Ho) as Hf.
  pose proof (operates_apply W t o vs Ho Hf) as H'.
  set (m := mkM None VNil vs (length vs) 0 [] t). set (ord := mkSmall o (Z.of_nat (length vs))).
  assert (E1 : op_of_num (order_op ord) = Some o) by (unfold ord; rewrite order_op_small; apply op_of_num_num).
  assert (E2 : order_small_int ord = Z.of_nat (length vs)) by (apply order_small_int_small, arity_ok; exact Hl).
  assert (E3 : on_stack m ([] ++ vs)) by (split; [cbn; lia|apply firstn_all]).
  specialize (H (mkProg [] []) VNil ord m [] E1 E2 E3 eq_refl).
  specialize (H' (mkProg [] []) VNil ord m [] E1 E2 E3 eq_refl).
  destruct r as [[v t1]|e| |], (apply_op W t o vs) as [[v' t1']|e'| |]; try contradiction;
    repeat match goal with K : exists m', _ |- _ => destruct K as (? & ? & ?) end; try congruence.
  destruct H2 as ((_ & S1) & _ & _ & _ & _ & T1). destruct H1 as ((_ & S2) & _ & _ & _ & _ & T2).
  rewrite H in H0. injection H0 as <-. rewrite S1 in S2. injection S2 as <-. congruence.
Qed.

(** ** Only keys() depends on the orders *)
Section worlds.
Variable W : world.
Variables p p' : nat -> nat -> list nat.
Notation W1 := (reordered W p).
Notation W2 := (reordered W p').

Lemma eqVal_worlds : forall a b, eqVal W1 a b = eqVal W2 a b.
Proof.
  intro a. induction a as [|x0|x0|x0|x0|s0|s0|l IH|m IH|s0|s0|s0|k0] using val_tree_ind; intro b;
    cbn [eqVal]; try reflexivity.
  - destruct (negb _); [reflexivity|]. destruct b; try reflexivity. f_equal.
    rename l0 into lb. clear - IH. revert lb. induction IH as [|x l Hx Hl IHl]; intros lb; [reflexivity|].
    destruct lb as [|y lb]; [reflexivity|]. rewrite Hx, IHl. reflexivity.
  - destruct (negb _); [reflexivity|]. destruct b; try reflexivity. f_equal.
    clear - IH. rename m0 into mb. induction IH as [|[k v] m Hx Hl IHl]; [reflexivity|].
    cbn [snd] in Hx. rewrite Hx, IHl. reflexivity.
Qed.

Lemma search_worlds : forall l v f, searchJSON W1 l v f = searchJSON W2 l v f.
Proof. induction l as [|x l IH]; intros; cbn [searchJSON]; [reflexivity|]. rewrite eqVal_worlds, IH. reflexivity. Qed.

Lemma arith_loop_worlds : forall f a i acc, arith_loop W1 f i acc a = arith_loop W2 f i acc a.
Proof. induction a as [|x l IH]; intros; cbn [arith_loop]; [reflexivity|]. destruct (negb _); [reflexivity|]. apply IH. Qed.

Lemma avg_loop_worlds : forall a acc, avg_loop W1 acc a = avg_loop W2 acc a.
Proof. induction a as [|x l IH]; intros; cbn [avg_loop]; [reflexivity|]. destruct (negb _); [reflexivity|]. apply IH. Qed.

Lemma minMax_worlds : forall a f g, minMaxArray W1 a f g = minMaxArray W2 a f g.
Proof.
  intros. unfold minMaxArray, arithArrayOp. destruct a as [|v a]; [reflexivity|].
  destruct v; try reflexivity; apply arith_loop_worlds.
Qed.

Lemma binop_worlds : forall o a b, binop W1 o a b = binop W2 o a b.
Proof.
  intros o a b. destruct o; cbn [binop]; try reflexivity.
  - rewrite eqVal_worlds. reflexivity.
  - rewrite eqVal_worlds. reflexivity.
  - unfold op_in. destruct b; try reflexivity. rewrite search_worlds. reflexivity.
  - unfold op_in. destruct b; try reflexivity. rewrite search_worlds. reflexivity.
Qed.

Hypothesis Hp : orders_ok W1.
Hypothesis Hp' : orders_ok W2.

Lemma reorder_single : forall (q : list nat) (m : list (bytes * val)), Permutation q (seq 0 (length m)) -> (length m <= 1)%nat ->
  reorder q m = m.
Proof.
  intros q m Hq Hm. pose proof (reorder_perm _ q m Hq) as H. destruct m as [|x [|]]; simpl in Hm; try lia.
  - apply Permutation_sym, Permutation_nil in H. exact H.
  - apply Permutation_sym, Permutation_length_1_inv in H. exact H.
Qed.

Lemma call_worlds : forall t t' id args, (id = b_of "keys" -> forall m, In (VObj m) args -> (length m <= 1)%nat) ->
  value_of (call W1 t id args) = value_of (call W2 t' id args).
Proof.
  intros t t' id args Hk. unfold call. destruct (lookup id functions) as [fn|] eqn:E; [|reflexivity].
  assert (Hb : value_of (fn_body fn W1 t args) = value_of (fn_body fn W2 t' args)).
  2: { destruct (fn_na fn); [|exact Hb]. destruct (negb _); [reflexivity|exact Hb]. }
  assert (Hin : In (id, fn) functions).
  { clear - E. induction functions as [|[k f] l IH]; simpl in E; [discriminate|].
    destruct (beqb id k) eqn:Ek; [|right; apply IH; exact E].
    injection E as ->. left. f_equal. symmetry. apply beqb_eq. exact Ek. }
  assert (Harg : forall f g : val -> val, (forall x, f x = g x) ->
    value_of (with_arg args 0 (fun x => @OK rerr _ (f x, t))) = value_of (with_arg args 0 (fun x => @OK rerr _ (g x, t')))).
  { intros f g H. unfold with_arg. destruct (arg args 0); [|reflexivity]. simpl. rewrite H. reflexivity. }
  unfold functions in Hin. cbn [In] in Hin.
  repeat (destruct Hin as [Hin|Hin]; [injection Hin as E1 E2; subst fn; cbn [fn_body fn1]|]); try contradiction;
    try reflexivity; try (apply Harg; reflexivity).
  - apply Harg. intro x. destruct x; try reflexivity. unfold fn_avg. rewrite avg_loop_worlds. reflexivity.
  - unfold with_arg. destruct (arg args 0) as [a|]; [|reflexivity]. destruct (arg args 1) as [b|]; [|reflexivity].
    cbn [value_of obind]. f_equal. unfold fn_contains. destruct a; try reflexivity. f_equal.
    clear. induction l as [|x l IH]; [reflexivity|]. cbn [existsb]. rewrite eqVal_worlds, IH. reflexivity.
  - unfold with_arg. destruct (arg args 0) as [a|] eqn:Ea; [|reflexivity]. cbn [value_of obind].
    destruct a; try reflexivity. unfold fn_keys. cbn [value_of obind].
    assert (Hm : (length m <= 1)%nat).
    { apply (Hk (eq_sym E1)). unfold arg in Ea. eapply nth_error_In. exact Ea. }
    rewrite (reorder_single (w_perm W1 t (length m)) m (Hp t (length m)) Hm).
    rewrite (reorder_single (w_perm W2 t' (length m)) m (Hp' t' (length m)) Hm). reflexivity.
  - cbn [value_of obind]. f_equal. unfold fn_minmax. destruct args as [|a [|b args]]; try reflexivity; [|apply minMax_worlds].
    destruct a; try reflexivity. apply minMax_worlds.
  - cbn [value_of obind]. f_equal. unfold fn_minmax. destruct args as [|a [|b args]]; try reflexivity; [|apply minMax_worlds].
    destruct a; try reflexivity. apply minMax_worlds.
  - apply Harg. intro x. destruct x; try reflexivity. unfold fn_prod, arithArrayOp. destruct l; [reflexivity|]. apply arith_loop_worlds.
  - apply Harg. intro x. destruct x; try reflexivity. unfold fn_sum, arithArrayOp. destruct l; [reflexivity|]. apply arith_loop_worlds.
Qed.

Lemma apply_worlds : forall t t' o vs,
  (forall args, o = OpCall -> vs = VName (b_of "keys") :: args -> forall m, In (VObj m) args -> (length m <= 1)%nat) ->
  value_of (apply_op W1 t o vs) = value_of (apply_op W2 t' o vs).
Proof.
  intros t t' o vs H.
  assert (H2 : value_of (match vs with
    | [v] => match unop W1 o v with Some r => OK (r, t) | None => Panics end
    | [a; b] => match binop W1 o a b with Some r => let! v := r in OK (v, t) | None => Panics end
    | _ => Panics end : M (val * nat)) =
    value_of (match vs with
    | [v] => match unop W2 o v with Some r => OK (r, t') | None => Panics end
    | [a; b] => match binop W2 o a b with Some r => let! v := r in OK (v, t') | None => Panics end
    | _ => Panics end : M (val * nat))).
  { destruct vs as [|a [|b [|c vs]]]; try reflexivity.
    - destruct o; reflexivity.
    - rewrite binop_worlds. destruct (binop W2 o a b) as [r|]; [|reflexivity]. destruct r; reflexivity. }
  destruct o; try exact H2; clear H2; cbn [apply_op].
  - destruct vs as [|x vs]; [reflexivity|]. destruct x; try reflexivity. apply call_worlds.
    intros -> m Hm. exact (H vs eq_refl eq_refl m Hm).
  - reflexivity.
Qed.
End worlds.

(** ** Sequences of results up to the first error *)
Section seqs.
Variables A B : Type.
Variable P : A -> M B -> Prop.

Lemma seq_ok : forall l bs bs', Forall (fun a => forall r r', P a r -> P a r' -> r = r') l ->
  Forall2 (fun a b => P a (OK b)) l bs -> Forall2 (fun a b => P a (OK b)) l bs' -> bs = bs'.
Proof.
  intros l bs bs' F H. revert bs'. induction H as [|a b l bs Hab Hl IH]; intros bs' H'; inversion H' as [|? b' ? bs2 Hab' Hl']; subst; [reflexivity|].
  apply Forall_cons_iff in F as [Fa Fl]. f_equal; [|apply IH; auto].
  specialize (Fa _ _ Hab Hab'). congruence.
Qed.

Lemma seq_no_error : forall pre a post bs err, Forall (fun a => forall r r', P a r -> P a r' -> r = r') (pre ++ a :: post) ->
  Forall2 (fun a b => P a (OK b)) (pre ++ a :: post) bs -> P a (Fail err) -> False.
Proof.
  intros pre a post bs err F H He. apply Forall2_app_inv_l in H as (b1 & b2 & _ & H2 & _).
  inversion H2 as [|? b ? b3 H3 H4]; subst. apply Forall_app in F as [_ F]. apply Forall_inv in F.
  specialize (F _ _ H3 He). discriminate.
Qed.

Lemma seq_error : forall pre a post bs err pre' a' post' bs' err',
  pre ++ a :: post = pre' ++ a' :: post' ->
  Forall (fun a => forall r r', P a r -> P a r' -> r = r') (pre ++ a :: post) ->
  Forall2 (fun a b => P a (OK b)) pre bs -> P a (Fail err) ->
  Forall2 (fun a b => P a (OK b)) pre' bs' -> P a' (Fail err') -> err = err'.
Proof.
  induction pre as [|x pre IH]; intros a post bs err pre' a' post' bs' err' E F H He H' He'; destruct pre' as [|x' pre'];
    cbn [app] in E; injection E as E1 E2; cbn [app] in F; apply Forall_cons_iff in F as [Fa Fl].
  - subst a'. specialize (Fa _ _ He He'). congruence.
  - subst x'. inversion H' as [|? b ? b3 H3 H4]; subst. specialize (Fa _ _ He H3). discriminate.
  - subst x. inversion H as [|? b ? b3 H3 H4]; subst. specialize (Fa _ _ H3 He'). discriminate.
  - inversion H; subst. inversion H'; subst. eapply IH; eauto.
Qed.
End seqs.

(** ** Expressions have at most one meaning *)
Lemma reads_none : forall W, False -> forall s f, o_parse_float (w_text W) s = Some f -> double f.
Proof. contradiction. Qed.

Section meanings.
Variable W : world.
Variable K : Prop.
Definition few (m : list (bytes * val)) : Prop := K -> (length m <= 1)%nat.
Notation tame := (sane False few).
Definition keyless (e : expr) : Prop := forall args, part_of (EInner OpCall (EName (b_of "keys") :: args)) e -> K.

Lemma keyless_kid : forall o kids e, keyless (EInner o kids) -> In e kids -> keyless e.
Proof. intros o kids e H Hin args Hp. apply (H args). eapply PoKid; eauto. Qed.

Lemma yields_inv : forall o vs r, inner_ok o (length vs) -> yields W o vs r ->
  exists perm t, orders_ok (reordered W perm) /\ r = value_of (apply_op (reordered W perm) t o vs).
Proof.
  intros o vs r Ho (Hn & perm & t & r' & Hp & Hop & ->). exists perm, t. split; [exact Hp|].
  rewrite (operates_inv _ _ _ _ _ Ho Hn Hop). reflexivity.
Qed.

Lemma yields_tame : forall o vs v, inner_ok o (length vs) -> Forall tame vs -> yields W o vs (OK v) -> tame v.
Proof.
  intros o vs v Ho Hv H. apply yields_inv in H as (perm & t & _ & E); [|exact Ho].
  destruct (apply_op (reordered W perm) t o vs) as [[v' t']| | |] eqn:Ea; cbn [value_of obind] in E; try discriminate.
  injection E as ->. eapply (apply_sane False few (reordered W perm)); eauto. apply reads_none.
Qed.

Lemma yields_fun : forall o vs r r', inner_ok o (length vs) -> Forall tame vs ->
  (forall args, o = OpCall -> vs = VName (b_of "keys") :: args -> K) ->
  yields W o vs r -> yields W o vs r' -> r = r'.
Proof.
  intros o vs r r' Ho Hv Hk H H'. apply yields_inv in H as (p & t & Hp & ->); [|exact Ho].
  apply yields_inv in H' as (p' & t' & Hp' & ->); [|exact Ho]. apply apply_worlds; auto.
  intros args -> -> m Hm. pose proof (Hk args eq_refl eq_refl) as HK.
  apply Forall_cons_iff in Hv as [_ Hv]. rewrite Forall_forall in Hv. apply Hv in Hm. apply sane_self in Hm. exact (Hm HK).
Qed.

Variable root : val.
Hypothesis Hroot : tame root.

Lemma leaf_tame : forall dot e v, tame dot -> wf_expr e -> leaf_means root dot e v -> tame v.
Proof.
  intros dot e v Hd Hw H. destruct H; auto; inversion Hw; subst; apply sane_atom; try reflexivity; try exact I; simpl.
  - unfold in_int64 in *. lia.
  - contradiction.
Qed.

Lemma means_tame : forall e, wf_expr e -> forall dot v, tame dot -> means W root dot e (OK v) -> tame v.
Proof.
  induction e using expr_tree_ind; intros Hw dot v Hd Hm; inversion Hm; subst;
    try (eapply leaf_tame; eassumption); try (match goal with Q : leaf_means _ _ (EInner _ _) _ |- _ => inversion Q end).
  pose proof (wf_inner _ _ Hw) as (Hk & _ & Ho). eapply yields_tame; [| |eassumption].
  - apply F2_length in H2. rewrite <- H2. exact Ho.
  - rename H2 into F. clear - F H Hk Hd. revert H Hk.
    induction F; intros; [constructor|]. apply Forall_cons_iff in H0 as [? ?]. apply Forall_cons_iff in Hk as [? ?].
    constructor; eauto.
Qed.

Lemma leaf_fun : forall dot e v v', leaf_means root dot e v -> leaf_means root dot e v' -> v = v'.
Proof. intros dot e v v' H H'. destruct H; inversion H'; reflexivity. Qed.

Lemma means_fun : forall e, wf_expr e -> keyless e -> forall dot r r', tame dot ->
  means W root dot e r -> means W root dot e r' -> r = r'.
Proof.
  induction e using expr_tree_ind; intros Hw Hkl dot r r' Hd Hm Hm';
    try (inversion Hm; inversion Hm'; subst; f_equal; eapply leaf_fun; eassumption).
  pose proof (wf_inner _ _ Hw) as (Hk & _ & Ho).
  assert (HF : Forall (fun a => forall r r', means W root dot a r -> means W root dot a r' -> r = r') kids).
  { rewrite Forall_forall in *. intros a Ha q q' Hq Hq'. eapply (H a Ha); eauto. eapply keyless_kid; eauto. }
  inversion Hm as [? ? Hl|? ? vs ? F Y|? pre e post vs err F E]; subst; [inversion Hl| |];
  inversion Hm' as [? ? Hl'|? ? vs' ? F' Y'|? pre' e' post' vs' err' F' E' EK]; subst; try (inversion Hl'; fail).
  - pose proof (seq_ok _ _ (means W root dot) kids vs vs' HF F F') as <-. eapply yields_fun; try eassumption.
    + rewrite <- (F2_length _ _ _ _ _ F). exact Ho.
    + clear - F Hk Hd Hroot. revert Hk. induction F; intros; constructor; apply Forall_cons_iff in Hk as [? ?]; auto.
      eapply means_tame; eauto.
    + intros args -> ->. inversion F as [|k ? ks ? Hf Hs]; subst. inversion Hw as [| | | | | | | | |? ? Hoo| | | |f l Hl]; subst;
        [destruct Hoo; discriminate|discriminate|].
      inversion Hf as [? ? Hlf| |]; subst. inversion Hlf; subst. eapply Hkl. constructor.
  - exfalso. eapply (seq_no_error _ _ (means W root dot)); eauto.
  - exfalso. eapply (seq_no_error _ _ (means W root dot)); eauto.
  - f_equal. exact (seq_error _ _ (means W root dot) _ _ _ _ _ _ _ _ _ _ (eq_sym H0) HF F E F' E').
Qed.

(** ** and so have the arguments of steps *)
Lemma truncated_fun : forall f z z', truncated W f z -> truncated W f z' -> z = z'.
Proof.
  intros f z z' H H'. destruct H as [q z E1 R1 L1 N1|z H1 R1], H' as [q' z' E2 R2 L2 N2|z' H2 R2].
  - rewrite E1 in E2. injection E2 as <-. destruct q as [a d]. apply abs_le_frac in L1, L2. apply near_frac in N1, N2.
    symmetry. eapply trunc_unique; eauto.
  - exfalso. specialize (H2 q z E1 R1 N1). apply (Qlt_not_le _ _ H2 L1).
  - exfalso. specialize (H1 q' z' E2 R2 N2). apply (Qlt_not_le _ _ H1 L2).
  - eapply reduces_unique; eauto.
Qed.

Lemma named_fun : forall v k k', named W v k -> named W v k' -> k = k'.
Proof.
  intros v k k' H H'. destruct H; inversion H'; subst; try reflexivity.
  f_equal. eapply truncated_fun; eauto.
Qed.

Lemma acts_fun : forall back v o o', acts_as W back v o -> acts_as W back v o' -> o = o'.
Proof.
  intros back v o o' H H'. destruct H; inversion H'; subst; try reflexivity; try discriminate;
    try (match goal with Q : failure _ |- _ => destruct Q; subst; try discriminate end);
    try (match goal with Q : named _ (VErr _) _ |- _ => inversion Q end).
  f_equal. f_equal. eapply named_fun; eauto.
Qed.

Definition plain (args : list pval) : Prop := forall e, In (PExpr e) args -> wf_expr e /\ keyless e.

Lemma arg_fun : forall dot back a r r', tame dot -> plain [a] ->
  arg_means W root dot back a r -> arg_means W root dot back a r' -> r = r'.
Proof.
  intros dot back a r r' Hd Hp H H'. destruct H; inversion H'; subst; try reflexivity;
    destruct (Hp e (or_introl eq_refl)) as [Hw Hk];
    match goal with A : means _ _ _ _ ?x, B : means _ _ _ _ ?y |- _ =>
      pose proof (means_fun e Hw Hk dot x y Hd A B) as E end; try discriminate.
  - injection E as ->. f_equal. eapply acts_fun; eauto.
  - congruence.
Qed.

Lemma plain_each : forall dot back args, tame dot -> plain args ->
  Forall (fun a => forall r r', arg_means W root dot back a r -> arg_means W root dot back a r' -> r = r') args.
Proof.
  intros dot back args Hd Hp. apply Forall_forall. intros a Ha r r'. apply arg_fun; [exact Hd|].
  intros e [->|[]]. apply Hp. exact Ha.
Qed.

Lemma args_fun : forall dot back args r r', tame dot -> plain args ->
  args_mean W root dot back args r -> args_mean W root dot back args r' -> r = r'.
Proof.
  intros dot back args r r' Hd Hp H H'. pose proof (plain_each dot back args Hd Hp) as F.
  inversion H as [? os F1|pre a post os err F1 E1]; subst; inversion H' as [? os' F2|pre' a' post' os' err' F2 E2 Q]; subst.
  - rewrite (seq_ok _ _ (arg_means W root dot back) args os os'); auto.
  - exfalso. eapply (seq_no_error _ _ (arg_means W root dot back)); eauto.
  - exfalso. eapply (seq_no_error _ _ (arg_means W root dot back)); eauto.
  - f_equal. exact (seq_error _ _ (arg_means W root dot back) _ _ _ _ _ _ _ _ _ _ (eq_sym Q) F F1 E1 F2 E2).
Qed.

Lemma keeps_fun : forall e dots r r', wf_expr e -> keyless e -> Forall tame dots ->
  keeps W root e dots r -> keeps W root e dots r' -> r = r'.
Proof.
  intros e dots r r' Hw Hk Hd H. revert r'. induction H; intros r' H'; inversion H'; subst;
    try (apply Forall_cons_iff in Hd as [Hd Hds]);
    try (match goal with A : means _ _ ?d _ ?x, B : means _ _ ?d _ ?y |- _ => pose proof (means_fun e Hw Hk d x y Hd A B) as E end);
    try discriminate; try reflexivity; try (injection E as ->); try contradiction; try congruence; auto.
  f_equal; auto.
Qed.

Lemma none_some : forall A (P : A -> Prop) l, Forall (fun a => ~ P a) l -> Exists P l -> False.
Proof. intros A P l F E. apply Exists_exists in E as (a & Ha & Hp). rewrite Forall_forall in F. exact (F a Ha Hp). Qed.

Lemma sweeps_fun : forall back args dots r r', plain args -> Forall tame dots ->
  sweeps W root back args dots r -> sweeps W root back args dots r' -> r = r'.
Proof.
  intros back args dots r r' Hp Hd H. revert r'. induction H; intros r' H'; inversion H'; subst;
    try (apply Forall_cons_iff in Hd as [Hd Hds]); try reflexivity;
    match goal with A : args_mean _ _ ?d _ _ ?x, B : args_mean _ _ ?d _ _ ?y |- _ =>
      pose proof (args_fun d back args x y Hd Hp A B) as E end;
    try discriminate; try congruence; try (injection E as ->).
  - f_equal; auto.
  - exfalso. match goal with A : Forall _ ?l, B : Exists _ ?l |- _ => exact (none_some _ _ _ A B) end.
  - exfalso. match goal with A : Forall _ ?l, B : Exists _ ?l |- _ => exact (none_some _ _ _ A B) end.
Qed.
End meanings.
