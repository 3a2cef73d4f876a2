(** Where run-time errors come from. *)
From Coq Require Import QArith Permutation.
From Verif Require Import SpecSyntax Machine Eval Coder Api ProgramProofs CoderProofs MachineProofs SpecDoc DocProofs SpecSelect
  SpecRun RunProofs SelectProofs WalkProofs ExprProofs StepProofs SpecCode CodeProofs EvalProofs TextProofs
  StepExact SelectFinal SpecOp SpecExpr SpecText SpecSem SemProofs SemFinal UniqueProofs UniquePath OrderProofs SemExact Examples.
Local Open Scope Z_scope.

Lemma functions_table : forall id fn, In (id, fn) functions ->
  exists f a, In (f, a) function_table /\ id = b_of f /\
    match a with Some n => fn_na fn = Some (Z.of_nat n) | None => fn_na fn = None end.
Proof.
  intros id fn H. unfold functions in H. cbn [In] in H.
  repeat (destruct H as [H|H]; [match type of H with (b_of ?n, _) = _ => pose proof (f_equal fst H) as E1; pose proof (f_equal snd H) as E2;
    cbn [fst snd] in E1, E2; rewrite <- E1, <- E2;
    first [exists n, (Some 1%nat); split; [|split; reflexivity]; unfold function_table; repeat (first [left; reflexivity|right])
          |exists n, (Some 2%nat); split; [|split; reflexivity]; unfold function_table; repeat (first [left; reflexivity|right])
          |exists n, (@None nat); split; [|split; reflexivity]; unfold function_table; repeat (first [left; reflexivity|right])] end|]). contradiction.
Qed.
Lemma lookup_none : forall A k (m : list (bytes * A)) v, lookup k m = None -> ~ In (k, v) m.
Proof.
  intros A k m v. induction m as [|[k' v'] m IH]; cbn [lookup]; [intros _ []|].
  destruct (beqb k k') eqn:E; [discriminate|]. intros H [Hi|Hi]; [|exact (IH H Hi)].
  injection Hi as -> ->. pose proof (proj2 (beqb_eq k k) eq_refl). congruence.
Qed.
Lemma table_functions : forall f a, In (f, a) function_table -> lookup (b_of f) functions <> None.
Proof.
  intros f a H. enough (G : exists fn, In (b_of f, fn) functions).
  { destruct G as [fn G]. intro E. exact (lookup_none _ _ _ fn E G). }
  cbn [In function_table] in H. unfold functions.
  repeat (destruct H as [H|H]; [injection H as <- <-; eexists; repeat (first [left; reflexivity|right])|]). contradiction.
Qed.
Lemma bodies_ok : forall id fn, In (id, fn) functions -> forall W t args err, fn_body fn W t args <> Fail err.
Proof.
  intros id fn H. unfold functions in H. cbn [In] in H.
  repeat (destruct H as [H|H]; [pose proof (f_equal snd H) as E2; cbn [snd] in E2; rewrite <- E2; intros W t args err;
    cbn [fn_body fn1]; unfold with_arg; repeat match goal with |- context [arg ?l ?i] => destruct (arg l i) end; discriminate|]).
  contradiction.
Qed.

Lemma lookup_bytes : forall A k (m : list (bytes * A)) v, lookup k m = Some v -> In (k, v) m.
Proof.
  intros A k m v. induction m as [|[k' v'] m IH]; cbn [lookup]; [discriminate|].
  destruct (beqb k k') eqn:E; [|intro H; right; apply IH; exact H].
  intro H. injection H as ->. left. f_equal. symmetry. apply beqb_eq. exact E.
Qed.

Lemma call_error : forall W t id args err, call W t id args = Fail err ->
  (err = RNoFunction id /\ forall n a, In (n, a) function_table -> id <> b_of n) \/
  exists f n, id = b_of f /\ In (f, Some n) function_table /\ length args <> n /\
    err = RArgCount id (Z.of_nat n) (Z.of_nat (length args)).
Proof.
  intros W t id args err H. unfold call in H. destruct (lookup id functions) as [fn|] eqn:E.
  - right. apply lookup_bytes in E. pose proof (functions_table id fn E) as (f & a & Hf & -> & Ha).
    pose proof (bodies_ok _ _ E W t args err) as Hb.
    destruct a as [n|]; rewrite Ha in H; [|contradiction].
    destruct (Z.of_nat (length args) =? Z.of_nat n) eqn:En; cbn [negb] in H; [contradiction|].
    exists f, n. split; [reflexivity|]. split; [exact Hf|]. injection H as <-. split; [lia|reflexivity].
  - left. injection H as <-. split; [reflexivity|]. intros n a Hin ->. apply table_functions in Hin. contradiction.
Qed.

Section blame.
Variable W : world.
Variable root : val.

Lemma not_nothing : forall v, isNothing v = false -> ~ failure v.
Proof. intros v H [k ->]. discriminate. Qed.

Lemma inner_blame : forall dot o kids vs err, wf_expr (EInner o kids) ->
  Forall2 (fun e v => means W root dot e (OK v)) kids vs -> yields W o vs (Fail err) ->
  blames W root dot (EInner o kids) err.
Proof.
  intros dot o kids vs err Hw F Y. pose proof (wf_inner _ _ Hw) as (_ & _ & Ho).
  rewrite (F2_length _ _ _ _ _ F) in Ho. apply yields_inv in Y as (perm & t & _ & E); [|exact Ho].
  destruct (apply_op (reordered W perm) t o vs) as [[]|err'| |] eqn:Ea; try discriminate E. injection E as <-.
  inversion Hw as [| | | | | | | | |? a Hoo Hwa|? a b Hb Hwa Hwb|a s Hwa|l Hl|f l Hl]; subst.
  - inversion F as [|? v ? vs' F1 F2]; subst. inversion F2; subst. destruct Hoo as [->| ->]; discriminate Ea.
  - inversion F as [|? v ? vs' F1 F2]; subst. inversion F2 as [|? v2 ? vs2 F3 F4]; subst. inversion F4; subst.
    destruct o; try discriminate Hb; cbn [apply_op binop] in Ea; try discriminate Ea.
    + unfold op_index in Ea. destruct (isNothing v || isNothing v2); [discriminate|].
      destruct v; try discriminate. destruct (_ || _); [discriminate|]. destruct (index_Z _ _); discriminate.
    + unfold op_in in Ea. destruct (isNothing v || isNothing v2) eqn:En; [discriminate|]. apply orb_false_elim in En as [E1 E2].
      destruct v2; cbn [obind] in Ea; try discriminate Ea; injection Ea as <-;
        apply BlIn; try assumption; try discriminate; apply not_nothing; exact E2.
    + unfold op_in in Ea. destruct (isNothing v || isNothing v2) eqn:En; [discriminate|]. apply orb_false_elim in En as [E1 E2].
      destruct v2; cbn [obind] in Ea; try discriminate Ea; injection Ea as <-;
        apply BlNin; try assumption; try discriminate; apply not_nothing; exact E2.
    + unfold op_match in Ea. destruct (isNothing v || isNothing v2) eqn:En; [discriminate|]. apply orb_false_elim in En as [E1 E2].
      assert (HL : (match v with VStr s => False | _ => True end) -> err = RMatchLeft v -> blames W root dot (EInner OpMatch [a; b]) err).
      { intros Hv ->. apply BlLeft; [exact F1|apply not_nothing; exact E1|]. intros s ->. exact Hv. }
      destruct v2; cbn [obind] in Ea; try discriminate E2;
        try (injection Ea as <-; apply BlRight; try assumption; try discriminate; apply not_nothing; exact E2).
      * destruct (re_ok (reordered W perm) s) eqn:Er; cbn [obind] in Ea.
        -- destruct v; try discriminate Ea; apply HL; try exact I; injection Ea as <-; reflexivity.
        -- injection Ea as <-. apply BlPattern; assumption.
      * destruct v; try discriminate Ea; apply HL; try exact I; injection Ea as <-; reflexivity.
  - inversion F as [|? v ? vs' F1 F2]; subst. inversion F2 as [|? v2 ? vs2 F3 F4]; subst. inversion F4; subst.
    cbn [apply_op binop] in Ea. unfold op_dot in Ea. destruct (isNothing v2 || isNothing v); [discriminate|].
    destruct v2; try discriminate. destruct (beqb _ _); discriminate.
  - discriminate Ea.
  - inversion F as [|? v ? vs' F1 F2]; subst. inversion F1 as [? ? Hlf| |]; subst. inversion Hlf; subst.
    cbn [apply_op] in Ea. pose proof (F2_length _ _ _ _ _ F2) as Hlen.
    apply call_error in Ea as [[-> Hn]|(g & n & -> & Hin & Hne & ->)].
    + apply BlUnknown. exact Hn.
    + rewrite <- Hlen in *. apply BlCount; assumption.
Qed.

Lemma means_blame : forall e, wf_expr e -> forall dot err, means W root dot e (Fail err) ->
  exists x, part_of x e /\ blames W root dot x err.
Proof.
  induction e using expr_tree_ind; intros Hw dot err Hm; inversion Hm; subst.
  - eexists. split; [apply PoSelf|]. eapply inner_blame; eauto.
  - pose proof (wf_inner _ _ Hw) as (Hk & _ & _). apply Forall_app in H as [_ He]. apply Forall_app in Hk as [_ Hk].
    apply Forall_inv in He. apply Forall_inv in Hk.
    match goal with A : means _ _ _ e (Fail err) |- _ => destruct (He Hk dot err A) as (x & Hx & Hb) end.
    exists x. split; [|exact Hb]. eapply PoKid; [|exact Hx]. apply in_or_app. right. left. reflexivity.
Qed.

Definition near (d : val) : Prop := d = VNil \/ within d root.
Lemma near_nil : near VNil.
Proof. left. reflexivity. Qed.
Lemma near_sub : forall x v, near v -> within x v -> near x.
Proof.
  intros x v [->|H] Hx; [inversion Hx; subst; left; reflexivity|]. right. eapply within_trans; eauto.
Qed.

Definition blamed (args : list pval) (err : rerr) : Prop :=
  exists e x dot, In (PExpr e) args /\ part_of x e /\ near dot /\ blames W root dot x err.

Lemma args_blame : forall s dot back err, wf_step s -> near dot -> args_mean W root dot back (st_args s) (Fail err) ->
  blamed (st_args s) err.
Proof.
  intros s dot back err Hw Hd H. inversion H as [|pre a post os err' F E1 E2]; subst.
  inversion E1 as [| | | | |e ? M]; subst.
  assert (He : In (PExpr e) (st_args s)) by (rewrite <- E2; apply in_or_app; right; left; reflexivity).
  destruct (means_blame e (step_exprs s e Hw He) dot err M) as (x & Hx & Hb). exists e, x, dot. rewrite E2. auto.
Qed.

Lemma keeps_blame : forall s e, wf_step s -> In (PExpr e) (st_args s) -> forall dots r, keeps W root e dots r -> Forall near dots ->
  forall err, r = Fail err -> blamed (st_args s) err.
Proof.
  intros s e Hw He dots r H. induction H; intros Hd err' E; try discriminate; apply Forall_cons_iff in Hd as [Hd Hds]; auto.
  - destruct r; try discriminate. cbn [obind] in E. injection E as ->. eauto.
  - injection E as ->. destruct (means_blame e (step_exprs s e Hw He) d err' H) as (x & Hx & Hb). exists e, x, d. auto.
Qed.

Lemma sweeps_blame : forall s, wf_step s -> forall back dots r, sweeps W root back (st_args s) dots r -> Forall near dots ->
  forall err, r = Fail err -> blamed (st_args s) err.
Proof.
  intros s Hw back dots r H. induction H; intros Hd err' E; try discriminate; apply Forall_cons_iff in Hd as [Hd Hds].
  - destruct r; try discriminate. cbn [obind] in E. injection E as ->. eauto.
  - injection E as ->. eapply args_blame; eauto.
Qed.

Lemma step_blame : forall s cands err, wf_step s -> Forall near cands -> step_means W root s cands (Fail err) ->
  blamed (st_args s) err.
Proof.
  intros s cands err Hw Hc H. inversion H; subst.
  - eapply args_blame; eauto using near_nil.
  - eapply keeps_blame; [exact Hw| |eassumption| |reflexivity]; [match goal with A : st_args s = _ |- _ => rewrite A; left; reflexivity end|].
    eapply rounds_closed; [exact near_nil|exact near_sub|exact children_sub|exact Hc|eassumption].
  - eapply keeps_blame; [exact Hw| |eassumption| |reflexivity]; [match goal with A : st_args s = _ |- _ => rewrite A; left; reflexivity end|].
    eapply rounds_closed; [exact near_nil|exact near_sub|exact walks_within|exact Hc|eassumption].
  - eapply sweeps_blame; [exact Hw|eassumption| |reflexivity].
    eapply rounds_closed; [exact near_nil|exact near_sub|exact walks_within|exact Hc|eassumption].
Qed.

Lemma path_blame : forall ss cands r err, wf_path ss -> Forall near cands -> path_means W root ss cands r -> r = Fail err ->
  exists x dot, occurs ss x /\ near dot /\ blames W root dot x err.
Proof.
  intros ss cands r err Hw Hc H. revert Hw Hc. induction H; intros Hw Hc E; try discriminate; apply Forall_cons_iff in Hw as [Hs Hw].
  - destruct IHpath_means as (x & dot & (s' & e & Hs' & He & Hx) & Hn & Hb); auto.
    + eapply step_closed; [exact near_nil|exact near_sub|exact Hc|eassumption].
    + exists x, dot. split; [|auto]. exists s', e. split; [right; exact Hs'|auto].
  - injection E as ->. destruct (step_blame s cands err Hs Hc H) as (e & x & dot & He & Hx & Hn & Hb).
    exists x, dot. split; [|auto]. exists s, e. split; [left; reflexivity|auto].
Qed.
End blame.

Lemma text_blame : forall TX s ss jp W t root err, accepted TX s ss jp -> fits jp -> orders_ok W -> doc root ->
  JP_Eval W t jp root (Fail err) ->
  exists x dot, occurs ss x /\ (dot = VNil \/ within dot root) /\ blames W root dot x err.
Proof.
  intros TX s ss jp W t root err Ha Hf HW Hd H. apply (text_means _ _ _ _ _ _ _ _ Ha Hf HW Hd) in H.
  eapply (path_blame W root); [eapply text_wf; eauto| |exact H|reflexivity].
  constructor; [|constructor]. right. constructor.
Qed.

Lemma text_no_error : forall TX s ss jp W t root err, accepted TX s ss jp -> fits jp -> orders_ok W -> doc root ->
  (forall o kids, occurs ss (EInner o kids) -> may_fail o = false) -> ~ JP_Eval W t jp root (Fail err).
Proof.
  intros TX s ss jp W t root err Ha Hf HW Hd Hno H.
  destruct (text_blame _ _ _ _ _ _ _ _ Ha Hf HW Hd H) as (x & dot & Hx & _ & Hb).
  destruct Hb; apply Hno in Hx; discriminate.
Qed.
