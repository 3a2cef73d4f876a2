(** Expressions that can stand for each other. *)
From Verif Require Import Syntax SpecSyntax Machine Coder Eval Api ProgramProofs CoderProofs MachineProofs SpecDoc DocProofs SpecSelect SpecRun SpecOp SpecExpr OpProofs ExprProofs
  LogicProofs EvalProofs TextProofs SpecText SpecSem SemProofs UniqueProofs SpecLaws LawProofs SpecContext.
Import ListNotations.
Local Open Scope Z_scope.

Section equiv.
Variable W : world.
Hypothesis HW : orders_ok W.

Lemma yields_bin : forall o a b v r, is_binary o = true -> binop W o a b = Some (OK v) -> (yields W o [a; b] r <-> r = OK v).
Proof.
  intros o a b v r Ho E. split.
  - intro H. apply yields_inv in H as (perm & t & _ & ->); [|destruct o; try discriminate Ho; split; reflexivity].
    assert (K : forall args, o = OpCall -> [a; b] <> VName (b_of "keys") :: args) by (intros args ->; discriminate Ho).
    destruct (apply_fixed W o [a; b] K) as [r E']. rewrite E'. specialize (E' (w_perm W) t). rewrite reordered_self in E'.
    assert (A : apply_op W t o [a; b] = OK (v, t)) by (destruct o; try discriminate Ho; cbn [apply_op]; rewrite E; reflexivity).
    rewrite A in E'. destruct r; cbn in *; congruence.
  - intros ->. split; [cbn; lia|]. exists (w_perm W), 0%nat, (OK (v, 0%nat)). rewrite reordered_self.
    split; [exact HW|]. split; [|reflexivity]. apply computes2; [left; exact Ho|exact E].
Qed.

Lemma yields_not : forall a r, yields W OpNot [a] r <-> r = OK (VBool (negb (cvb W a))).
Proof.
  intros a r. split.
  - intro H. apply yields_inv in H as (perm & t & _ & ->); reflexivity.
  - intros ->. split; [cbn; lia|]. exists (w_perm W), 0%nat, (OK (VBool (negb (cvb W a)), 0%nat)). rewrite reordered_self.
    split; [exact HW|]. split; [|reflexivity]. apply computes1; [right; reflexivity|reflexivity].
Qed.

Variables root dot : val.
Notation mns := (means W root dot).

Lemma means_two : forall o a b r, mns (EInner o [a; b]) r <->
  (exists va vb, mns a (OK va) /\ mns b (OK vb) /\ yields W o [va; vb] r) \/
  (exists err, r = Fail err /\ (mns a (Fail err) \/ exists va, mns a (OK va) /\ mns b (Fail err))).
Proof.
  intros o a b r. split.
  - intro H. inversion H as [? ? Hl|? ? vs ? F Y|? pre x post vs err F E]; subst; [inversion Hl|left|right].
    + inversion F as [|? va ? ? Ha F1]; subst. inversion F1 as [|? vb ? ? Hb F2]; subst. inversion F2; subst. eauto.
    + exists err. split; [reflexivity|]. destruct pre as [|p [|q pre]].
      * match goal with K : _ ++ _ = _ |- _ => injection K as -> -> end. left. exact E.
      * match goal with K : _ ++ _ = _ |- _ => injection K as -> -> -> end. right. inversion F; subst. eauto.
      * match goal with K : _ ++ _ = _ |- _ => injection K as -> -> K end. destruct pre; discriminate.
  - intros [(va & vb & Ha & Hb & Y)|(err & -> & [Ha|(va & Ha & Hb)])].
    + eapply MnInner; [|exact Y]. constructor; [exact Ha|constructor; [exact Hb|constructor]].
    + apply (MnError W root dot o [] a [b] [] err); [constructor|exact Ha].
    + apply (MnError W root dot o [a] b [] [va] err); [constructor; [exact Ha|constructor]|exact Hb].
Qed.

Lemma means_one : forall o a r, mns (EInner o [a]) r <->
  (exists va, mns a (OK va) /\ yields W o [va] r) \/ (exists err, r = Fail err /\ mns a (Fail err)).
Proof.
  intros o a r. split.
  - intro H. inversion H as [? ? Hl|? ? vs ? F Y|? pre x post vs err F E]; subst; [inversion Hl|left|right].
    + inversion F as [|? va ? ? Ha F1]; subst. inversion F1; subst. eauto.
    + exists err. split; [reflexivity|]. destruct pre as [|p pre].
      * match goal with K : _ ++ _ = _ |- _ => injection K as -> -> end. exact E.
      * match goal with K : _ ++ _ = _ |- _ => injection K as -> K end. destruct pre; discriminate.
  - intros [(va & Ha & Y)|(err & -> & Ha)].
    + eapply MnInner; [|exact Y]. constructor; [exact Ha|constructor].
    + apply (MnError W root dot o [] a [] [] err); [constructor|exact Ha].
Qed.

Lemma means_bin : forall o f, is_binary o = true -> (forall a b, binop W o a b = Some (OK (f a b))) -> forall a b r,
  mns (EInner o [a; b]) r <->
  (exists va vb, mns a (OK va) /\ mns b (OK vb) /\ r = OK (f va vb)) \/
  (exists err, r = Fail err /\ (mns a (Fail err) \/ exists va, mns a (OK va) /\ mns b (Fail err))).
Proof.
  intros o f Ho E a b r. rewrite means_two.
  assert (K : forall va vb, yields W o [va; vb] r <-> r = OK (f va vb)) by (intros; apply yields_bin; auto).
  split; (intros [(va & vb & Ha & Hb & Y)|H]; [left; exists va, vb; repeat split; try assumption; apply K; exact Y|right; exact H]).
Qed.
Lemma means_not : forall a r, mns (EInner OpNot [a]) r <->
  (exists va, mns a (OK va) /\ r = OK (VBool (negb (cvb W va)))) \/ (exists err, r = Fail err /\ mns a (Fail err)).
Proof.
  intros a r. rewrite means_one.
  split; (intros [(va & Ha & Y)|H]; [left; exists va; split; [assumption|]; apply yields_not; exact Y|right; exact H]).
Qed.

Lemma failure_false : forall v, isNothing v = true -> cvb W v = false.
Proof. intros [] H; try discriminate H; reflexivity. Qed.
Lemma op_or_eq : forall a b, op_or W a b = if cvb W a then a else if isNothing a && isNothing b then nothing else b.
Proof. intros a b. unfold op_or. pose proof (failure_false a). destruct (isNothing a), (cvb W a); try (specialize (H eq_refl); discriminate); destruct (isNothing b); reflexivity. Qed.
Lemma op_and_eq : forall a b, op_and W a b = if cvb W a then b else a.
Proof. intros a b. unfold op_and. pose proof (failure_false a). destruct (isNothing a), (cvb W a); try (specialize (H eq_refl); discriminate); reflexivity. Qed.

(** ** Conditions *)
Notation outs := (turns_out W root dot).
Lemma outs_ok : forall e c, outs e (OK c) <-> exists v, mns e (OK v) /\ cvb W v = c.
Proof.
  intros e c. split.
  - intro H. inversion H; subst; eexists; (split; [eassumption|]); [apply not_falsy_cvb|apply falsy_cvb]; assumption.
  - intros (v & Hm & E). destruct c; [eapply ToTrue|eapply ToFalse]; try eassumption; [apply not_falsy_cvb|apply falsy_cvb]; exact E.
Qed.
Lemma outs_fail : forall e err, outs e (Fail err) <-> mns e (Fail err).
Proof. intros e err. split; intro H; [inversion H; subst; assumption|apply ToError, H]. Qed.
Lemma outs_cases : forall e r, outs e r -> (exists c, r = OK c) \/ exists err, r = Fail err.
Proof. intros e r H. inversion H; subst; eauto. Qed.

Lemma outs_not : forall a r, outs (EInner OpNot [a]) r <->
  (exists c, outs a (OK c) /\ r = OK (negb c)) \/ (exists err, r = Fail err /\ outs a (Fail err)).
Proof.
  intros a r. split.
  - intro H. destruct (outs_cases _ _ H) as [[c ->]|[err ->]].
    + apply outs_ok in H as (v & H & E). apply means_not in H as [(va & Ha & Ev)|(err & D & _)]; [|discriminate D].
      injection Ev as ->. left. exists (cvb W va). rewrite <- E. split; [apply outs_ok; eauto|destruct (cvb W va); reflexivity].
    + apply outs_fail, means_not in H as [(va & _ & D)|(err' & E & Ha)]; [discriminate D|]. injection E as <-. right. exists err. split; [reflexivity|apply outs_fail, Ha].
  - intros [(c & H & ->)|(err & -> & H)].
    + apply outs_ok in H as (v & H & E). apply outs_ok. exists (VBool (negb c)). split; [apply means_not; left; exists v; rewrite E; auto|destruct c; reflexivity].
    + apply outs_fail, means_not. right. exists err. split; [reflexivity|apply outs_fail, H].
Qed.

Definition cond_op (o : op) : bool -> bool -> bool := match o with OpAnd => andb | _ => orb end.
Lemma cond_two : forall o, o = OpAnd \/ o = OpOr -> exists f, is_binary o = true /\ (forall a b, binop W o a b = Some (OK (f a b))) /\
  forall a b, cvb W (f a b) = cond_op o (cvb W a) (cvb W b).
Proof.
  intros o [->| ->]; [exists (op_and W)|exists (op_or W)]; (split; [reflexivity|]; split; [reflexivity|]); intros a b; [rewrite op_and_eq|rewrite op_or_eq]; cbn [cond_op].
  - destruct (cvb W a) eqn:E; [reflexivity|exact E].
  - destruct (cvb W a) eqn:E; [exact E|]. destruct (isNothing a && isNothing b) eqn:E'; [|reflexivity].
    apply andb_prop in E' as [_ E']. rewrite (failure_false _ E'). reflexivity.
Qed.

Lemma outs_two : forall o, o = OpAnd \/ o = OpOr -> forall a b r, outs (EInner o [a; b]) r <->
  (exists c d, outs a (OK c) /\ outs b (OK d) /\ r = OK (cond_op o c d)) \/
  (exists err, r = Fail err /\ (outs a (Fail err) \/ exists c, outs a (OK c) /\ outs b (Fail err))).
Proof.
  intros o Ho a b r. destruct (cond_two o Ho) as (f & B & F & C). split.
  - intro H. destruct (outs_cases _ _ H) as [[c ->]|[err ->]].
    + apply outs_ok in H as (v & H & E). apply (means_bin o f B F) in H as [(va & vb & Ha & Hb & Ev)|(err & D & _)]; [|discriminate D].
      injection Ev as ->. left. exists (cvb W va), (cvb W vb). split; [apply outs_ok; eauto|]. split; [apply outs_ok; eauto|]. rewrite <- C, E. reflexivity.
    + apply outs_fail, (means_bin o f B F) in H as [(va & vb & _ & _ & D)|(err' & E & H)]; [discriminate D|]. injection E as <-. right. exists err.
      split; [reflexivity|]. destruct H as [H|(va & Ha & Hb)]; [left; apply outs_fail, H|right]. exists (cvb W va). split; [apply outs_ok; eauto|apply outs_fail, Hb].
  - intros [(c & d & Ha & Hb & ->)|(err & -> & H)].
    + apply outs_ok in Ha as (va & Ha & Ea), Hb as (vb & Hb & Eb). apply outs_ok. exists (f va vb). rewrite C, Ea, Eb. split; [|reflexivity].
      apply (means_bin o f B F). left. eauto.
    + apply outs_fail, (means_bin o f B F). right. exists err. split; [reflexivity|].
      destruct H as [H|(c & Ha & Hb)]; [left; apply outs_fail, H|right]. apply outs_ok in Ha as (va & Ha & _). exists va. split; [exact Ha|apply outs_fail, Hb].
Qed.

Lemma outs_recast : forall e e', (forall r, outs e r -> outs e' r) -> forall x x', recast e e' x x' -> forall r, outs x r -> outs x' r.
Proof.
  intros e e' Q x x' H. induction H as [|x|x x' H IH|o a b a' b' Ho H1 IH1 H2 IH2]; intros r Hx; [apply Q, Hx|exact Hx|..].
  - apply outs_not in Hx. apply outs_not. destruct Hx as [(c & Hc & ->)|(err & -> & Hc)]; [left; exists c; auto|right; exists err; auto].
  - apply (outs_two o Ho) in Hx. apply (outs_two o Ho). destruct Hx as [(c & d & Hc & Hd & ->)|(err & -> & [Hc|(c & Hc & Hd)])]; [left; exists c, d; auto|right; exists err; auto|right; exists err; split; [reflexivity|right; exists c; auto]].
Qed.
End equiv.
