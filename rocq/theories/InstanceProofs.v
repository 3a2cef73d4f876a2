(** Expressions that can stand for each other, and equal conditions. *)
From Verif Require Import Syntax SpecSyntax Machine Coder Eval Api ProgramProofs CoderProofs MachineProofs SpecDoc DocProofs SpecSelect SpecRun SpecOp SpecExpr OpProofs ExprProofs
  LogicProofs SpecEq EqProofs AlgebraProofs EvalProofs TextProofs SpecText SpecCode SpecSem SemProofs SemFinal UniqueProofs EveryOrder ErrorProofs SpecLaws LawProofs SpecContext ContextProofs EquivProofs.
Import ListNotations.
Local Open Scope Z_scope.

Section laws.
Variable W : world.
Variable root : val.
Hypothesis HW : orders_ok W.

(** ** Equivalent expressions *)
Ltac bin o f := apply (means_bin W HW root _ o f eq_refl (fun _ _ => eq_refl)).
Ltac not_ := apply (means_not W HW).

Lemma means_eq : forall dot a b r, means W root dot (EInner OpEQ [a; b]) r <->
  (exists va vb, means W root dot a (OK va) /\ means W root dot b (OK vb) /\ r = OK (VBool (eqVal W va vb))) \/
  (exists err, r = Fail err /\ (means W root dot a (Fail err) \/ exists va, means W root dot a (OK va) /\ means W root dot b (Fail err))).
Proof. intros. exact (means_bin W HW root dot OpEQ (fun a b => VBool (eqVal W a b)) eq_refl (fun _ _ => eq_refl) a b r). Qed.
Lemma means_ne : forall dot a b r, means W root dot (EInner OpNE [a; b]) r <->
  (exists va vb, means W root dot a (OK va) /\ means W root dot b (OK vb) /\ r = OK (VBool (negb (eqVal W va vb)))) \/
  (exists err, r = Fail err /\ (means W root dot a (Fail err) \/ exists va, means W root dot a (OK va) /\ means W root dot b (Fail err))).
Proof. intros. exact (means_bin W HW root dot OpNE (fun a b => VBool (negb (eqVal W a b))) eq_refl (fun _ _ => eq_refl) a b r). Qed.
Lemma means_and : forall dot a b r, means W root dot (EInner OpAnd [a; b]) r <->
  (exists va vb, means W root dot a (OK va) /\ means W root dot b (OK vb) /\ r = OK (op_and W va vb)) \/
  (exists err, r = Fail err /\ (means W root dot a (Fail err) \/ exists va, means W root dot a (OK va) /\ means W root dot b (Fail err))).
Proof. intros. exact (means_bin W HW root dot OpAnd (op_and W) eq_refl (fun _ _ => eq_refl) a b r). Qed.
Lemma means_or : forall dot a b r, means W root dot (EInner OpOr [a; b]) r <->
  (exists va vb, means W root dot a (OK va) /\ means W root dot b (OK vb) /\ r = OK (op_or W va vb)) \/
  (exists err, r = Fail err /\ (means W root dot a (Fail err) \/ exists va, means W root dot a (OK va) /\ means W root dot b (Fail err))).
Proof. intros. exact (means_bin W HW root dot OpOr (op_or W) eq_refl (fun _ _ => eq_refl) a b r). Qed.

Theorem ne_not_eq : forall a b, equivalent W root (EInner OpNE [a; b]) (EInner OpNot [EInner OpEQ [a; b]]).
Proof.
  intros a b dot r _. rewrite means_ne, (means_not W HW). split.
  - intros [(va & vb & Ha & Hb & ->)|(err & -> & H)].
    + left. exists (VBool (eqVal W va vb)). split; [apply means_eq; left; eauto|reflexivity].
    + right. exists err. split; [reflexivity|]. apply means_eq. right. eauto.
  - intros [(v & H & ->)|(err & -> & H)]; apply means_eq in H as [(va & vb & Ha & Hb & E)|(err' & E & H)]; try discriminate E; injection E as ->.
    + left. exists va, vb. auto.
    + right. eauto.
Qed.

Theorem not_and : forall a b, equivalent W root (EInner OpNot [EInner OpAnd [a; b]]) (EInner OpOr [EInner OpNot [a]; EInner OpNot [b]]).
Proof.
  intros a b dot r _. rewrite means_or, (means_not W HW). split.
  - intros [(v & H & ->)|(err & -> & H)]; apply means_and in H as [(va & vb & Ha & Hb & E)|(err' & E & H)]; try discriminate E; injection E as ->.
    + left. exists (VBool (negb (cvb W va))), (VBool (negb (cvb W vb))). split; [apply (means_not W HW); left; eauto|]. split; [apply (means_not W HW); left; eauto|].
      rewrite op_and_eq, op_or_eq. cbn [cvb isNothing andb]. destruct (cvb W va) eqn:E; cbn [negb]; [reflexivity|rewrite E; reflexivity].
    + right. exists err'. split; [reflexivity|]. destruct H as [H|(va & Ha & Hb)]; [left; apply (means_not W HW); right; eauto|right].
      exists (VBool (negb (cvb W va))). split; apply (means_not W HW); [left|right]; eauto.
  - intros [(va & vb & Ha & Hb & ->)|(err & -> & [Ha|(va & Ha & Hb)])].
    + apply (means_not W HW) in Ha as [(wa & Ha & E)|(? & E & _)]; [|discriminate E]. injection E as ->.
      apply (means_not W HW) in Hb as [(wb & Hb & E)|(? & E & _)]; [|discriminate E]. injection E as ->.
      left. exists (op_and W wa wb). split; [apply means_and; left; eauto|].
      rewrite op_and_eq, op_or_eq. cbn [cvb isNothing andb]. destruct (cvb W wa) eqn:E; cbn [negb]; [reflexivity|rewrite E; reflexivity].
    + apply (means_not W HW) in Ha as [(wa & Ha & E)|(? & E & Ha)]; [discriminate E|]. injection E as <-. right. exists err. split; [reflexivity|]. apply means_and. right. eauto.
    + apply (means_not W HW) in Hb as [(wb & Hb & E)|(? & E & Hb)]; [discriminate E|]. injection E as <-.
      apply (means_not W HW) in Ha as [(wa & Ha & E)|(? & E & _)]; [|discriminate E]. right. exists err. split; [reflexivity|]. apply means_and. right. eauto 6.
Qed.

Theorem not_or : forall a b, equivalent W root (EInner OpNot [EInner OpOr [a; b]]) (EInner OpAnd [EInner OpNot [a]; EInner OpNot [b]]).
Proof.
  assert (V : forall va vb, VBool (negb (cvb W (op_or W va vb))) = op_and W (VBool (negb (cvb W va))) (VBool (negb (cvb W vb)))).
  { intros va vb. rewrite op_and_eq, op_or_eq. cbn [cvb]. destruct (cvb W va) eqn:E; cbn [negb]; [rewrite E; reflexivity|].
    destruct (isNothing va && isNothing vb) eqn:E'; [|reflexivity]. apply andb_prop in E' as [_ E']. rewrite (failure_false W _ E'). reflexivity. }
  intros a b dot r _. rewrite means_and, (means_not W HW). split.
  - intros [(v & H & ->)|(err & -> & H)]; apply means_or in H as [(va & vb & Ha & Hb & E)|(err' & E & H)]; try discriminate E; injection E as ->.
    + left. exists (VBool (negb (cvb W va))), (VBool (negb (cvb W vb))). split; [apply (means_not W HW); left; eauto|]. split; [apply (means_not W HW); left; eauto|].
      rewrite V. reflexivity.
    + right. exists err'. split; [reflexivity|]. destruct H as [H|(va & Ha & Hb)]; [left; apply (means_not W HW); right; eauto|right].
      exists (VBool (negb (cvb W va))). split; apply (means_not W HW); [left|right]; eauto.
  - intros [(va & vb & Ha & Hb & ->)|(err & -> & [Ha|(va & Ha & Hb)])].
    + apply (means_not W HW) in Ha as [(wa & Ha & E)|(? & E & _)]; [|discriminate E]. injection E as ->.
      apply (means_not W HW) in Hb as [(wb & Hb & E)|(? & E & _)]; [|discriminate E]. injection E as ->.
      left. exists (op_or W wa wb). split; [apply means_or; left; eauto|]. rewrite V. reflexivity.
    + apply (means_not W HW) in Ha as [(wa & Ha & E)|(? & E & Ha)]; [discriminate E|]. injection E as <-. right. exists err. split; [reflexivity|]. apply means_or. right. eauto.
    + apply (means_not W HW) in Hb as [(wb & Hb & E)|(? & E & Hb)]; [discriminate E|]. injection E as <-.
      apply (means_not W HW) in Ha as [(wa & Ha & E)|(? & E & _)]; [|discriminate E]. right. exists err. split; [reflexivity|]. apply means_or. right. eauto 6.
Qed.

Theorem and_assoc_e : forall a b c, equivalent W root (EInner OpAnd [EInner OpAnd [a; b]; c]) (EInner OpAnd [a; EInner OpAnd [b; c]]).
Proof.
  assert (V : forall x y z, op_and W (op_and W x y) z = op_and W x (op_and W y z)).
  { intros x y z. rewrite !op_and_eq. destruct (cvb W x) eqn:E; [reflexivity|rewrite E; reflexivity]. }
  intros a b c dot r _. split; intro H.
  - apply means_and in H as [(vab & vc & Hab & Hc & ->)|(err & -> & [Hab|(vab & Hab & Hc)])].
    + apply means_and in Hab as [(va & vb & Ha & Hb & E)|(? & E & _)]; [|discriminate E]. injection E as ->.
      apply means_and. left. exists va, (op_and W vb vc). split; [exact Ha|]. split; [apply means_and; left; eauto|]. rewrite V. reflexivity.
    + apply means_and in Hab as [(? & ? & _ & _ & E)|(err' & E & H)]; [discriminate E|]. injection E as <-.
      apply means_and. right. exists err. split; [reflexivity|]. destruct H as [H|(va & Ha & Hb)]; [left; exact H|right]. exists va. split; [exact Ha|].
      apply means_and. right. eauto.
    + apply means_and in Hab as [(va & vb & Ha & Hb & E)|(? & E & _)]; [|discriminate E].
      apply means_and. right. exists err. split; [reflexivity|]. right. exists va. split; [exact Ha|]. apply means_and. right. eauto 6.
  - apply means_and in H as [(va & vbc & Ha & Hbc & ->)|(err & -> & [Ha|(va & Ha & Hbc)])].
    + apply means_and in Hbc as [(vb & vc & Hb & Hc & E)|(? & E & _)]; [|discriminate E]. injection E as ->.
      apply means_and. left. exists (op_and W va vb), vc. split; [apply means_and; left; eauto|]. split; [exact Hc|]. rewrite V. reflexivity.
    + apply means_and. right. exists err. split; [reflexivity|]. left. apply means_and. right. eauto.
    + apply means_and in Hbc as [(? & ? & _ & _ & E)|(err' & E & H)]; [discriminate E|]. injection E as <-.
      apply means_and. right. exists err. split; [reflexivity|]. destruct H as [H|(vb & Hb & Hc)].
      * left. apply means_and. right. eauto 6.
      * right. exists (op_and W va vb). split; [apply means_and; left; eauto|exact Hc].
Qed.

Lemma mirror_value : forall o o', mirrored_op o o' -> exists f f', is_binary o = true /\ is_binary o' = true /\
  (forall a b, binop W o a b = Some (OK (f a b))) /\ (forall a b, binop W o' a b = Some (OK (f' a b))) /\ forall a b, f a b = f' b a.
Proof.
  assert (N : forall A (x y : A) a b, (if a || b then x else y) = if b || a then x else y) by (intros; rewrite orb_comm; reflexivity).
  intros o o' H. destruct H; do 2 eexists; (split; [reflexivity|]; split; [reflexivity|]; split; [reflexivity|]; split; [reflexivity|]); intros a b; cbv beta.
  - rewrite (orb_comm (isNothing a)). unfold arith. rewrite (orb_comm (isNothing a)), (andb_comm (isArith a)), (orb_comm (isFloat a)). unfold add64.
    rewrite Z.add_comm. unfold f_add. rewrite SFadd_comm. reflexivity.
  - rewrite (orb_comm (isNothing a)). unfold arith. rewrite (orb_comm (isNothing a)), (andb_comm (isArith a)), (orb_comm (isFloat a)). unfold mul64.
    rewrite Z.mul_comm. unfold f_mul. rewrite SFmul_comm. reflexivity.
  - unfold relation. rewrite (orb_comm (isNothing a)), (andb_comm (isSimple a)), (orb_comm (isString a)), (andb_comm (isString a)), (orb_comm (isFloat a)).
    rewrite Z.gtb_ltb. reflexivity.
  - unfold relation. rewrite (orb_comm (isNothing a)), (andb_comm (isSimple a)), (orb_comm (isString a)), (andb_comm (isString a)), (orb_comm (isFloat a)).
    rewrite Z.geb_leb. reflexivity.
  - unfold relation. rewrite (orb_comm (isNothing a)), (andb_comm (isSimple a)), (orb_comm (isString a)), (andb_comm (isString a)), (orb_comm (isFloat a)).
    rewrite Z.geb_leb. reflexivity.
  - unfold relation. rewrite (orb_comm (isNothing a)), (andb_comm (isSimple a)), (orb_comm (isString a)), (andb_comm (isString a)), (orb_comm (isFloat a)).
    rewrite Z.gtb_ltb. reflexivity.
Qed.

Theorem swapped : forall o o' a b, mirrored_op o o' -> steady W root a \/ steady W root b -> equivalent W root (EInner o [a; b]) (EInner o' [b; a]).
Proof.
  intros o o' a b Ho S dot r Hd. destruct (mirror_value o o' Ho) as (f & f' & B & B' & F & F' & E).
  rewrite (means_bin W HW root dot o f B F), (means_bin W HW root dot o' f' B' F'). split.
  - intros [(va & vb & Ha & Hb & ->)|(err & -> & H)]; [left; exists vb, va; rewrite E; auto|right]. exists err. split; [reflexivity|].
    destruct H as [Ha|(va & Ha & Hb)].
    + destruct S as [S|S]; destruct (S dot Hd) as [[v Hv] U]; [destruct (U _ Ha); discriminate|]. right. eauto.
    + left. exact Hb.
  - intros [(vb & va & Hb & Ha & ->)|(err & -> & H)]; [left; exists va, vb; rewrite E; auto|right]. exists err. split; [reflexivity|].
    destruct H as [Hb|(vb & Hb & Ha)].
    + destruct S as [S|S]; destruct (S dot Hd) as [[v Hv] U]; [|destruct (U _ Hb); discriminate]. right. eauto.
    + left. exact Ha.
Qed.

(** ** Equal conditions *)
Notation two := (outs_two W HW root).

Theorem not_not : forall a, alike W root (EInner OpNot [EInner OpNot [a]]) a.
Proof.
  intros a dot r _. rewrite (outs_not W HW). split.
  - intros [(c & H & ->)|(err & -> & H)]; apply (outs_not W HW) in H as [(d & H & E)|(err' & E & H)]; try discriminate E; injection E as ->; [rewrite negb_involutive|]; exact H.
  - intro H. destruct (outs_cases _ _ _ _ _ H) as [[c ->]|[err ->]].
    + left. exists (negb c). split; [apply (outs_not W HW); left; eauto|rewrite negb_involutive; reflexivity].
    + right. exists err. split; [reflexivity|]. apply (outs_not W HW). right. eauto.
Qed.

Theorem both_swapped : forall o a b, o = OpAnd \/ o = OpOr -> steady W root a \/ steady W root b -> alike W root (EInner o [a; b]) (EInner o [b; a]).
Proof.
  assert (H : forall o a b, o = OpAnd \/ o = OpOr -> steady W root a \/ steady W root b -> forall dot r, doc dot ->
    turns_out W root dot (EInner o [a; b]) r -> turns_out W root dot (EInner o [b; a]) r).
  { intros o a b Ho S dot r Hd H. apply (two dot o Ho) in H. apply (two dot o Ho). destruct H as [(c & d & Hc & Hd' & ->)|(err & -> & H)].
    - left. exists d, c. split; [exact Hd'|]. split; [exact Hc|]. destruct Ho as [->| ->]; cbn [cond_op]; [rewrite andb_comm|rewrite orb_comm]; reflexivity.
    - right. exists err. split; [reflexivity|]. destruct H as [H|(c & Hc & Hb)]; [|left; exact Hb].
      apply outs_fail in H. destruct S as [S|S]; destruct (S dot Hd) as [[v Hv] U]; [destruct (U _ H); discriminate|].
      right. exists (cvb W v). split; [apply outs_ok; eauto|apply outs_fail, H]. }
  intros o a b Ho S dot r Hd. split; apply H; tauto.
Qed.

Theorem both_assoc : forall o a b c, o = OpAnd \/ o = OpOr -> alike W root (EInner o [EInner o [a; b]; c]) (EInner o [a; EInner o [b; c]]).
Proof.
  intros o a b c Ho dot r _. split; intro H.
  - apply (two dot o Ho) in H as [(x & z & Hab & Hc & ->)|(err & -> & [Hab|(x & Hab & Hc)])].
    + apply (two dot o Ho) in Hab as [(va & vb & Ha & Hb & E)|(? & E & _)]; [|discriminate E]. injection E as ->.
      apply (two dot o Ho). left. exists va, (cond_op o vb z). split; [exact Ha|]. split; [apply (two dot o Ho); left; exists vb, z; auto|].
      destruct Ho as [->| ->]; cbn [cond_op]; [rewrite andb_assoc|rewrite orb_assoc]; reflexivity.
    + apply (two dot o Ho) in Hab as [(? & ? & _ & _ & E)|(err' & E & H)]; [discriminate E|]. injection E as <-.
      apply (two dot o Ho). right. exists err. split; [reflexivity|]. destruct H as [H|(va & Ha & Hb)]; [left; exact H|right]. exists va. split; [exact Ha|].
      apply (two dot o Ho). right. exists err. auto.
    + apply (two dot o Ho) in Hab as [(va & vb & Ha & Hb & E)|(? & E & _)]; [|discriminate E].
      apply (two dot o Ho). right. exists err. split; [reflexivity|]. right. exists va. split; [exact Ha|]. apply (two dot o Ho). right. exists err. split; [reflexivity|right; eauto].
  - apply (two dot o Ho) in H as [(x & z & Ha & Hbc & ->)|(err & -> & [Ha|(x & Ha & Hbc)])].
    + apply (two dot o Ho) in Hbc as [(vb & vc & Hb & Hc & E)|(? & E & _)]; [|discriminate E]. injection E as ->.
      apply (two dot o Ho). left. exists (cond_op o x vb), vc. split; [apply (two dot o Ho); left; exists x, vb; auto|]. split; [exact Hc|].
      destruct Ho as [->| ->]; cbn [cond_op]; [rewrite andb_assoc|rewrite orb_assoc]; reflexivity.
    + apply (two dot o Ho). right. exists err. split; [reflexivity|]. left. apply (two dot o Ho). right. exists err. auto.
    + apply (two dot o Ho) in Hbc as [(? & ? & _ & _ & E)|(err' & E & H)]; [discriminate E|]. injection E as <-.
      apply (two dot o Ho). right. exists err. split; [reflexivity|]. destruct H as [H|(vb & Hb & Hc)].
      * left. apply (two dot o Ho). right. exists err. split; [reflexivity|right; eauto].
      * right. exists (cond_op o x vb). split; [apply (two dot o Ho); left; exists x, vb; auto|exact Hc].
Qed.

Lemma equivalent_alike : forall a b, equivalent W root a b -> alike W root a b.
Proof.
  intros a b E dot r Hd. split; intro H; (inversion H; subst; [eapply ToTrue|eapply ToFalse|eapply ToError]; try eassumption; apply E; assumption).
Qed.

(** ** Expressions without errors, and without keys() *)
Lemma steady_good : forall e, good_expr e -> (forall o kids, part_of (EInner o kids) e -> may_fail o = false) -> steady W root e.
Proof.
  intros e [Hw Hn] N dot Hd.
  assert (U : forall r, means W root dot e r -> exists v, r = OK v).
  { intros r H. pose proof (ev_reach W root e Hw dot r H) as R. destruct (R (w_perm W) 0%nat HW) as (p & _ & _ & E). unfold evc in E.
    pose proof (ev_clean (reordered W p) root e Hw dot 0%nat) as [C1 C2].
    destruct (ev (reordered W p) root dot 0%nat e) as [[v t]|err| |]; try congruence; cbn in E; subst r; [eauto|].
    destruct (means_blame W root e Hw dot err H) as (x & P & B). destruct B; apply N in P; discriminate P. }
  split; [|exact U]. pose proof (ev_means W root HW e Hw Hn dot 0%nat) as M. pose proof (ev_clean W root e Hw dot 0%nat) as [C1 C2].
  destruct (ev W root dot 0%nat e) as [[v t]|err| |]; try congruence; [eauto|]. destruct (U _ M) as [v D]; discriminate D.
Qed.

Lemma part_good : forall x e, part_of x e -> good_expr e -> good_expr x.
Proof.
  intros x e H. induction H as [|o kids e Hi H IH]; intro G; [exact G|]. apply good_kids in G. rewrite Forall_forall in G. auto.
Qed.
Lemma occurs_good : forall TX s ss jp x, accepted TX s ss jp -> fits jp -> occurs ss x -> good_expr x.
Proof.
  intros TX s ss jp x A F (st & e & Hs & He & P). pose proof (small_args ss (text_wf _ _ _ _ A) (text_small _ _ _ _ A F)) as G.
  rewrite Forall_forall in G. specialize (G st Hs). rewrite Forall_forall in G. specialize (G _ He). eapply part_good; [exact P|split; apply G].
Qed.

Theorem steady_text : forall TX s ss jp e, accepted TX s ss jp -> fits jp -> occurs ss e ->
  (forall o kids, part_of (EInner o kids) e -> may_fail o = false) -> steady W root e.
Proof. intros TX s ss jp e A F O N. apply steady_good; [eapply occurs_good; eassumption|exact N]. Qed.

Lemma keyless_unique : forall e dot r r', wf_expr e -> SpecLaws.keyless e -> means W root dot e r -> means W root dot e r' -> r = r'.
Proof.
  intros e dot r r' Hw Hk H H'. destruct (ev_every W root dot e Hw Hk) as [r0 E0].
  pose proof (ev_reach W root e Hw dot r H) as R. destruct (R (w_perm W) 0%nat HW) as (p & _ & _ & E). unfold evc in E. rewrite E0 in E.
  pose proof (ev_reach W root e Hw dot r' H') as R'. destruct (R' (w_perm W) 0%nat HW) as (p' & _ & _ & E'). unfold evc in E'. rewrite E0 in E'.
  congruence.
Qed.
Lemma outs_unique : forall e dot r r', wf_expr e -> SpecLaws.keyless e -> turns_out W root dot e r -> turns_out W root dot e r' -> r = r'.
Proof.
  intros e dot r r' Hw Hk H H'.
  assert (U : forall r, turns_out W root dot e r -> exists m, means W root dot e m /\ r = match m with OK v => OK (cvb W v) | Fail x => Fail x | Panics => Panics | OutOfFuel => OutOfFuel end).
  { intros q G. destruct (outs_cases _ _ _ _ _ G) as [[c ->]|[err ->]].
    - apply outs_ok in G as (v & M & <-). exists (OK v). auto.
    - apply outs_fail in G. exists (Fail err). auto. }
  destruct (U _ H) as (m & M & ->), (U _ H') as (m' & M' & ->). rewrite (keyless_unique e dot m m' Hw Hk M M'). reflexivity.
Qed.

Theorem distributes : forall o o' a b c, (o = OpAnd /\ o' = OpOr) \/ (o = OpOr /\ o' = OpAnd) -> wf_expr a -> SpecLaws.keyless a ->
  alike W root (EInner o [a; EInner o' [b; c]]) (EInner o' [EInner o [a; b]; EInner o [a; c]]).
Proof.
  intros o o' a b c Hoo Hw Hk dot r _.
  assert (Ho : o = OpAnd \/ o = OpOr) by tauto. assert (Ho' : o' = OpAnd \/ o' = OpOr) by tauto.
  assert (D : forall x y z, cond_op o x (cond_op o' y z) = cond_op o' (cond_op o x y) (cond_op o x z)).
  { intros x y z. destruct Hoo as [[-> ->]|[-> ->]]; destruct x, y, z; reflexivity. }
  split; intro H.
  - apply (two dot o Ho) in H as [(x & z & Ha & Hbc & ->)|(err & -> & [Ha|(x & Ha & Hbc)])].
    + apply (two dot o' Ho') in Hbc as [(vb & vc & Hb & Hc & E)|(? & E & _)]; [|discriminate E]. injection E as ->.
      apply (two dot o' Ho'). left. exists (cond_op o x vb), (cond_op o x vc). split; [apply (two dot o Ho); left; exists x, vb; auto|].
      split; [apply (two dot o Ho); left; exists x, vc; auto|]. rewrite D. reflexivity.
    + apply (two dot o' Ho'). right. exists err. split; [reflexivity|]. left. apply (two dot o Ho). right. exists err. auto.
    + apply (two dot o' Ho') in Hbc as [(? & ? & _ & _ & E)|(err' & E & H)]; [discriminate E|]. injection E as <-.
      apply (two dot o' Ho'). right. exists err. split; [reflexivity|]. destruct H as [H|(vb & Hb & Hc)].
      * left. apply (two dot o Ho). right. exists err. split; [reflexivity|right; eauto].
      * right. exists (cond_op o x vb). split; [apply (two dot o Ho); left; exists x, vb; auto|]. apply (two dot o Ho). right. exists err. split; [reflexivity|right; eauto].
  - apply (two dot o' Ho') in H as [(x & z & Hab & Hac & ->)|(err & -> & [Hab|(x & Hab & Hac)])].
    + apply (two dot o Ho) in Hab as [(va & vb & Ha & Hb & E)|(? & E & _)]; [|discriminate E]. injection E as ->.
      apply (two dot o Ho) in Hac as [(va' & vc & Ha' & Hc & E)|(? & E & _)]; [|discriminate E]. injection E as ->.
      pose proof (outs_unique a dot _ _ Hw Hk Ha Ha') as E. injection E as <-.
      apply (two dot o Ho). left. exists va, (cond_op o' vb vc). split; [exact Ha|]. split; [apply (two dot o' Ho'); left; exists vb, vc; auto|]. rewrite D. reflexivity.
    + apply (two dot o Ho) in Hab as [(? & ? & _ & _ & E)|(err' & E & H)]; [discriminate E|]. injection E as <-.
      apply (two dot o Ho). right. exists err. split; [reflexivity|]. destruct H as [H|(va & Ha & Hb)]; [left; exact H|right]. exists va. split; [exact Ha|].
      apply (two dot o' Ho'). right. exists err. auto.
    + apply (two dot o Ho) in Hab as [(va & vb & Ha & Hb & E)|(? & E & _)]; [|discriminate E].
      apply (two dot o Ho) in Hac as [(? & ? & _ & _ & E2)|(err' & E2 & H)]; [discriminate E2|]. injection E2 as <-.
      apply (two dot o Ho). right. exists err. split; [reflexivity|]. destruct H as [H|(va' & Ha' & Hc)]; [left; exact H|right]. exists va. split; [exact Ha|].
      apply (two dot o' Ho'). right. exists err. split; [reflexivity|right; eauto].
Qed.

(** ** Membership in a list of literals *)
Definition lit_value (e : expr) : val :=
  match e with EInt z => VInt64 z | EFloat f => VFloat f | EStr s => VStr s | EBool b => VBool b | _ => VNil end.
Lemma means_literal : forall dot l r, literal l -> (means W root dot l r <-> r = OK (lit_value l)).
Proof.
  intros dot l r L. split.
  - intro H. inversion H as [? ? K| |]; subst; try contradiction. inversion K; subst; try contradiction; reflexivity.
  - intros ->. apply MnLeaf. destruct l; try contradiction; constructor.
Qed.
Lemma means_literals : forall dot ls vs, Forall literal ls -> (Forall2 (fun e v => means W root dot e (OK v)) ls vs <-> vs = map lit_value ls).
Proof.
  intros dot ls vs L. split.
  - intro F. revert L. induction F as [|e v ls vs H F IH]; intro L; inversion L; subst; [reflexivity|]. cbn [map].
    apply (means_literal dot e _) in H; [|assumption]. injection H as ->. rewrite IH by assumption. reflexivity.
  - intros ->. induction L; cbn [map]; constructor; [apply means_literal; auto|exact IHL].
Qed.
Lemma means_array : forall dot ls r, Forall literal ls -> Z.of_nat (length ls) < 4194304 ->
  (means W root dot (EInner OpArray ls) r <-> r = OK (VArr (map lit_value ls))).
Proof.
  intros dot ls r L N. split.
  - intro H. inversion H as [? ? Hl|? ? vs ? F Y|? pre x post vs err F E]; subst; [inversion Hl| |].
    + apply (means_literals dot ls vs L) in F. subst vs. apply yields_inv in Y as (perm & t & _ & ->); [reflexivity|exact I].
    + rewrite Forall_app in L. destruct L as [_ L]. inversion L; subst. apply (means_literal dot x _) in E; [discriminate E|assumption].
  - intros ->. apply MnInner with (vs := map lit_value ls); [apply means_literals; auto|]. split; [rewrite map_length; exact N|].
    exists (w_perm W), 0%nat, (OK (VArr (map lit_value ls), 0%nat)). rewrite reordered_self. split; [exact HW|]. split; [|reflexivity].
    change (OK (VArr (map lit_value ls), 0%nat)) with (apply_op W 0 OpArray (map lit_value ls)). apply operates_apply; [exact I|discriminate].
Qed.

Lemma literal_scalar : forall l v, literal l -> eqVal W v (lit_value l) = eqVal W (lit_value l) v.
Proof. intros l v L. apply flat_sym. intros [_ S]. destruct l; try contradiction; destruct S as [[? S]|[? S]]; discriminate S. Qed.
Lemma literal_failure : forall l k, literal l -> eqVal W (lit_value l) (VErr k) = false.
Proof. intros l k L. destruct l; try contradiction; reflexivity. Qed.

Theorem eq_literal : forall o a l, o = OpEQ \/ o = OpNE -> literal l -> equivalent W root (EInner o [a; l]) (EInner o [l; a]).
Proof.
  intros o a l Ho L dot r _.
  assert (S : forall q : M val, (exists err, q = Fail err /\ (means W root dot a (Fail err) \/ exists va, means W root dot a (OK va) /\ means W root dot l (Fail err))) <->
    (exists err, q = Fail err /\ (means W root dot l (Fail err) \/ exists va, means W root dot l (OK va) /\ means W root dot a (Fail err)))).
  { intro q. split; intros (err & -> & H); exists err; (split; [reflexivity|]); destruct H as [H|(va & Ha & H)].
    - right. exists (lit_value l). split; [apply means_literal; auto|exact H].
    - apply (means_literal dot l _ L) in H. discriminate H.
    - apply (means_literal dot l _ L) in H. discriminate H.
    - left. exact H. }
  destruct Ho as [->| ->]; rewrite ?means_eq, ?means_ne, S; (split; (intros [(x & y & Hx & Hy & ->)|H]; [left; exists y, x; split; [exact Hy|]; split; [exact Hx|]|right; exact H]));
    try (apply (means_literal dot l _ L) in Hx; injection Hx as ->); try (apply (means_literal dot l _ L) in Hy; injection Hy as ->); rewrite literal_scalar by exact L; reflexivity.
Qed.

Definition among (ls : list expr) (v : val) : bool := existsb (fun l => eqVal W (lit_value l) v) ls.
Lemma search_among : forall ls v, searchJSON W (map lit_value ls) v true = among ls v.
Proof. intros ls v. induction ls as [|l ls IH]; [reflexivity|]. cbn [map searchJSON among existsb]. rewrite IH. destruct (eqVal W (lit_value l) v); reflexivity. Qed.
Lemma among_failure : forall ls k, Forall literal ls -> among ls (VErr k) = false.
Proof. intros ls k L. induction L; [reflexivity|]. cbn [among existsb]. rewrite literal_failure by assumption. exact IHL. Qed.

Definition tests (dot : val) (x e : expr) (g : val -> bool) : Prop := forall r, turns_out W root dot e r <->
  (exists v, means W root dot x (OK v) /\ r = OK (g v)) \/ exists err, means W root dot x (Fail err) /\ r = Fail err.

Lemma tests_eq : forall dot x l, literal l -> tests dot x (EInner OpEQ [x; l]) (fun v => eqVal W (lit_value l) v).
Proof.
  intros dot x l L r. split.
  - intro H. destruct (outs_cases _ _ _ _ _ H) as [[c ->]|[err ->]].
    + apply outs_ok in H as (v & H & <-). apply means_eq in H as [(vx & vl & Hx & Hl & E)|(? & E & _)]; [|discriminate E]. injection E as ->.
      apply (means_literal dot l _ L) in Hl. injection Hl as ->. left. exists vx. split; [exact Hx|]. cbn [cvb]. rewrite literal_scalar by exact L. reflexivity.
    + apply outs_fail, means_eq in H as [(? & ? & _ & _ & E)|(err' & E & H)]; [discriminate E|]. injection E as <-. right. exists err. split; [|reflexivity].
      destruct H as [H|(va & Ha & H)]; [exact H|]. apply (means_literal dot l _ L) in H. discriminate H.
  - intros [(v & H & ->)|(err & H & ->)].
    + apply outs_ok. exists (VBool (eqVal W v (lit_value l))). split; [|cbn [cvb]; apply literal_scalar, L]. apply means_eq. left. exists v, (lit_value l).
      split; [exact H|]. split; [apply means_literal; auto|reflexivity].
    + apply outs_fail, means_eq. right. eauto.
Qed.
Lemma tests_or : forall dot x e e' g g', wf_expr x -> SpecLaws.keyless x -> tests dot x e g -> tests dot x e' g' -> tests dot x (EInner OpOr [e; e']) (fun v => g v || g' v).
Proof.
  intros dot x e e' g g' Hw Hk T T' r. rewrite (two dot OpOr (or_intror eq_refl)). split.
  - intros [(c & d & Hc & Hd & ->)|(err & -> & H)].
    + apply T in Hc as [(v & Hv & E)|(? & _ & E)]; [|discriminate E]. injection E as ->. apply T' in Hd as [(v' & Hv' & E)|(? & _ & E)]; [|discriminate E]. injection E as ->.
      pose proof (keyless_unique x dot _ _ Hw Hk Hv Hv') as E. injection E as <-. left. exists v. auto.
    + right. exists err. split; [|reflexivity]. destruct H as [H|(c & _ & H)]; [apply T in H as [(? & _ & E)|(err' & H & E)]|apply T' in H as [(? & _ & E)|(err' & H & E)]];
        try discriminate E; injection E as ->; exact H.
  - intros [(v & H & ->)|(err & H & ->)].
    + left. exists (g v), (g' v). split; [apply T; left; eauto|]. split; [apply T'; left; eauto|reflexivity].
    + right. exists err. split; [reflexivity|]. left. apply T. right. eauto.
Qed.
Lemma tests_ext : forall dot x e g g', (forall v, g v = g' v) -> tests dot x e g -> tests dot x e g'.
Proof.
  intros dot x e g g' E T r. rewrite (T r). split; (intros [(v & H & ->)|H]; [left; exists v; split; [exact H|]; rewrite E; reflexivity|right; exact H]).
Qed.
Lemma tests_one_of : forall dot x, wf_expr x -> SpecLaws.keyless x -> forall ls l, Forall literal (l :: ls) -> tests dot x (one_of x l ls) (among (l :: ls)).
Proof.
  intros dot x Hw Hk ls l L. inversion L as [|? ? L1 L2]; subst. unfold one_of.
  assert (G : forall acc g, tests dot x acc g -> tests dot x (fold_left (fun acc y => EInner OpOr [acc; EInner OpEQ [x; y]]) ls acc) (fun v => g v || among ls v)).
  { clear L L1. induction L2 as [|y ls Ly Ls IH]; intros acc g T; cbn [fold_left].
    - eapply tests_ext; [|exact T]. intro v. cbn. rewrite orb_false_r. reflexivity.
    - eapply tests_ext; [|apply IH, (tests_or dot x acc _ g _ Hw Hk T (tests_eq dot x y Ly))]. intro v. cbn [among existsb]. rewrite orb_assoc. reflexivity. }
  eapply tests_ext; [|apply G, tests_eq, L1]. reflexivity.
Qed.

Theorem in_one_of : forall x l ls, wf_expr x -> SpecLaws.keyless x -> Forall literal (l :: ls) -> Z.of_nat (length (l :: ls)) < 4194304 ->
  alike W root (EInner OpIn [x; EInner OpArray (l :: ls)]) (one_of x l ls).
Proof.
  intros x l ls Hw Hk L N dot r _. rewrite (tests_one_of dot x Hw Hk ls l L r).
  assert (Y : forall v q, yields W OpIn [v; VArr (map lit_value (l :: ls))] q <->
    q = OK (if isNothing v then nothing else VBool (among (l :: ls) v))).
  { intros v q. apply (yields_bin W HW); [reflexivity|]. cbn [binop]. unfold op_in. cbn [isNothing]. rewrite orb_false_r, search_among. destruct (isNothing v); reflexivity. }
  assert (V : forall v, cvb W (if isNothing v then nothing else VBool (among (l :: ls) v)) = among (l :: ls) v).
  { intro v. destruct v; try reflexivity. cbn [isNothing]. rewrite among_failure by exact L. reflexivity. }
  split.
  - intro H. destruct (outs_cases _ _ _ _ _ H) as [[c ->]|[err ->]].
    + apply outs_ok in H as (v & H & <-). apply (means_two W) in H as [(vx & vl & Hx & Hl & E)|(? & E & _)]; [|discriminate E].
      apply (means_array dot _ _ L N) in Hl. injection Hl as ->. apply Y in E. injection E as ->. left. exists vx. split; [exact Hx|]. rewrite V. reflexivity.
    + apply outs_fail, (means_two W) in H as [(vx & vl & Hx & Hl & E)|(err' & E & H)].
      * apply (means_array dot _ _ L N) in Hl. injection Hl as ->. apply Y in E. discriminate E.
      * injection E as <-. right. exists err. split; [|reflexivity]. destruct H as [H|(vx & _ & H)]; [exact H|]. apply (means_array dot _ _ L N) in H. discriminate H.
  - intros [(v & H & ->)|(err & H & ->)].
    + apply outs_ok. exists (if isNothing v then nothing else VBool (among (l :: ls) v)). split; [|apply V]. apply (means_two W). left.
      exists v, (VArr (map lit_value (l :: ls))). split; [exact H|]. split; [apply means_array; auto|]. apply Y. reflexivity.
    + apply outs_fail, (means_two W). right. eauto.
Qed.
End laws.

