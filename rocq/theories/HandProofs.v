(** Compiling arbitrary paths: when it panics, and how many orders it emits. *)
From Verif Require Import SpecSyntax Coder CoderProofs Parser Api SpecGrammar ParserExact SpecHand.
Local Open Scope Z_scope.

(** what compiling something of [n] orders does to program [p]; [bad] says it cannot be compiled *)
Definition does (p : program) (m : C) (n : nat) (bad : Prop) : Prop :=
  match m with
  | OK p' => ~ bad /\ length (p_orders p') = (length (p_orders p) + n)%nat /\
      (length (p_vals p') <= length (p_vals p) + n)%nat
  | Fail _ => indexTop < Z.of_nat (length (p_vals p) + n)
  | Panics => bad
  | OutOfFuel => False
  end.

Lemma does_iff : forall p m n a b, (a <-> b) -> does p m n a -> does p m n b.
Proof. intros p m n a b H K. unfold does in *. destruct m; tauto. Qed.

Lemma does_asm : forall p o, does p (OK (prog_asm p o)) 1 False.
Proof. intros p o. cbn. rewrite app_length. cbn. repeat split; auto; lia. Qed.

Lemma does_seq : forall p m k n1 n2 a b, does p m n1 a -> (forall p', does p' (k p') n2 b) ->
  does p (obind m k) (n1 + n2) (a \/ b).
Proof.
  intros p m k n1 n2 a b H K. destruct m as [p'| | |]; cbn in *.
  - destruct H as [Ha [Hl Hv]]. specialize (K p'). unfold does in *. destruct (k p'); [|lia|tauto|exact K].
    destruct K as [Kb [Kl Kv]]. repeat split; [tauto|lia|lia].
  - lia.
  - auto.
  - exact H.
Qed.

Lemma does_op : forall p o v, does p (codeOp p o v) 1 False.
Proof.
  intros p o v. unfold codeOp. destruct v as [c|]; [|apply does_asm].
  assert (K : does p (let! (i, p') := mkVal p c in OK (prog_asm p' (mkOrder o i))) 1 False).
  { unfold mkVal. destruct (find_val c 0 (p_vals p)) as [i|]; [apply does_asm|].
    cbn [prog_data]. destruct (Z.of_nat (length (p_vals p)) >=? indexTop) eqn:E.
    - apply Z.geb_le in E. cbn [obind does]. lia.
    - cbn. rewrite !app_length. cbn. repeat split; auto; lia. }
  destruct c; try exact K. destruct (isSmallInt z); [apply does_asm|exact K].
Qed.

Lemma has_val_in : forall o, op_has_val o = true <-> In o valued_ops.
Proof. intro o. split; intro H; [destruct o; try discriminate H; cbn; tauto|cbn in H; intuition (subst; reflexivity)]. Qed.

Lemma leaf_in : forall o, op_is_leaf o = true <-> In o (valued_ops ++ bare_ops).
Proof. intro o. split; intro H; [destruct o; try discriminate H; cbn; tauto|cbn in H; intuition (subst; reflexivity)]. Qed.

Lemma among_spec : forall o l (b : bool), (b = true <-> In o l) -> among o l = b.
Proof. intros o l b H. unfold among. destruct (in_dec op_dec o l), b; auto; [symmetry|]; intuition congruence. Qed.

Lemma among_val : forall o, among o valued_ops = op_has_val o.
Proof. intro o. apply among_spec, has_val_in. Qed.
Lemma among_leaf : forall o, among o (valued_ops ++ bare_ops) = op_is_leaf o.
Proof. intro o. apply among_spec, leaf_in. Qed.

Lemma orders_inner : forall o kids, orders_expr (EInner o kids) =
  S (if op_is_leaf o then 0 else total orders_expr kids).
Proof.
  intros o kids. cbn [orders_expr]. rewrite among_leaf. destruct (op_is_leaf o); reflexivity.
Qed.

Lemma no_hollow : forall e, match e with EInner _ _ => False | _ => True end -> (False <-> hollow e).
Proof. intros e H. split; [tauto|]. intro K. destruct K; exact H. Qed.

Lemma does_exprs : forall kids, Forall (fun e => forall p, does p (codeExpr p e) (orders_expr e) (hollow e)) kids ->
  forall p, does p (codeExprs p kids) (total orders_expr kids) (exists k, In k kids /\ hollow k).
Proof.
  induction 1 as [|k l Hk Hl IH]; intro p.
  - cbn. repeat split; try lia. intros [k [[] _]].
  - cbn [codeExprs total fold_right]. eapply does_iff; [|apply does_seq; [apply Hk|exact IH]].
    split.
    + intros [H|[x [Hx H]]]; [exists k|exists x]; cbn; auto.
    + intros [x [[<-|Hx] H]]; [auto|right; eauto].
Qed.

Lemma does_expr : forall e p, does p (codeExpr p e) (orders_expr e) (hollow e).
Proof.
  induction e using expr_tree_ind; intro p;
    try (apply does_iff with (a := False); [apply no_hollow; exact I|];
      cbn [codeExpr opcode op_is_leaf orders_expr]; unfold codeLeaf; cbn [opcode op_has_val negb]; (apply does_op || apply does_asm)).
  - apply does_iff with (a := False); [apply no_hollow; exact I|]. cbn [codeExpr opcode op_is_leaf codeLeaf op_has_val negb].
    unfold codeLeaf. cbn [opcode op_has_val negb orders_expr]. destruct (isSmallInt z); [apply does_asm|apply does_op].
  - rewrite orders_inner. destruct (op_is_leaf o) eqn:E.
    + assert (K : codeExpr p (EInner o kids) = codeLeaf p (EInner o kids)) by (cbn; rewrite E; reflexivity).
      rewrite K. unfold codeLeaf. cbn [opcode]. destruct (op_has_val o) eqn:V; cbn [negb].
      * cbn. apply HoHere. apply has_val_in. exact V.
      * apply does_iff with (a := False); [|apply does_op]. split; [tauto|]. intro Q. inversion Q; subst.
        -- apply has_val_in in H1. congruence.
        -- apply leaf_in in E. apply in_app_or in E. destruct E as [E|E]; [apply has_val_in in E; congruence|tauto].
    + rewrite codeExpr_inner by exact E.
      replace (S (total orders_expr kids)) with (total orders_expr kids + 1)%nat by lia.
      eapply does_iff; [|apply does_seq; [apply does_exprs; exact H|intro; apply does_asm]].
      assert (B : ~ In o (valued_ops ++ bare_ops)) by (intro B; apply leaf_in in B; congruence).
      split.
      * intros [[k [Hk Q]]|[]]. eapply HoKid; eauto. intro B'. apply B. apply in_or_app. auto.
      * intro Q. inversion Q; subst; [|left; eauto]. exfalso. apply B. apply in_or_app. auto.
Qed.

Lemma does_val : forall p o a, does p (codeVal p o a) (orders_arg a) (hollow_arg a).
Proof. intros p o a. unfold codeVal. destruct a; cbn [orders_arg hollow_arg]; try (destruct (negb (op_has_val o)); apply does_op). apply does_expr. Qed.

Lemma does_args : forall args p, does p (codeArgs p args) (total orders_arg args) (exists a, In a args /\ hollow_arg a).
Proof.
  induction args as [|a l IH]; intro p.
  - cbn. repeat split; try lia. intros [k [[] _]].
  - cbn [codeArgs total fold_right]. eapply does_iff; [|apply does_seq; [apply does_val|exact IH]].
    split.
    + intros [H|[x [Hx H]]]; [exists a|exists x]; cbn; auto.
    + intros [x [[<-|Hx] H]]; [auto|right; eauto].
Qed.

Lemma does_step : forall s p, does p (codeStep p s) (S (total orders_arg (st_args s))) (exists a, In a (st_args s) /\ hollow_arg a).
Proof.
  intros s p. unfold codeStep. replace (S (total orders_arg (st_args s))) with (total orders_arg (st_args s) + 1)%nat by lia.
  eapply does_iff; [|apply does_seq; [apply does_args|intro; apply does_asm]]. tauto.
Qed.

Lemma set_nth_length : forall A i (x : A) l, length (set_nth i x l) = length l.
Proof. intros A i x l. revert i. induction l as [|y l IH]; intros [|i]; cbn; auto. Qed.

Lemma does_loop : forall s o p, does p (codeLoop p s o) (S (total orders_arg (st_args s)) + 2) (exists a, In a (st_args s) /\ hollow_arg a).
Proof.
  intros s o p. unfold codeLoop. pose proof (does_step s (prog_asm p (mkSmall o 0))) as K.
  destruct (codeStep (prog_asm p (mkSmall o 0)) s) as [p'| | |]; cbn in *; auto; [|lia].
  rewrite app_length in K. cbn in K. destruct K as [Kb [Kl Kv]]. rewrite set_nth_length, app_length. cbn. repeat split; auto; lia.
Qed.

Lemma does_pathstep : forall s p, does p (codePathStep p s) (orders_step s) (hollow_step s).
Proof.
  intros s p. unfold codePathStep, orders_step, hollow_step. rewrite among_val.
  destruct (op_has_val (st_op s)) eqn:V.
  - assert (L : op_is_leaf (st_op s) = true) by (destruct (st_op s); try discriminate V; reflexivity).
    rewrite L. cbn [andb]. apply has_val_in in V. destruct (st_args s) as [|a l]; [cbn; auto|].
    eapply does_iff; [|apply does_val]. tauto.
  - rewrite andb_false_r. assert (N : ~ In (st_op s) valued_ops) by (intro N; apply has_val_in in N; congruence).
    apply does_iff with (a := exists a, In a (st_args s) /\ hollow_arg a); [tauto|].
    destruct (st_op s); match goal with |- context [among ?o ?l] => let b := eval vm_compute in (among o l) in change (among o l) with b end;
      cbv iota; try apply does_loop; rewrite Nat.add_0_r; apply does_step.
Qed.

Lemma does_path : forall ss p, does p (codePath p ss) (orders_path ss) (Exists hollow_step ss).
Proof.
  induction ss as [|s l IH]; intro p.
  - cbn. repeat split; try lia. intro H. inversion H.
  - cbn [codePath]. unfold orders_path. cbn [total fold_right]. eapply does_iff; [|apply does_seq; [apply does_pathstep|exact IH]].
    rewrite Exists_cons. tauto.
Qed.

Lemma hand_outcome : forall ss,
  (exists p, Compile ss = OK p /\ ~ Exists hollow_step ss /\ length (p_orders p) = orders_path ss) \/
  (Compile ss = Panics /\ Exists hollow_step ss) \/
  (Compile ss = Fail ErrTooManyVals /\ 4194304 < Z.of_nat (orders_path ss)).
Proof.
  intro ss. pose proof (does_path ss (mkProg [] [])) as K. change (codePath (mkProg [] []) ss) with (Compile ss) in K.
  destruct (Compile ss) as [p|e| |]; cbn in K; [left; exists p; tauto| |tauto|contradiction].
  right. right. destruct e. split; [reflexivity|]. exact K.
Qed.

Lemma hand_panics : forall ss, Z.of_nat (orders_path ss) <= 4194304 -> (Compile ss = Panics <-> Exists hollow_step ss).
Proof.
  intros ss H. destruct (hand_outcome ss) as [[p [E [N _]]]|[[E P]|[E L]]]; rewrite E.
  - split; [discriminate|tauto].
  - tauto.
  - lia.
Qed.

Lemma wf_not_hollow : forall e, wf_expr e -> ~ hollow e.
Proof.
  intros e. induction e using expr_tree_ind; intros Hw Hh; try (inversion Hh; fail).
  destruct (wf_inner _ _ Hw) as (Hk & Hl & _). inversion Hh; subst.
  - apply has_val_in in H1. destruct o; discriminate.
  - rewrite Forall_forall in H, Hk. eapply H; eauto.
Qed.

Lemma wf_args_not_hollow : forall s a, wf_step s -> In a (st_args s) -> ~ hollow_arg a.
Proof.
  intros s a Hs Ha Hh. apply wf_step_args in Hs. rewrite Forall_forall in Hs. specialize (Hs a Ha).
  destruct a; try exact Hh. exact (wf_not_hollow e Hs Hh).
Qed.

Lemma wf_step_not_hollow : forall s, wf_step s -> ~ hollow_step s.
Proof.
  intros s Hs [[Hv _]|[_ [a [Ha Hh]]]].
  - destruct Hs; cbn in Hv; intuition discriminate.
  - exact (wf_args_not_hollow s a Hs Ha Hh).
Qed.

Lemma parsed_not_hollow : forall TX s ss, is_bytes s -> literal_floats (o_parse_float TX) -> ParsePath TX s = OK ss ->
  ~ Exists hollow_step ss.
Proof.
  intros TX s ss Hs HF HP H. assert (W : wf_path ss) by (eapply path_wf; eauto).
  unfold wf_path in W. apply Exists_exists in H. destruct H as [x [Hx H]]. rewrite Forall_forall in W.
  exact (wf_step_not_hollow x (W x Hx) H).
Qed.
