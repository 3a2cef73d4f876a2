(** Which operators the orders of compiled programs have, and what the two that never occur
    would do: slicing and the conversion of an index. *)
From Verif Require Import Syntax SpecSyntax Value Program Machine Coder SpecDoc SpecSelect SpecRun SpecCode SpecOp SpecExpr
  SpecTokens SpecGrammar SpecText SpecSem SpecIndex SpecOrders Api StackProofs MachineProofs OpProofs SliceProofs IndexProofs ProgramProofs CoderProofs
  TextProofs Examples.
Local Open Scope Z_scope.

(** ** Operators in programs *)

(** the operators in the code of a path *)
Definition op_of (i : instr) : option op :=
  match i with
  | ILoad _ => None
  | IRoot => Some OpRoot
  | ICurrent => Some OpCurrent
  | IApply o _ => Some o
  | ILoop o _ => Some o
  | IRep _ => Some OpRep
  end.

Definition used_in (is : list instr) : Prop := Forall (fun i => forall o, op_of i = Some o -> unused o = false) is.

Lemma used_app : forall a b, used_in a -> used_in b -> used_in (a ++ b).
Proof. intros. apply Forall_app. split; assumption. Qed.

Lemma used_flat : forall A (f : A -> list instr) l, Forall (fun x => used_in (f x)) l -> used_in (flat_map f l).
Proof. intros A f l H. induction H; [constructor|]. cbn [flat_map]. apply used_app; assumption. Qed.

Ltac used1 := constructor; [cbn; intros ? [= <-]; reflexivity|].

Lemma used_expr : forall e, wf_expr e -> used_in (list_expr e).
Proof.
  fix IH 2. intros e H. destruct H; cbn [list_expr flat_map];
    try (constructor; [cbn; intros ? [= ?]; subst; reflexivity|constructor]).
  - rewrite app_nil_r. apply used_app; [apply IH; assumption|]. constructor; [|constructor].
    intros o' [= <-]. destruct H as [-> | ->]; reflexivity.
  - rewrite app_nil_r. apply used_app; [apply used_app; apply IH; assumption|]. constructor; [|constructor].
    intros o' [= <-]. destruct o; try discriminate H; reflexivity.
  - apply used_app; [apply used_app; [apply IH; assumption|repeat constructor; discriminate]|].
    constructor; [|constructor]. intros o' [= <-]. reflexivity.
  - apply used_app; [apply used_flat; induction H; constructor; auto|].
    constructor; [|constructor]. intros o' [= <-]. reflexivity.
  - constructor; [intros ? [=]|]. apply used_app; [apply used_flat; induction H; constructor; auto|].
    constructor; [|constructor]. intros o' [= <-]. reflexivity.
Qed.

Lemma used_arg : forall a, (forall e, a = PExpr e -> wf_expr e) -> used_in (list_arg a).
Proof.
  intros [z|s|s|s|e] H; try (repeat constructor; discriminate). apply used_expr, H. reflexivity.
Qed.

Lemma used_step : forall s k, wf_step s -> used_in (list_step k s).
Proof.
  intros s k H.
  assert (B : used_in (list_body s)).
  { unfold list_body. apply used_app.
    - apply used_flat, Forall_forall. intros a Ha. apply used_arg. intros e ->.
      assert (U : forall l, Forall wf_union_elt l -> In (PExpr e) l -> wf_expr e).
      { intros l Hl Hi. rewrite Forall_forall in Hl. specialize (Hl _ Hi). inversion Hl. }
      destruct H; cbn [st_args] in Ha; try (eapply U; eassumption); repeat (destruct Ha as [Ha|Ha]);
        try contradiction; subst; try (injection Ha as ->); try assumption;
        inversion H; subst; try assumption; match goal with K : wf_union_elt (PExpr _) |- _ => inversion K end.
    - constructor; [|constructor]. intros o [= <-]. destruct H; reflexivity. }
  unfold list_step. destruct (loop_of (st_op s)) as [o'|] eqn:E; [|exact B].
  constructor; [|apply used_app; [exact B|repeat constructor; intros ? [= <-]; reflexivity]].
  intros o [= <-]. destruct H; cbn in E; try discriminate E; injection E as <-; reflexivity.
Qed.

Lemma used_path : forall ss k, wf_path ss -> used_in (list_path k ss).
Proof.
  intros ss k H. revert k. induction H; intro k; cbn [list_path]; [constructor|].
  apply used_app; [apply used_step; assumption|apply IHForall].
Qed.

(** an order that loads a constant is none of the unused *)
Lemma loads_used : forall W : world, forall p ord v o, loads p ord v -> op_of_num (order_op ord) = Some o -> unused o = false.
Proof.
  intros W p ord v o H Ho. specialize (H W VNil (m_start 0 [])). unfold exec in H. rewrite Ho in H.
  destruct o; try reflexivity; exfalso; cbn in H; discriminate.
Qed.

Lemma text_orders : forall (W : world) TX s ss jp ord o, accepted TX s ss jp -> In ord (p_orders (jp_prog jp)) ->
  op_of_num (order_op ord) = Some o -> unused o = false.
Proof.
  intros W TX s ss jp ord o Ha Hi Ho.
  destruct (text_constants TX s ss jp Ha) as [H _].
  pose proof (used_path ss 0 (text_wf TX s ss jp Ha)) as U. unfold used_in in U.
  revert Hi. induction H; intros Hi; [destruct Hi|]. inversion U as [|? ? U1 U2]; subst.
  destruct Hi as [<- | Hi]; [|apply IHForall2; assumption].
  destruct y; cbn [encodes op_of] in *; try (match type of H with _ /\ _ => destruct H as [H _] end).
  - eapply loads_used; eauto.
  - apply U1. congruence.
  - apply U1. congruence.
  - apply U1. congruence.
  - apply U1. congruence.
  - apply U1. congruence.
Qed.

(** every order has an operator *)
Lemma loads_op : forall W : world, forall p ord v, loads p ord v -> exists o, op_of_num (order_op ord) = Some o.
Proof.
  intros W p ord v H. specialize (H W VNil (m_start 0 [])). unfold exec in H.
  destruct (op_of_num (order_op ord)) as [o|]; [eauto|discriminate].
Qed.

Lemma text_orders_some : forall (W : world) TX s ss jp ord, accepted TX s ss jp -> In ord (p_orders (jp_prog jp)) ->
  exists o, op_of_num (order_op ord) = Some o /\ unused o = false.
Proof.
  intros W TX s ss jp ord Ha Hi.
  enough (exists o, op_of_num (order_op ord) = Some o) as [o Ho] by eauto using text_orders.
  destruct (text_constants TX s ss jp Ha) as [H _]. clear Ha.
  revert Hi. induction H; intros Hi; [destruct Hi|].
  destruct Hi as [<- | Hi]; [|apply IHForall2; assumption].
  destruct y; cbn [encodes] in *; try (match type of H with _ /\ _ => destruct H as [H _] end); eauto. eapply loads_op; eauto.
Qed.

(** ** Slices *)

Lemma operates_slice : forall W t a b,
  op_slice a b <> OutOfFuel -> operates W t OpSlice [a; b] (let! v := op_slice a b in OK (v, t)).
Proof.
  intros W t a b Hf p root ord m s Ho Hn Hs Ht.
  apply on_stack_state in Hs. rewrite Ht in Hs.
  unfold exec. rewrite Ho.
  change (s ++ [a; b]) with (s ++ [a] ++ [b]) in Hs. rewrite app_assoc in Hs.
  destruct (pop_state _ _ _ _ _ _ _ _ Hs) as (m1 & E1 & Hm1).
  destruct (pop_state _ _ _ _ _ _ _ _ Hm1) as (m2 & E2 & Hm2).
  rewrite E1. cbn [obind]. rewrite E2. cbn [obind binop].
  destruct (op_slice a b) as [v| | |]; cbn [obind]; try reflexivity; [|congruence].
  eexists; split; [reflexivity|]. apply state_on_stack. apply push_state. exact Hm2.
Qed.

Lemma operates_exp : forall W t v r, unop W OpExp v = Some r -> operates W t OpExp [v] (OK (r, t)).
Proof.
  intros W t v r E p root ord m s Ho Hn Hs Ht.
  apply on_stack_state in Hs. rewrite Ht in Hs.
  unfold exec. rewrite Ho.
  destruct (pop_state _ _ _ _ _ _ _ _ Hs) as (m1 & E1 & Hm1).
  rewrite E1. cbn [obind]. rewrite E.
  eexists; split; [reflexivity|]. apply state_on_stack. apply push_state. exact Hm1.
Qed.

Lemma operates_fun : forall W t o vs r r', Z.of_nat (length vs) < 4194304 ->
  operates W t o vs r -> operates W t o vs r' -> r = r'.
Proof.
  intros W t o vs r r' Hl H H'.
  pose (m := mkM None VNil vs (length vs) 0 [] t).
  assert (S : on_stack m ([] ++ vs)).
  { split; [cbn; lia|]. cbn. apply firstn_all. }
  assert (E1 : op_of_num (order_op (mkSmall o (Z.of_nat (length vs)))) = Some o)
    by (rewrite order_op_small; apply op_of_num_num).
  assert (E2 : order_small_int (mkSmall o (Z.of_nat (length vs))) = Z.of_nat (length vs))
    by (apply order_small_int_small, isSmallInt_range; lia).
  specialize (H (mkProg [] []) VNil _ m [] E1 E2 S eq_refl).
  specialize (H' (mkProg [] []) VNil _ m [] E1 E2 S eq_refl).
  destruct r as [[v t1]|e| |], r' as [[v' t1']|e'| |]; try contradiction;
    try (destruct H as (m1 & X & (_ & S1) & H)); try (destruct H' as (m2 & X' & (_ & S2) & H'));
    try congruence.
  rewrite X in X'. injection X' as <-. rewrite S1 in S2. injection S2 as <-.
  destruct H as (_ & _ & _ & _ & <-), H' as (_ & _ & _ & _ & <-). reflexivity.
Qed.

Lemma small_in : forall x, small_bound x -> in_oint64 x.
Proof. intros [z|] H; [exact H|exact I]. Qed.

(** consecutive elements *)
Lemma segment_elems : forall (l : list val) n from, 0 <= from -> from + Z.of_nat n <= Z.of_nat (length l) ->
  Forall2 (elem l) (progression from 1 n) (firstn n (skipn (Z.to_nat from) l)).
Proof.
  intros l n. induction n as [|n IH]; intros from H0 Hn; [constructor|].
  rewrite progression_S. destruct (elem_ex l from) as [x Hx]; [lia|].
  assert (E : skipn (Z.to_nat from) l = x :: skipn (Z.to_nat (from + 1)) l).
  { destruct Hx as [_ Hx]. replace (Z.to_nat (from + 1)) with (S (Z.to_nat from)) by lia.
    revert Hx. generalize (Z.to_nat from). clear. intro k. revert l.
    induction k; intros [|y l] H; try discriminate H; [injection H as ->; reflexivity|]. cbn. apply IHk. exact H. }
  rewrite E. cbn [firstn]. constructor; [exact Hx|]. apply IH; lia.
Qed.

Lemma no_overflow_one : forall len a b c, len <= max_int64 -> or_default 1 c = 1 -> ~ overflowing len a b c.
Proof.
  intros len a b c Hl Hc (ps & i & Hp & Hi). rewrite Hc in Hi.
  assert (G : forall qs, slice_positions len a b c qs -> In i qs -> i < Z.max 0 len).
  { intros qs Hq Hin. destruct Hq as [s n Hs Hpos from to Hn|s n Hs Hneg from to Hn|Hz].
    - unfold progression in Hin. apply in_map_iff in Hin as (k & <- & Hk). apply in_seq in Hk.
      assert (from + Z.of_nat k * s < to) by (apply Hn; lia). unfold to, clip in H. lia.
    - lia.
    - destruct Hin. }
  assert (i < Z.max 0 len) by (eapply G; [exact Hp|apply in_or_app; right; left; reflexivity]). unfold max_int64 in *. lia.
Qed.

Lemma slicing_exact : forall W : world, forall l s a b c, Z.of_nat (length l) <= 9223372036854775807 -> bounds_are s a b c ->
  (exists xs, slicing l s = OK xs /\ ~ overflowing (Z.of_nat (length l)) a b c /\
     ~ crossing (Z.of_nat (length l)) a b c /\ picks (SSlice a b c) (VArr l) xs) \/
  (slicing l s = Panics /\ (overflowing (Z.of_nat (length l)) a b c \/ crossing (Z.of_nat (length l)) a b c)).
Proof.
  intros W l s a b c Hl (Ba & Bb & Bc & Sa & Sb & Sc).
  apply small_in in Sa, Sb, Sc. apply bound_is_int in Ba, Bb, Bc.
  assert (Hi : slice_ints s = (a, b, c)) by (unfold slice_ints; congruence).
  set (len := Z.of_nat (length l)) in *.
  destruct (Z.eq_dec (or_default 1 c) 1) as [H1|H1].
  - unfold slicing. fold len.
    rewrite (sliceEval_up s len); rewrite ?Ba, ?Bb, ?Bc; auto; try (unfold max_int64; lia).
    rewrite H1. change (1 =? 1) with true. cbv iota.
    set (from := clip 0 len (from_end len (or_default 0 a))).
    set (to := clip 0 len (from_end len (or_default len b))).
    assert (Hfr : 0 <= from <= len) by (apply clip_range; lia).
    assert (Htr : 0 <= to <= len) by (apply clip_range; lia).
    destruct (Z.leb_spec from to) as [Hle|Hgt].
    + left. exists (firstn (Z.to_nat (to - from)) (skipn (Z.to_nat from) l)).
      split; [|split; [|split]].
      * destruct (Z.leb_spec 0 from); [|lia]. destruct (Z.leb_spec to len); [|lia]. reflexivity.
      * apply no_overflow_one; [exact Hl|exact H1].
      * intros [_ Hx]. fold from to in Hx. lia.
      * econstructor; [|apply segment_elems; fold len; lia].
        apply SlUp; [congruence|lia|]. intro k. fold len. fold from to. lia.
    + right. split; [reflexivity|]. right. split; [exact H1|]. fold from to. exact Hgt.
  - assert (E : forall W, (let! g := valsByKey W (Some []) (VArr l) (VSlice s) true in OK (g_list g)) = slicing l s).
    { clear W. intro W. unfold valsByKey, slicing. fold len.
      destruct (sliceEval s len) as [[x y] z] eqn:Es.
      assert (Hz : z = or_default 1 c).
      { unfold sliceEval in Es. rewrite <- Bc. unfold bound_int, option_map.
        destruct (_ <? 0) in Es; injection Es as _ _ <-; destruct (sl_stride s); reflexivity. }
      destruct (Z.eqb_spec z 1); [lia|].
      destruct (z >? 0); [reflexivity|]. destruct (z <? 0); reflexivity. }
    assert (C : ~ crossing len a b c) by (intros [Hx _]; lia).
    destruct (slice_keys W (Some []) l s true a b c Hi) as [(g & xs & Eg & Hg & _ & Ho & Hp)|(Eg & Ho)];
      try assumption; fold len in Ho; rewrite <- (E W), Eg.
    + left. exists xs. cbn [obind]. rewrite Hg. split; [reflexivity|]. auto.
    + right. split; [reflexivity|]. left. exact Ho.
Qed.

Lemma sliced_total : forall W : world, forall v s, sized v ->
  (forall sl, s = VSlice sl -> exists a b c, bounds_are sl a b c) -> sliced v s (op_slice v s).
Proof.
  intros W v s Hv Hs. unfold op_slice.
  assert (NF : forall x, isNothing x = false -> ~ failure x) by (intros x E [k ->]; discriminate E).
  destruct (isNothing v) eqn:Ev.
  { destruct v; try discriminate Ev. apply SdFailure. left. eexists. reflexivity. }
  destruct (isNothing s) eqn:Es.
  { destruct s; try discriminate Es. apply SdFailure. right. eexists. reflexivity. }
  cbn [orb].
  destruct s as [| | | | | | | | | |sl| |]; try (apply SdOther; auto; right; discriminate).
  destruct v as [| | | | | | |l| | | | |]; try (apply SdOther; auto; left; discriminate).
  destruct (Hs sl eq_refl) as (a & b & c & Hb).
  destruct (slicing_exact W l sl a b c Hv Hb) as [(xs & -> & Ho & Hc & Hp)|(-> & Ho)].
  - eapply SdArray; eauto.
  - eapply SdRange; eauto.
Qed.

Lemma bounds_fun : forall s a b c a' b' c', bounds_are s a b c -> bounds_are s a' b' c' -> a = a' /\ b = b' /\ c = c'.
Proof.
  intros s a b c a' b' c' (Ha & Hb & Hc & _) (Ha' & Hb' & Hc' & _).
  apply bound_is_int in Ha, Hb, Hc, Ha', Hb', Hc'. repeat split; congruence.
Qed.

Lemma sliced_fun : forall v s r r', sliced v s r -> sliced v s r' -> r = r'.
Proof.
  intros v s r r' H H'.
  destruct H as [Hf|Hv Hs Ho|l sl a b c xs Ev Es Hb Ho Hc Hp|l sl a b c Ev Es Hb Ho];
    destruct H' as [Hf'|Hv' Hs' Ho'|l' sl' a' b' c' xs' Ev' Es' Hb' Ho' Hc' Hp'|l' sl' a' b' c' Ev' Es' Hb' Ho'];
    subst; try reflexivity; try tauto;
    try (exfalso; match goal with K : failure _ \/ failure _ |- _ => destruct K as [[? ?]|[? ?]]; discriminate end);
    try (exfalso; match goal with K : (forall _, _) \/ (forall _, _) |- _ => destruct K as [K|K]; eapply K; reflexivity end).
  - injection Ev' as <-. injection Es' as <-. destruct (bounds_fun _ _ _ _ _ _ _ Hb Hb') as (<- & <- & <-).
    f_equal. f_equal.
    inversion Hp as [| | | |? ? ? ? ps ? P1 P2|? ? ? ? N]; [|discriminate N].
    inversion Hp' as [| | | |? ? ? ? ps' ? P1' P2'|? ? ? ? N']; [|discriminate N']. subst.
    rewrite (positions_fun _ _ _ _ _ _ P1' P1) in P2'. eapply elems_fun; eauto.
  - injection Ev' as <-. injection Es' as <-. destruct (bounds_fun _ _ _ _ _ _ _ Hb Hb') as (<- & <- & <-). tauto.
  - injection Ev' as <-. injection Es' as <-. destruct (bounds_fun _ _ _ _ _ _ _ Hb Hb') as (<- & <- & <-). tauto.
Qed.

Lemma slice_exact : forall W v s, sized v -> (forall sl, s = VSlice sl -> exists a b c, bounds_are sl a b c) ->
  (exists r, sliced v s r) /\
  forall r, sliced v s r <-> forall t, operates W t OpSlice [v; s] (let! x := r in OK (x, t)).
Proof.
  intros W v s Hv Hs. pose proof (sliced_total W v s Hv Hs) as T. split; [eauto|].
  assert (NF : op_slice v s <> OutOfFuel) by (intro E; rewrite E in T; inversion T).
  intro r. split.
  - intros Hr t. rewrite (sliced_fun _ _ _ _ Hr T). apply operates_slice. exact NF.
  - intro Hr. specialize (Hr 0%nat). pose proof (operates_slice W 0 v s NF) as K.
    assert (E := operates_fun W 0 OpSlice [v; s] _ _ ltac:(cbn; lia) Hr K).
    destruct r, (op_slice v s); cbn [obind] in E; try discriminate E; try congruence.
Qed.

Lemma exp_exact : forall W v, (exists x, index_value W v x) /\
  forall x, index_value W v x <-> computes W OpExp [v] x.
Proof.
  intros W v.
  assert (T : exists x, unop W OpExp v = Some x /\ index_value W v x).
  { cbn [unop].
    destruct v; eexists; (split; [reflexivity|]); cbn [isNothing isString isInt orb];
      try (eapply IvStr; reflexivity); try (eapply IvInt; eauto; fail); try (apply IvFailure; eexists; reflexivity);
      (apply IvOther; [intros [? ?]; discriminate|discriminate|discriminate|discriminate|apply cvi_integral]). }
  destruct T as (x0 & E0 & H0). split; [eauto|]. intro x. split.
  - intros H t. replace x with x0; [apply operates_exp; exact E0|].
    destruct H0 as [F|s E|z Z|n F Hs Hz Hz' I], H as [F'|s' E'|z' Z'|n' F' Hs' Hz1 Hz2 I']; subst; try reflexivity;
      try (destruct Z as [-> | ->]); try (destruct Z' as [-> | ->]);
      try (destruct F as [? F]; discriminate F); try (destruct F' as [? F']; discriminate F');
      try tauto; try reflexivity; try discriminate; try (exfalso; eapply Hs; reflexivity); try (exfalso; eapply Hs'; reflexivity);
      try (exfalso; eapply Hz; reflexivity); try (exfalso; eapply Hz'; reflexivity);
      try (exfalso; eapply Hz1; reflexivity); try (exfalso; eapply Hz2; reflexivity).
    f_equal. eapply integral_fun; eauto.
  - intro H. assert (E := operates_fun W 0 OpExp [v] _ _ ltac:(cbn; lia) (H 0%nat) (operates_exp W 0 v x0 E0)).
    injection E as ->. exact H0.
Qed.

(** ** Every other operator occurs *)
Definition busy : bytes := b_of
  "$.a['b'][1].*[1,2:3][?(@.b[0] < 1.5 && @.c <= true || $.d == null && !(@ =~ /x/) || -@.e * 2 / 3 % 4 + 5 - 6 != 7 && length(@) >= 8 && @ > 9 && @ in [1] && @ nin [2])]..a..[1]..[1,2]..*..[?(@)]".

Lemma busy_ops : forallb (fun o => unused o ||
    existsb (fun ord => match op_of_num (order_op ord) with Some o' => op_beq o o' | None => false end)
      (p_orders (jp_prog (jp_of busy)))) all_ops = true.
Proof. vm_compute. reflexivity. Qed.

Lemma all_in : forall o, In o all_ops.
Proof. destruct o; repeat (first [left; reflexivity | right]). Qed.

Lemma ops_in : forall l, forallb (fun o => unused o ||
    existsb (fun ord => match op_of_num (order_op ord) with Some o' => op_beq o o' | None => false end) l) all_ops = true ->
  forall o, unused o = false -> exists ord, In ord l /\ op_of_num (order_op ord) = Some o.
Proof.
  intros l E o Ho. rewrite forallb_forall in E. specialize (E o (all_in o)). rewrite Ho in E. cbn [orb] in E.
  apply existsb_exists in E as (ord & Hj & E). exists ord. split; [exact Hj|].
  destruct (op_of_num (order_op ord)) as [o'|]; [|discriminate E]. apply internal_op_dec_bl in E. congruence.
Qed.

Lemma busy_orders : exists TX s ss jp, accepted TX s ss jp /\ fits jp /\ forall o, unused o = false ->
  exists ord, In ord (p_orders (jp_prog jp)) /\ op_of_num (order_op ord) = Some o.
Proof.
  exists x_text, busy, (steps_of busy), (jp_of busy).
  split; [apply acceptedb_ok; vm_compute; reflexivity|]. split; [vm_compute; reflexivity|].
  exact (ops_in _ busy_ops).
Qed.

Lemma orders_used : forall TX s ss jp, accepted TX s ss jp ->
  Forall (fun ord => exists o, op_of_num (order_op ord) = Some o /\ unused o = false) (p_orders (jp_prog jp)).
Proof.
  intros TX s ss jp H. apply Forall_forall. intros ord Hi. exact (text_orders_some x_world TX s ss jp ord H Hi).
Qed.
