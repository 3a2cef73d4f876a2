(** Where the values a machine selects come from, for any program. *)
From Coq Require Import Permutation.
From Verif Require Import SpecSyntax Machine Coder SpecDoc DocProofs SpecSelect SpecRun SelectProofs
  WalkProofs MachineProofs CoderProofs SpecCode CodeProofs StepProofs Api SpecText.
Local Open Scope Z_scope.

(** the order is a filter, which copies @ to the selection *)
Definition filter_order (ord : order) : Prop :=
  op_of_num (order_op ord) = Some OpFilter \/ op_of_num (order_op ord) = Some OpNestFilter.

Section origin.
Variable W : world.
Variable p : program.
Variable root : val.
Variable P : val -> Prop.
Hypothesis Hperm : orders_ok W.
Hypothesis P_child : forall v c, P v -> In c (children v) -> P c.

(** a value of interest, or the null of an empty loop *)
Definition dotted (v : val) : Prop := P v \/ v = VNil.

Lemma dotted_child : forall v c, dotted v -> In c (children v) -> P c.
Proof. intros v c [H| ->] Hc; [eapply P_child; eauto|destruct Hc]. Qed.

Lemma slice_loop_origin : forall fuel up src i e s g g', (forall x, In x src -> P x) ->
  Forall P (g_list g) -> slice_loop fuel up src i e s g = OK g' -> Forall P (g_list g').
Proof.
  induction fuel as [|fuel IH]; intros up src i e s g g' Hs Hg H; cbn [slice_loop] in H;
    destruct (if up then i <? e else i >? e); try discriminate; try (injection H as <-; exact Hg).
  destruct (index_Z src i) as [v|] eqn:E; [|discriminate].
  eapply IH; [exact Hs| |exact H]. simpl. apply Forall_app. split; auto.
  constructor; [|constructor]. apply Hs. eapply index_child; eauto.
Qed.

Lemma valsByKey_origin : forall g v k neg g', dotted v -> Forall P (g_list g) ->
  valsByKey W g v k neg = OK g' -> Forall P (g_list g').
Proof.
  intros g v k neg g' Hv Hg H.
  assert (Happ : forall x, In x (children v) -> Forall P (g_list (g_append g x))).
  { intros x Hx. simpl. apply Forall_app. split; auto. constructor; [eapply dotted_child; eauto|constructor]. }
  assert (Hk : isSlice k = false -> Forall P (g_list g')).
  { intro Hk. assert (E : valsByKey W g v k neg = OK (match v with
      | VArr _ => if isInt k then match valByKey W v k neg with Some x => g_append g x | None => g end else g
      | VObj _ => match valByKey W v k false with Some x => g_append g x | None => g end
      | _ => g end)).
    { unfold valsByKey. destruct k; try discriminate Hk; destruct v; reflexivity. }
    rewrite E in H. injection H as <-. destruct v; auto.
    - destruct (isInt k); auto. destruct (valByKey W (VArr l) k neg) eqn:Ev; auto.
      apply Happ. eapply valByKey_child; eauto; reflexivity.
    - destruct (valByKey W (VObj m) k false) eqn:Ev; auto.
      apply Happ. eapply valByKey_child; eauto; reflexivity. }
  destruct k; auto. clear Hk. cbn [valsByKey] in H.
  destruct v; try (injection H as <-; constructor).
  assert (Hl : forall x, In x l -> P x) by (intros x Hx; eapply dotted_child; eauto).
  destruct (sliceEval s (Z.of_nat (length l))) as [[st e] sd].
  destruct (sd >? 0); [eapply slice_loop_origin; eauto|].
  destruct (sd <? 0); [eapply slice_loop_origin; eauto|]. injection H as <-. exact Hg.
Qed.

Lemma unionVals_origin : forall sels g v g', dotted v -> Forall P (g_list g) ->
  unionVals W g v sels = OK g' -> Forall P (g_list g').
Proof.
  induction sels as [|k sels IH]; intros g v g' Hv Hg H; cbn [unionVals] in H.
  - injection H as <-. exact Hg.
  - destruct (isNothing k); cbn [obind] in H; [eapply IH; eauto|].
    destruct (valsByKey W g v k true) as [g1| | |] eqn:E; cbn [obind] in H; try discriminate.
    eapply IH; [exact Hv| |exact H]. eapply valsByKey_origin; eauto.
Qed.

Lemma valsWild_origin : forall t g v, dotted v -> Forall P (g_list g) ->
  Forall P (g_list (fst (valsWild W t g v))).
Proof.
  intros t g v Hv Hg. destruct (valsWild_list W Hperm t g v) as (l & -> & Hl & _).
  apply Forall_app. split; auto. apply Forall_forall. intros x Hx.
  eapply dotted_child; eauto. eapply children_within; eauto.
Qed.

Lemma applySelection_origin : forall f cands t g g' t',
  (forall t v g g' t', P v -> Forall P (g_list g) -> f t v g = OK (g', t') -> Forall P (g_list g')) ->
  Forall P cands -> Forall P (g_list g) ->
  applySelection_loop f t cands g = OK (g', t') -> Forall P (g_list g').
Proof.
  intros f cands. induction cands as [|v cands IH]; intros t g g' t' Hf Hc Hg H; cbn [applySelection_loop] in H.
  - injection H as <- <-. exact Hg.
  - inversion Hc; subst. destruct (f t v g) as [[g1 t1]| | |] eqn:E; cbn [obind] in H; try discriminate.
    apply (IH t1 g1 g' t'); auto. eapply Hf; eauto.
Qed.

Definition fed (m : mstate) : Prop :=
  Forall P (g_list (m_out m)) /\ dotted (m_dot m) /\ Forall (Forall P) (m_values m).

(** parts of the state that the stack operations leave alone *)
Definition same_io (m m' : mstate) : Prop :=
  m_out m' = m_out m /\ m_dot m' = m_dot m /\ m_values m' = m_values m.

Lemma fed_same : forall m m', same_io m m' -> fed m -> fed m'.
Proof. intros m m' (A & B & C) (D & E & F). unfold fed. rewrite A, B, C. auto. Qed.

Lemma push_io : forall v m, same_io m (push v m).
Proof. intros. unfold push. destruct (length (m_stack m) <=? m_sp m)%nat; repeat split. Qed.
Lemma pop_io : forall m v m', pop m = OK (v, m') -> same_io m m'.
Proof.
  intros m v m' H. unfold pop in H. destruct (m_sp m); [discriminate|].
  destruct (nth_error (m_stack m) n); [|discriminate]. injection H as <- <-. repeat split.
Qed.
Lemma popN_io : forall n m vs m', popN n m = OK (vs, m') -> same_io m m'.
Proof.
  intros n m vs m' H. unfold popN in H. destruct (Z.of_nat (m_sp m) <? n); [discriminate|].
  destruct (n <? 0); [discriminate|]. injection H as <- <-. repeat split.
Qed.

Lemma fed_push : forall v m, fed m -> fed (push v m).
Proof. intros. eapply fed_same; [apply push_io|auto]. Qed.

Lemma fed_out : forall m g, fed m -> Forall P (g_list g) -> fed (set_out m g).
Proof. intros m g (A & B & C) Hg. split; auto. Qed.
Lemma fed_tick : forall m t, fed m -> fed (set_tick m t).
Proof. intros m g H. exact H. Qed.

Lemma branch_io : forall pc m m', branch p pc m = OK m' -> same_io m m'.
Proof.
  intros pc m m' H. unfold branch in H. destruct ((pc <=? 0) || (pc >? prog_size p)); [discriminate|].
  injection H as <-. repeat split.
Qed.

Lemma looptop_fed : forall producer pc m m',
  (forall t cands, Forall P cands -> Forall P (fst (producer t cands))) ->
  fed m -> looptop p producer pc m = OK m' -> fed m'.
Proof.
  intros producer pc m m' Hp Hm H. unfold looptop in H. pose proof Hm as (A & B & C).
  destruct (g_list (m_out m)) as [|v l] eqn:E.
  - eapply fed_same; [eapply branch_io; eauto|exact Hm].
  - specialize (Hp (m_tick m) (v :: l) A). destruct (producer (m_tick m) (v :: l)) as [vs t].
    cbn [fst] in Hp. destruct vs as [|x vs]; cbn [recv] in H; injection H as <-.
    + split; [constructor|]. split; [right; reflexivity|]. constructor; [constructor|exact C].
    + inversion Hp; subst. split; [constructor|]. split; [left; assumption|]. constructor; assumption.
Qed.

Lemma exec_fed : forall ord m m', (filter_order ord -> P VNil) -> fed m ->
  exec W p root ord m = OK m' -> fed m'.
Proof.
  intros ord m m' Hf Hm H. unfold exec in H. unfold filter_order in Hf.
  assert (Hconst : forall o, (let! c := const_of p o in OK (push (cval_value c) m)) = OK m' -> fed m').
  { intros o Hc. destruct (const_of p o); cbn [obind] in Hc; try discriminate. injection Hc as <-. apply fed_push; auto. }
  assert (Hdot : fed m -> dotted (m_dot m)) by (intros (A & B & C); exact B).
  assert (Hout : fed m -> Forall P (g_list (m_out m))) by (intros (A & B & C); exact A).
  destruct (op_of_num (order_op ord)) as [o|]; [|discriminate].
  assert (Hun : forall oo, (let! (v, m1) := pop m in
      match unop W oo v with Some r => OK (push r m1) | None => Panics end) = OK m' -> fed m').
  { intros oo Hc. destruct (pop m) as [[v m1]| | |] eqn:E; cbn [obind] in Hc; try discriminate.
    destruct (unop W oo v); [|discriminate]. injection Hc as <-. apply fed_push. eapply fed_same; [eapply pop_io; eauto|auto]. }
  assert (Hbin : forall oo, (let! (b, m1) := pop m in let! (a, m2) := pop m1 in
      match binop W oo a b with Some r => let! v := r in OK (push v m2) | None => Panics end) = OK m' -> fed m').
  { intros oo Hc. destruct (pop m) as [[b m1]| | |] eqn:E; cbn [obind] in Hc; try discriminate.
    destruct (pop m1) as [[a m2]| | |] eqn:E2; cbn [obind] in Hc; try discriminate.
    destruct (binop W oo a b) as [r|]; [|discriminate]. destruct r; cbn [obind] in Hc; try discriminate.
    injection Hc as <-. apply fed_push. eapply fed_same; [eapply pop_io; eauto|].
    eapply fed_same; [eapply pop_io; eauto|auto]. }
  assert (Hfil : forall oo, (Some o = Some OpFilter \/ Some o = Some OpNestFilter) ->
     (let! (v, m1) := pop m in if negb (isNothing v) && cvb W v then OK (set_out m1 (g_append (m_out m1) (m_dot m1))) else OK m1) = oo ->
     oo = OK m' -> fed m').
  { intros oo Ho <- Hc. destruct (pop m) as [[v m1]| | |] eqn:E; cbn [obind] in Hc; try discriminate.
    assert (Hm1 : fed m1) by (eapply fed_same; [eapply pop_io; eauto|auto]).
    destruct (negb (isNothing v) && cvb W v); injection Hc as <-; auto.
    apply fed_out; auto. simpl. apply Forall_app. split; [apply Hm1|]. constructor; [|constructor].
    destruct Hm1 as (_ & [Hd| ->] & _); auto. }
  assert (Hsel : forall (f : val -> nat -> val -> gslice -> M (gslice * nat)),
     (forall k t v g g' t', P v -> Forall P (g_list g) -> f k t v g = OK (g', t') -> Forall P (g_list g')) ->
     (let! (sel, m1) := pop m in
      if isNothing sel then OK (set_out m1 (Some []))
      else let! (out, t) := applySelection (m_tick m1) (m_out m1) (f sel) in
           OK (set_tick (set_out m1 out) t)) = OK m' -> fed m').
  { intros f Hfk Hc. destruct (pop m) as [[k m1]| | |] eqn:E; cbn [obind] in Hc; try discriminate.
    assert (Hm1 : fed m1) by (eapply fed_same; [eapply pop_io; eauto|auto]).
    destruct (isNothing k); [injection Hc as <-; apply fed_out; auto; constructor|].
    destruct (applySelection (m_tick m1) (m_out m1) (f k)) as [[g t]| | |] eqn:Ea; cbn [obind] in Hc; try discriminate.
    injection Hc as <-. apply fed_tick, fed_out; auto. unfold applySelection in Ea.
    eapply applySelection_origin; [|apply Hm1| |exact Ea]; [|constructor].
    intros; eapply Hfk; eauto. }
  assert (Hkey : forall neg k t v g g' t', P v -> Forall P (g_list g) ->
     (let! g0 := valsByKey W g v k neg in OK (g0, t)) = OK (g', t' : nat) -> Forall P (g_list g')).
  { intros neg k t v g g' t' Hv Hg Hc. destruct (valsByKey W g v k neg) eqn:E; cbn [obind] in Hc; try discriminate.
    injection Hc as <- <-. eapply valsByKey_origin; [left; exact Hv|exact Hg|exact E]. }
  assert (Hnest : forall neg, (let! (sel, m1) := pop m in
      if isNothing sel then OK m1
      else let! out := valsByKey W (m_out m1) (m_dot m1) sel neg in OK (set_out m1 out)) = OK m' -> fed m').
  { intros neg Hc. destruct (pop m) as [[k m1]| | |] eqn:E; cbn [obind] in Hc; try discriminate.
    assert (Hm1 : fed m1) by (eapply fed_same; [eapply pop_io; eauto|auto]).
    destruct (isNothing k); [injection Hc as <-; auto|].
    destruct (valsByKey W (m_out m1) (m_dot m1) k neg) eqn:Ea; cbn [obind] in Hc; try discriminate.
    injection Hc as <-. apply fed_out; auto. eapply valsByKey_origin; [apply Hm1|apply Hm1|exact Ea]. }
  assert (HpopN : forall vs m1, popN (order_small_int ord) m = OK (vs, m1) -> fed m1).
  { intros vs m1 E. eapply fed_same; [eapply popN_io; eauto|auto]. }
  destruct o; try discriminate;
  try match type of H with
    | context [unop W ?oo _] => exact (Hun oo H)
    | context [binop W ?oo _ _] => exact (Hbin oo H)
    | rep _ _ _ = _ => idtac
    | (let! c := const_of _ _ in _) = _ => exact (Hconst _ H)
    | context [g_append] => exact (Hfil _ ltac:(auto) eq_refl H)
    | context [applySelection _ _ (fun t v acc => let! g := valsByKey W acc v _ ?neg in OK (g, t))] =>
        exact (Hsel (fun k t v acc => let! g := valsByKey W acc v k neg in OK (g, t)) (Hkey neg) H)
    | context [valsByKey W _ _ _ ?neg] => exact (Hnest neg H)
    | OK (push _ m) = _ => injection H as <-; apply fed_push; auto
    | context [looptop _ (stepping W)] =>
        destruct (order_pc ord); [|discriminate]; eapply looptop_fed; [|exact Hm|exact H];
        intros; apply dots_stepping; auto
    | context [looptop _ (walker W)] =>
        destruct (order_pc ord); [|discriminate]; eapply looptop_fed; [|exact Hm|exact H];
        intros; apply dots_walker; auto
    end;
  try (destruct (popN (order_small_int ord) m) as [[vs m1]| | |] eqn:E; cbn [obind] in H; try discriminate;
            specialize (HpopN _ _ eq_refl)).
  - destruct (order_is_small ord); [injection H as <-; apply fed_push; auto|exact (Hconst _ H)].
  - destruct (order_is_small ord); [injection H as <-; apply fed_push; auto|discriminate].
  - unfold applySelection in H.
    match type of H with obind (applySelection_loop ?f ?t ?l ?g) _ = _ =>
      destruct (applySelection_loop f t l g) as [[g' t']| | |] eqn:Ea end; cbn [obind] in H; try discriminate.
    injection H as <-. apply fed_tick, fed_out; auto.
    eapply applySelection_origin; [|apply HpopN| |exact Ea]; [|constructor].
    intros t0 v g0 g1 t1 Hv Hg Hc. cbv beta in Hc.
    destruct (unionVals W g0 v vs) eqn:Eu; cbn [obind] in Hc; try discriminate.
    injection Hc as <- <-. eapply unionVals_origin; [left; exact Hv|exact Hg|exact Eu].
  - unfold applySelection in H.
    match type of H with obind (applySelection_loop ?f ?t ?l ?g) _ = _ =>
      destruct (applySelection_loop f t l g) as [[g' t']| | |] eqn:Ea end; cbn [obind] in H; try discriminate.
    injection H as <-. apply fed_tick, fed_out; auto.
    eapply applySelection_origin; [|apply Hout; exact Hm| |exact Ea]; [|constructor].
    intros t0 v g0 g1 t1 Hv Hg Hc. cbv beta in Hc. injection Hc as Hc.
    pose proof (valsWild_origin t0 g0 v (or_introl Hv) Hg) as Hw. rewrite Hc in Hw. exact Hw.
  - pose proof Hm as (A & B & C). unfold rep in H. destruct (m_values m) as [|vs vss]; [discriminate|].
    inversion C; subst. destruct vs as [|v vs]; cbn [recv negb] in H.
    + injection H as <-. split; [exact A|]. split; [right; reflexivity|assumption].
    + destruct (order_pc ord); [|discriminate]. inversion H2; subst.
      eapply fed_same; [eapply branch_io; exact H|].
      split; [exact A|]. split; [left; assumption|]. constructor; assumption.
  - destruct (unionVals W (m_out m1) (m_dot m1) vs) eqn:Eu; cbn [obind] in H; try discriminate.
    injection H as <-. apply fed_out; auto. eapply unionVals_origin; [apply HpopN|apply HpopN|exact Eu].
  - pose proof (valsWild_origin (m_tick m) (m_out m) (m_dot m) (Hdot Hm) (Hout Hm)) as Hw.
    destruct (valsWild W (m_tick m) (m_out m) (m_dot m)) as [g t]. injection H as <-.
    apply fed_tick, fed_out; auto.
  - destruct vs as [|[] rest]; try discriminate.
    match type of H with obind ?c _ = _ => destruct c as [[r t]| | |] end; cbn [obind] in H; try discriminate.
    injection H as <-. apply fed_push, fed_tick. exact HpopN.
  - injection H as <-. apply fed_push. exact HpopN.
Qed.

Lemma run_fed : (forall ord, In ord (p_orders p) -> filter_order ord -> P VNil) ->
  forall fuel m m', fed m -> run_loop fuel W p root m = OK m' -> fed m'.
Proof.
  intros Hf. induction fuel as [|fuel IH]; intros m m' Hm H; cbn [run_loop] in H;
    destruct (m_pc m <? prog_size p); try discriminate; try (injection H as <-; exact Hm).
  destruct (index_Z (p_orders p) (m_pc m)) as [ord|] eqn:E; [|discriminate].
  destruct (exec W p root ord (set_pc m (m_pc m + 1))) as [m1| | |] eqn:Ee; cbn [obind] in H; try discriminate.
  eapply IH; [|exact H]. eapply exec_fed with (m := set_pc m (m_pc m + 1)); [|exact Hm|exact Ee]. apply Hf.
  unfold index_Z in E. destruct (m_pc m <? 0); [discriminate|]. eapply nth_error_In; eauto.
Qed.

Lemma run_origin : (forall ord, In ord (p_orders p) -> filter_order ord -> P VNil) -> P root ->
  forall fuel t l, Run fuel W t p root = OK l -> Forall P l.
Proof.
  intros Hf Hr fuel t l H. unfold Run in H.
  destruct (run_loop fuel W p root (m_init t root)) as [m| | |] eqn:E; cbn [obind] in H; try discriminate.
  assert (Hm : fed m).
  { apply (run_fed Hf _ _ _) in E; auto. split; [constructor; auto|]. split; [right; reflexivity|constructor]. }
  injection H as <-. apply Hm.
Qed.
End origin.

(** whatever the program, the results are in the document or null *)
Lemma run_within : forall W p root fuel t l, orders_ok W -> Run fuel W t p root = OK l ->
  Forall (fun v => within v root \/ v = VNil) l.
Proof.
  intros W p root fuel t l HW H.
  apply (run_origin W p root (fun v => within v root \/ v = VNil)) in H; auto; [|left; constructor].
  intros v c [Hv| ->] Hc; [|destruct Hc]. left. eapply within_trans; [|exact Hv]. apply within_child. exact Hc.
Qed.

(** without filters they are in the document *)
Lemma run_within_nofilter : forall W p root fuel t l, orders_ok W ->
  (forall ord, In ord (p_orders p) -> ~ filter_order ord) -> Run fuel W t p root = OK l ->
  Forall (fun v => within v root) l.
Proof.
  intros W p root fuel t l HW Hf H.
  apply (run_origin W p root (fun v => within v root)) in H; auto; [| |constructor].
  - intros v c Hv Hc. eapply within_trans; [|exact Hv]. apply within_child. exact Hc.
  - intros ord Hi Ho. destruct (Hf ord Hi Ho).
Qed.

Lemma expr_no_filter : forall e i, wf_expr e -> In i (list_expr e) ->
  match i with IApply o _ => o <> OpFilter /\ o <> OpNestFilter | ILoop _ _ => False | _ => True end.
Proof.
  induction e using expr_tree_ind; intros i Hwf Hi; cbn [list_expr] in Hi;
    try (destruct Hi as [<-|[]]; exact I).
  apply wf_inner in Hwf as (Hkids & _ & Hin). apply in_app_or in Hi as [Hi|[<-|[]]].
  - apply in_flat_map in Hi as (k & Hk & Hi). rewrite Forall_forall in H, Hkids. exact (H k Hk i (Hkids k Hk) Hi).
  - destruct o; simpl in Hin; try (destruct Hin; discriminate); split; discriminate.
Qed.

Lemma path_filter : forall ss at_ i, wf_path ss -> In i (list_path at_ ss) ->
  match i with
  | IApply o _ => o = OpFilter \/ o = OpNestFilter -> has_filter ss
  | ILoop o _ => o = OpFor \/ o = OpNest
  | _ => True
  end.
Proof.
  induction ss as [|s ss IH]; intros at_ i Hwf Hi; [destruct Hi|].
  inversion Hwf; subst. cbn [list_path] in Hi. apply in_app_or in Hi as [Hi|Hi].
  - assert (Hb : In i (list_body s) -> match i with
      | IApply o _ => o = OpFilter \/ o = OpNestFilter -> has_filter (s :: ss)
      | ILoop o _ => False | _ => True end).
    { intro Hb. unfold list_body in Hb. apply in_app_or in Hb as [Hb|[<-|[]]].
      - apply in_flat_map in Hb as (a & Ha & Hb). pose proof (wf_step_args s H1) as Hargs.
        rewrite Forall_forall in Hargs. specialize (Hargs a Ha).
        destruct a; simpl in Hb; try (destruct Hb as [<-|[]]; exact I).
        pose proof (expr_no_filter e i Hargs Hb). destruct i; auto. intros [->| ->]; tauto.
      - intros Ho. exists s. split; [left; reflexivity|exact Ho]. }
    unfold list_step in Hi. destruct (loop_of (st_op s)) as [o|] eqn:El.
    + destruct Hi as [<-|Hi].
      * destruct (st_op s); simpl in El; try discriminate; injection El as <-; auto.
      * apply in_app_or in Hi as [Hi|[<-|[]]]; [|exact I]. specialize (Hb Hi). destruct i; auto. contradiction.
    + specialize (Hb Hi). destruct i; auto. contradiction.
  - specialize (IH _ _ H2 Hi). destruct i; auto. intro Ho. destruct (IH Ho) as (s' & Hs & Hs').
    exists s'. split; [right; exact Hs|exact Hs'].
Qed.

Lemma loads_not_filter : forall p ord v, loads p ord v -> ~ filter_order ord.
Proof.
  intros p ord v H Ho. unfold loads in H.
  specialize (H (mkWorld (mkText (fun _ => None) (fun _ => true)) (fun _ _ => true) (fun _ _ => [])
     (fun _ => []) (fun _ => []) (fun _ => 0) (fun _ n => seq 0 n)) VNil (m_start 0 [])).
  unfold exec in H. destruct Ho as [E|E]; rewrite E in H; discriminate.
Qed.

Lemma compiled_filter : forall ss p ord, wf_path ss -> Compile ss = OK p ->
  In ord (p_orders p) -> filter_order ord -> has_filter ss.
Proof.
  intros ss p ord Hwf Hc Hi Hf. pose proof (compile_encodes ss p Hwf Hc) as He.
  assert (K : exists i, In i (list_path 0 ss) /\ encodes p ord i).
  { clear - He Hi. induction He; [destruct Hi|]. destruct Hi as [<-|Hi].
    - exists y. split; [left; reflexivity|assumption].
    - destruct (IHHe Hi) as (i & A & B). exists i. split; [right; exact A|exact B]. }
  destruct K as (i & Hin & Hen). pose proof (path_filter ss 0 i Hwf Hin) as Hp.
  destruct i; simpl in Hen.
  - destruct (loads_not_filter _ _ _ Hen Hf).
  - destruct Hf as [Hf|Hf]; rewrite Hf in Hen; discriminate.
  - destruct Hf as [Hf|Hf]; rewrite Hf in Hen; discriminate.
  - destruct Hen as [Ho _]. apply Hp. destruct Hf as [Hf|Hf]; rewrite Hf in Ho; injection Ho as <-; auto.
  - destruct Hen as [Ho _]. destruct Hp as [-> | ->]; destruct Hf as [Hf|Hf]; rewrite Hf in Ho; discriminate.
  - destruct Hen as [Ho _]. destruct Hf as [Hf|Hf]; rewrite Hf in Ho; discriminate.
Qed.

Lemma compiled_within : forall W ss p root fuel t l, orders_ok W -> wf_path ss -> Compile ss = OK p ->
  Run fuel W t p root = OK l -> Forall (fun v => within v root \/ (v = VNil /\ has_filter ss)) l.
Proof.
  intros W ss p root fuel t l HW Hwf Hc H.
  apply (run_origin W p root (fun v => within v root \/ (v = VNil /\ has_filter ss))) in H; auto; [| |left; constructor].
  - intros v c [Hv|[-> Hf]] Hch; [|destruct Hch]. left. eapply within_trans; [|exact Hv]. apply within_child. exact Hch.
  - intros ord Hi Ho. right. split; [reflexivity|]. eapply compiled_filter; eauto.
Qed.
