(** Bounds on the number of values a path iterates over. *)
From Coq Require Import Permutation.
From Verif Require Import SpecSyntax Machine Coder Eval CoderProofs SpecDoc DocProofs SpecSelect
  SpecRun SliceProofs SelectProofs WalkProofs ExprProofs StepProofs SpecCost.
Local Open Scope nat_scope.

Lemma nodes_pos : forall v, 1 <= nodes v.
Proof. destruct v; simpl; lia. Qed.
Lemma levels_pos : forall v, 1 <= levels v.
Proof. destruct v; simpl; lia. Qed.

Lemma weight_app : forall a b, weight (a ++ b) = weight a + weight b.
Proof. intros. unfold weight. rewrite map_app, list_sum_app. reflexivity. Qed.
Lemma weight_cons : forall v l, weight (v :: l) = nodes v + weight l.
Proof. reflexivity. Qed.
Lemma length_weight : forall l, length l <= weight l.
Proof.
  induction l as [|v l IH]; [simpl; lia|]. rewrite weight_cons. pose proof (nodes_pos v). simpl. lia.
Qed.

Lemma nodes_children : forall v, weight (children v) < nodes v.
Proof.
  destruct v; unfold weight; simpl; try lia. rewrite map_map. lia.
Qed.
Lemma levels_child : forall v c, In c (children v) -> levels c < levels v.
Proof.
  intros v c H. assert (K : forall l, In c l -> levels c <= list_max (map levels l)).
  { intros l Hl. assert (HF := proj1 (list_max_le (map levels l) (list_max (map levels l))) (le_n _)).
    rewrite Forall_forall in HF. apply HF. apply in_map. exact Hl. }
  destruct v; simpl in H; try contradiction; simpl.
  - specialize (K _ H). lia.
  - specialize (K _ H). rewrite map_map in K. lia.
Qed.

Lemma weight_perm : forall a b, Permutation a b -> weight a = weight b.
Proof. intros a b H. induction H; rewrite ?weight_cons; try lia. Qed.

Lemma weight_children_in : forall v l, children_in_order v l -> weight l = weight (children v).
Proof.
  intros v l H. destruct H; simpl; auto.
  - apply weight_perm. apply Permutation_map. symmetry. exact H.
  - destruct v; try discriminate; reflexivity.
Qed.

(** ** Producers *)
Lemma gathers_weight : forall (pick : val -> list val -> Prop) k cands r,
  (forall v l, In v cands -> pick v l -> weight l <= k * nodes v) -> gathers pick cands r ->
  weight r <= k * weight cands.
Proof.
  intros pick k cands r H (ls & Hls & ->). induction Hls; simpl; [unfold weight; simpl; lia|].
  rewrite weight_app, weight_cons. pose proof (H _ _ (or_introl eq_refl) H0).
  specialize (IHHls (fun v l Hv => H v l (or_intror Hv))). lia.
Qed.

Lemma stepping_weight : forall W, orders_ok W -> forall cands t,
  weight (fst (stepping W t cands)) <= weight cands.
Proof.
  intros W HW cands t.
  assert (K : weight (fst (stepping W t cands)) <= 1 * weight cands); [|lia].
  eapply gathers_weight; [|apply (stepping_gathers W HW cands t)].
  intros v l Hv Hp. rewrite (weight_children_in _ _ Hp). pose proof (nodes_children v). lia.
Qed.

Lemma walks_weight : forall v l, walks v l -> weight l <= levels v * nodes v /\ length l <= nodes v.
Proof.
  intro v. remember (levels v) as n eqn:E. revert v E.
  induction n as [n IH] using (well_founded_induction lt_wf). intros v E l H.
  assert (K : forall cs ls, incl cs (children v) -> Forall2 walks cs ls ->
    weight (concat ls) <= (n - 1) * weight cs /\ length (concat ls) <= weight cs).
  { intros cs ls Hi Hf. induction Hf; [unfold weight; simpl; lia|].
    rewrite weight_cons. cbn [concat]. rewrite weight_app, app_length.
    assert (Hx : In x (children v)) by (apply Hi; left; reflexivity).
    pose proof (levels_child v x Hx) as Hlx.
    destruct (IH (levels x) ltac:(lia) x eq_refl y H0) as [A B].
    destruct IHHf as [C D]; [intros z Hz; apply Hi; right; exact Hz|]. split; [|lia]. nia. }
  pose proof (levels_pos v) as Hp. pose proof (nodes_children v) as Hc. inversion H; subst.
  - destruct (K l0 ls) as [A B]; [intros z Hz; exact Hz|auto|]. rewrite weight_cons.
    change (children (VArr l0)) with l0 in Hc. cbn [length]. split; [|lia]. nia.
  - destruct (K (map snd m') ls) as [A B]; [|auto|].
    { intros z Hz. simpl. eapply Permutation_in; [|exact Hz]. apply Permutation_map. symmetry. auto. }
    rewrite (weight_perm (map snd m') (map snd m)) in A, B by (apply Permutation_map; symmetry; auto).
    rewrite weight_cons. change (children (VObj m)) with (map snd m) in Hc. cbn [length]. split; [|lia]. nia.
  - unfold weight; simpl. lia.
Qed.

Lemma walker_weight : forall W, orders_ok W -> forall h cands t, Forall (fun v => levels v <= h) cands ->
  weight (fst (walker W t cands)) <= h * weight cands /\ length (fst (walker W t cands)) <= weight cands.
Proof.
  intros W HW h cands t Hh. pose proof (walker_gathers W HW cands t) as Hg. split.
  - apply (gathers_weight walks h cands); auto. intros v l Hv Hw. rewrite Forall_forall in Hh.
    specialize (Hh v Hv). destruct (walks_weight v l Hw). pose proof (nodes_pos v). nia.
  - destruct Hg as (ls & Hls & ->). clear Hh. induction Hls; simpl; [lia|].
    rewrite app_length, weight_cons. destruct (walks_weight _ _ H). lia.
Qed.

(** ** Selectors *)
Lemma sum_incl : forall (f : Z -> nat) a b, NoDup a -> incl a b ->
  list_sum (map f a) <= list_sum (map f b).
Proof.
  intros f a. induction a as [|x a IH]; intros b Hn Hi; [simpl; lia|].
  inversion Hn; subst. destruct (in_split x b (Hi x (or_introl eq_refl))) as (b1 & b2 & ->).
  assert (Hi' : incl a (b1 ++ b2)).
  { intros y Hy. specialize (Hi y (or_intror Hy)). apply in_app_or in Hi as [Hi|[Hi|Hi]].
    - apply in_or_app; auto.
    - subst. contradiction.
    - apply in_or_app; auto. }
  specialize (IH _ H2 Hi'). rewrite map_app, list_sum_app in *. simpl. lia.
Qed.

Lemma sum_positions : forall (l : list val) k,
  list_sum (map (fun i => match nth_error l (Z.to_nat (i - Z.of_nat k)) with Some x => nodes x | None => 0 end)
    (map Z.of_nat (seq k (length l)))) = weight l.
Proof.
  induction l as [|v l IH]; intro k; [reflexivity|]. cbn [length seq map list_sum fold_right].
  replace (Z.to_nat (Z.of_nat k - Z.of_nat k)) with 0 by lia. cbn [nth_error].
  rewrite weight_cons. f_equal. rewrite <- (IH (S k)). unfold list_sum. f_equal.
  apply map_ext_in. intros i Hi. apply in_map_iff in Hi as (j & <- & Hj). apply in_seq in Hj.
  replace (Z.to_nat (Z.of_nat j - Z.of_nat k)) with (S (Z.to_nat (Z.of_nat j - Z.of_nat (S k)))) by lia.
  reflexivity.
Qed.

Lemma elems_weight : forall l ps xs, NoDup ps -> (forall i, In i ps -> (0 <= i < Z.of_nat (length l))%Z) ->
  Forall2 (elem l) ps xs -> weight xs <= weight l.
Proof.
  intros l ps xs Hn Hr Hf.
  set (f := fun i => match nth_error l (Z.to_nat (i - Z.of_nat 0)) with Some x => nodes x | None => 0 end).
  assert (E : weight xs = list_sum (map f ps)).
  { clear Hn Hr. induction Hf; [reflexivity|]. rewrite weight_cons. simpl. rewrite IHHf. f_equal.
    destruct H as [H0 H1]. unfold f. simpl Z.of_nat. rewrite Z.sub_0_r, H1. reflexivity. }
  rewrite E, <- (sum_positions l 0). apply sum_incl; auto.
  intros i Hi. specialize (Hr i Hi). apply in_map_iff. exists (Z.to_nat i). split; [lia|]. apply in_seq. lia.
Qed.

Lemma progression_nodup : forall from c n, c <> 0%Z -> NoDup (progression from c n).
Proof.
  intros from c n Hc. unfold progression. apply FinFun.Injective_map_NoDup; [|apply seq_NoDup].
  intros i j H. nia.
Qed.

Lemma positions_nodup : forall len a b c ps, slice_positions len a b c ps -> NoDup ps.
Proof. intros len a b c ps H. destruct H; try (apply progression_nodup; lia). constructor. Qed.

Lemma picks_weight : forall s v l, picks s v l -> weight l <= nodes v.
Proof.
  assert (Hin : forall v x, In x (children v) -> weight [x] <= nodes v).
  { intros v x Hx. pose proof (nodes_children v).
    destruct (in_split x (children v) Hx) as (a & b & E). rewrite E in H.
    rewrite weight_app, weight_cons in H. rewrite weight_cons. unfold weight at 1; simpl. lia. }
  assert (Hname : forall k v l, picks_name k v l -> weight l <= nodes v).
  { intros k v l H. destruct H; try (unfold weight; simpl; lia).
    apply Hin. simpl. apply (in_map snd _ (k, x)). exact H. }
  intros s v l H. destruct H; eauto; try (unfold weight; simpl; lia).
  - apply Hin. simpl. destruct H0. eapply nth_error_In; eauto.
  - pose proof (nodes_children (VArr l)).
    assert (weight xs <= weight l); [|change (children (VArr l)) with l in H1; lia].
    eapply elems_weight; [eapply positions_nodup; eauto| |eauto].
    intros i Hi. eapply positions_range; eauto. lia.
Qed.

Section steps.
Variable W : world.
Variable root : val.
Variable h : nat.
Hypothesis Hperm : orders_ok W.
Hypothesis root_noslice : noslice root.

(** values with at most [h] levels *)
Definition low (v : val) : Prop := doc v /\ levels v <= h.

Lemma low_child : forall v c, low v -> In c (children v) -> low c.
Proof.
  intros v c [H1 H2] Hc. split; [eapply doc_child; eauto|]. pose proof (levels_child v c Hc). lia.
Qed.
Lemma low_node : forall v, low v -> json_node v.
Proof. intros v [H _]. apply doc_node. exact H. Qed.
Notation okkey := (okkey low false).
Notation ready := (ready low).

Lemma valsByKey_weight : forall acc v k neg g, okkey k -> ready v ->
  valsByKey W acc v k neg = OK g -> weight (g_list g) <= weight (g_list acc) + nodes v.
Proof.
  intros acc v k neg g Hk (Hj & _) H.
  assert (Hin : forall x, In x (children v) -> weight [x] <= nodes v).
  { intros x Hx. pose proof (nodes_children v).
    destruct (in_split x (children v) Hx) as (a & b & E). rewrite E in H0.
    rewrite weight_app, weight_cons in H0. rewrite weight_cons. unfold weight at 1; simpl. lia. }
  destruct Hk as [Hk|(sl & -> & Hg1 & Hg2 & Hg3 & _)].
  - assert (E : valsByKey W acc v k neg = OK (match v with
      | VArr _ => if isInt k then match valByKey W v k neg with Some x => g_append acc x | None => acc end else acc
      | VObj _ => match valByKey W v k false with Some x => g_append acc x | None => acc end
      | _ => acc end)).
    { unfold valsByKey. destruct k; try discriminate Hk; destruct v; reflexivity. }
    rewrite E in H. injection H as <-.
    destruct v; try lia.
    + destruct (isInt k); [|lia]. destruct (valByKey W (VArr l) k neg) eqn:Ev; [|lia].
      rewrite g_list_append, weight_app. pose proof (Hin v ltac:(eapply valByKey_child; eauto; reflexivity)). lia.
    + destruct (valByKey W (VObj m) k false) eqn:Ev; [|lia].
      rewrite g_list_append, weight_app. pose proof (Hin v ltac:(eapply valByKey_child; eauto; reflexivity)). lia.
  - destruct v; try (injection H as <-; unfold weight; simpl; lia).
    destruct (slice_keys W acc l sl neg _ _ _ eq_refl Hj Hg1 Hg2 Hg3)
      as [(g' & xs & E & Hgl & _ & _ & Hp)|[E _]]; rewrite E in H; [|discriminate].
    injection H as <-. rewrite Hgl, weight_app. apply picks_weight in Hp. lia.
Qed.

Lemma keyed_weight : forall neg kvs acc g,
  Forall (fun kv => okkey (fst kv) /\ ready (snd kv)) kvs -> keyed W neg acc kvs = OK g ->
  weight (g_list g) <= weight (g_list acc) + weight (map snd kvs).
Proof.
  intros neg kvs. induction kvs as [|[k v] kvs IH]; intros acc g Hf H.
  - injection H as <-. unfold weight; simpl; lia.
  - inversion Hf as [|? ? [Hk Hv] Hr]; subst. cbn [fst snd keyed map] in *.
    destruct (valsByKey W acc v k neg) as [g1| | |] eqn:E; cbn [obind] in H; try discriminate.
    pose proof (valsByKey_weight _ _ _ _ _ Hk Hv E). specialize (IH _ _ Hr H).
    rewrite weight_cons. lia.
Qed.

Lemma pairs_weight : forall keys cands, weight (map snd (pairs keys cands)) = length keys * weight cands.
Proof.
  intros keys cands. induction cands as [|v cands IH]; [unfold weight; simpl; lia|].
  rewrite pairs_cons, map_app, weight_app, IH, weight_cons.
  assert (E : weight (map snd (map (fun k => (k, v)) keys)) = length keys * nodes v).
  { clear IH. induction keys; [reflexivity|]. cbn [map snd]. rewrite weight_cons, IHkeys. simpl. lia. }
  rewrite E. lia.
Qed.

Lemma live_length : forall vs, length (live vs) <= length vs.
Proof. intro vs. unfold live. induction vs; simpl; auto. destruct (negb (isNothing a)); simpl; lia. Qed.

Definition lows (out : gslice) : Prop := Forall low (g_list out).

(** arguments of one step *)
Definition fan (s : pstep) : nat :=
  match st_op s with OpUnion | OpNestUnion => length (st_args s) | _ => 1 end.

Lemma fan_args : forall s, wf_step s -> is_select (st_op s) = true \/ is_nest_select (st_op s) = true ->
  fan s = length (st_args s).
Proof. intros s H Hs. inversion H; subst; destruct Hs; try discriminate; reflexivity. Qed.

Lemma body_weight : forall s dot out t out' t', wf_step s -> loop_op (st_op s) = true ->
  ready dot -> ev_body W root s dot out t = OK (out', t') ->
  weight (g_list out') <= weight (g_list out) + fan s * nodes dot.
Proof.
  intros s dot out t out' t' Hwf Hl Hd H. pose proof (guard_of_wf low s Hwf) as Hg.
  destruct (ev_args_ok W root low false root_noslice dot (st_args s) (proj2 (proj2 (proj2 Hd))) Hg t) as [_ Hk].
  destruct (is_nest_select (st_op s)) eqn:Es.
  - rewrite body_keyed in H by assumption. rewrite (fan_args s Hwf) by auto.
    pose proof (ev_args_length W root dot (st_args s) t) as Hlen.
    destruct (ev_args W root dot t (st_args s)) as [[vs t1]| | |]; cbn [obind] in H; try discriminate.
    specialize (Hlen _ _ eq_refl).
    destruct (keyed W (counts_back (st_op s)) out (pairs (live vs) [dot])) as [g| | |] eqn:E;
      cbn [obind] in H; try discriminate. injection H as <- <-.
    pose proof (keyed_weight _ _ _ _ (pairs_ready low false (live vs) [dot]
      (live_ok low false vs (Hk _ _ eq_refl)) (Forall_cons _ Hd (Forall_nil _))) E) as Hw.
    rewrite pairs_weight, weight_cons in Hw. pose proof (live_length vs).
    unfold weight at 3 in Hw. simpl in Hw. nia.
  - unfold ev_body in H. pose proof (wf_step_ok s Hwf) as Hok.
    pose proof (ev_args_length W root dot (st_args s) t) as Hlen.
    destruct (ev_args W root dot t (st_args s)) as [[vs t1]| | |] eqn:E; cbn [obind] in H; try discriminate.
    specialize (Hlen vs t1 eq_refl). rewrite <- Hlen in Hok. unfold fan.
    destruct (st_op s); try discriminate Hl; try discriminate Es; simpl in Hok.
    + destruct vs as [|v [|]]; simpl in Hok; try lia. injection H as <- <-.
      destruct (negb (isNothing v) && cvb W v); [|lia]. rewrite g_list_append, weight_app, weight_cons.
      unfold weight at 2. simpl. lia.
    + destruct vs; simpl in Hok; try lia. injection H as H.
      destruct (valsWild_list W Hperm t1 out dot) as (l & El & Hl' & _).
      rewrite H in El. cbn [fst] in El. rewrite El, weight_app.
      rewrite (weight_children_in _ _ Hl'). pose proof (nodes_children dot). lia.
    + destruct vs as [|v [|]]; simpl in Hok; try lia. injection H as <- <-.
      destruct (negb (isNothing v) && cvb W v); [|lia]. rewrite g_list_append, weight_app, weight_cons.
      unfold weight at 2. simpl. lia.
Qed.

Lemma loop_weight : forall s, wf_step s -> loop_op (st_op s) = true ->
  forall dots out t out' t', Forall ready dots -> ev_loop W root s dots out t = OK (out', t') ->
  weight (g_list out') <= weight (g_list out) + fan s * weight dots.
Proof.
  intros s Hwf Hl dots. induction dots as [|d dots IH]; intros out t out' t' Hr H; cbn [ev_loop] in H.
  - injection H as <- <-. lia.
  - inversion Hr; subst. destruct (ev_body W root s d out t) as [[out1 t1]| | |] eqn:E; cbn [obind] in H; try discriminate.
    pose proof (body_weight _ _ _ _ _ _ Hwf Hl H2 E). specialize (IH _ _ _ _ H3 H). rewrite weight_cons. lia.
Qed.

Lemma wild_weight : forall cands acc t g t',
  applySelection_loop (fun t v acc => @OK rerr _ (valsWild W t acc v)) t cands acc = OK (g, t') ->
  weight (g_list g) <= weight (g_list acc) + weight cands.
Proof.
  induction cands as [|v cands IH]; intros acc t g t' H; cbn [applySelection_loop] in H.
  - injection H as <- <-. lia.
  - destruct (valsWild_list W Hperm t acc v) as (l & El & Hl & _).
    destruct (valsWild W t acc v) as [g1 t1]. cbn [obind fst] in *. specialize (IH _ _ _ _ H).
    rewrite El, weight_app, (weight_children_in _ _ Hl) in IH. pose proof (nodes_children v).
    rewrite weight_cons. lia.
Qed.

Lemma step_weight : forall s out t out' t', wf_step s -> 1 <= h -> lows out ->
  ev_step W root s out t = OK (out', t') ->
  weight (g_list out') <= growth h s * weight (g_list out).
Proof.
  intros s out t out' t' Hwf Hh Hout H.
  assert (Hls : forall producer k, loop_op (st_op s) = true ->
    (forall cands t, Forall low cands -> Forall low (fst (producer t cands)) /\
       weight (fst (producer t cands)) <= k * weight cands) -> 1 <= k ->
    ev_loop_step W root producer s out t = OK (out', t') ->
    weight (g_list out') <= fan s * k * weight (g_list out)).
  { intros producer k Hl Hp Hk1 K. unfold ev_loop_step in K. unfold lows in Hout.
    destruct (g_list out) as [|v0 l0] eqn:Eo.
    - injection K as <- <-. rewrite Eo. unfold weight; simpl. lia.
    - destruct (Hp (v0 :: l0) t Hout) as [Hp1 Hp2]. destruct (producer t (v0 :: l0)) as [vs t1]. cbn [fst] in *.
      apply loop_weight in K; auto.
      2:{ apply loop_dots_ready with (P := low); eauto using low_child, low_node. }
      change (weight (g_list (Some []))) with 0 in K. cbn [plus] in K.
      assert (weight (loop_dots vs) <= k * weight (v0 :: l0)); [|nia].
      destruct vs; [|exact Hp2]. unfold loop_dots, weight at 1. simpl.
      pose proof (nodes_pos v0). rewrite weight_cons. nia. }
  assert (Hstep : forall cands t, Forall low cands -> Forall low (fst (stepping W t cands)) /\
       weight (fst (stepping W t cands)) <= 1 * weight cands).
  { intros cands t0 Hc. split.
    - apply dots_stepping; eauto using low_child.
    - pose proof (stepping_weight W Hperm cands t0). lia. }
  assert (Hwalk : forall cands t, Forall low cands -> Forall low (fst (walker W t cands)) /\
       weight (fst (walker W t cands)) <= h * weight cands).
  { intros cands t0 Hc. split.
    - apply dots_walker; eauto using low_child.
    - apply walker_weight; auto. eapply Forall_impl; [|exact Hc]. intros v [_ Hv]. exact Hv. }
  destruct (is_select (st_op s)) eqn:Es.
  - rewrite step_keyed in H by assumption. pose proof (guard_of_wf low s Hwf) as Hg.
    pose proof (nil_ready low) as Hnr.
    destruct (ev_args_ok W root low false root_noslice VNil (st_args s) (proj2 (proj2 (proj2 Hnr))) Hg t) as [_ Hk].
    pose proof (ev_args_length W root VNil (st_args s) t) as Hlen.
    destruct (ev_args W root VNil t (st_args s)) as [[vs t1]| | |]; cbn [obind] in H; try discriminate.
    specialize (Hlen _ _ eq_refl).
    destruct (keyed W (counts_back (st_op s)) (Some []) (pairs (live vs) (g_list out))) as [g| | |] eqn:E;
      cbn [obind] in H; try discriminate. injection H as <- <-.
    assert (HrO : Forall ready (g_list out)).
    { eapply Forall_impl; [|exact Hout]. intros. apply P_ready; eauto using low_child, low_node. }
    pose proof (keyed_weight _ _ _ _ (pairs_ready low false (live vs) (g_list out)
      (live_ok low false vs (Hk _ _ eq_refl)) HrO) E) as Hw.
    rewrite pairs_weight in Hw. pose proof (live_length vs).
    assert (growth h s = length (st_args s)).
    { rewrite <- (fan_args s Hwf) by auto. unfold growth, fan. destruct (st_op s); try discriminate Es; reflexivity. }
    unfold weight at 2 in Hw. simpl in Hw. nia.
  - pose proof (wf_step_ok s Hwf) as Hok. unfold ev_step in H.
    assert (Hgr : growth h s = fan s * (match st_op s with OpFilter | OpWild => 1 | _ => h end)).
    { unfold growth, fan. destruct (st_op s); try contradiction Hok; try discriminate Es; lia. }
    rewrite Hgr.
    destruct (st_op s) eqn:Eo; try contradiction Hok; try discriminate Es;
      try (eapply Hls; eauto; fail).
    simpl in Hok. destruct (st_args s); simpl in Hok; try lia. cbn [ev_args obind] in H.
    unfold applySelection in H. apply wild_weight in H. unfold weight at 2 in H. simpl in H.
    unfold fan. rewrite Eo. lia.
Qed.

Lemma step_iters_bound : forall s out t, wf_step s -> lows out ->
  step_iters W s out t <= if iterates s then weight (g_list out) else 0.
Proof.
  intros s out t Hwf Hout. unfold step_iters, iterates. unfold lows in Hout.
  destruct (g_list out) as [|v l] eqn:E; [destruct (st_op s); lia|].
  assert (Hd : forall vs, length vs <= weight (v :: l) -> length (loop_dots vs) <= weight (v :: l)).
  { intros vs Hv. destruct vs; auto. simpl. rewrite weight_cons. pose proof (nodes_pos v). lia. }
  assert (Hs : length (fst (stepping W t (v :: l))) <= weight (v :: l)).
  { pose proof (stepping_weight W Hperm (v :: l) t). pose proof (length_weight (fst (stepping W t (v :: l)))). lia. }
  assert (Hw : length (fst (walker W t (v :: l))) <= weight (v :: l)).
  { apply (walker_weight W Hperm h). eapply Forall_impl; [|exact Hout]. intros x [_ Hx]. exact Hx. }
  destruct (st_op s); auto; lia.
Qed.

Lemma growth_mono : forall s w w', w <= w' -> growth h s * w <= growth h s * w'.
Proof. intros. nia. Qed.

Lemma visits_mono : forall ss w w', w <= w' -> visits h w ss <= visits h w' ss.
Proof.
  induction ss as [|s ss IH]; intros w w' H; simpl; [lia|].
  specialize (IH _ _ (growth_mono s w w' H)). destruct (iterates s); lia.
Qed.

Lemma path_iters_bound : forall ss, wf_path ss -> 1 <= h -> forall out t, lows out ->
  path_iters W root ss out t <= visits h (weight (g_list out)) ss.
Proof.
  induction ss as [|s ss IH]; intros Hwf Hh out t Hout; [simpl; lia|].
  inversion Hwf; subst. cbn [path_iters visits].
  pose proof (step_iters_bound s out t H1 Hout).
  assert (Hnil : is_filter (st_op s) = true -> low VNil).
  { intros _. split; [apply doc_nil|exact Hh]. }
  destruct (step_outcome W root low false Hperm low_child low_node root_noslice
    s out t H1 (guard_of_wf low s H1) Hnil Hout) as [_ Ho].
  destruct (ev_step W root s out t) as [[out' t']| | |] eqn:E; try lia.
  specialize (IH H2 Hh out' t' (Ho _ _ eq_refl)).
  pose proof (step_weight s out t out' t' H1 Hh Hout E).
  pose proof (visits_mono ss _ _ H0). lia.
Qed.
End steps.
