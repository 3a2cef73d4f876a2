(** What the steps of a path can yield: values of the document, and no panics when the
    strides of slices are not too large. *)
From Coq Require Import Permutation.
From Verif Require Import SpecSyntax Machine Coder Eval CoderProofs SpecDoc DocProofs SpecSelect
  SpecRun SliceProofs SelectProofs WalkProofs ExprProofs.
Local Open Scope Z_scope.

Lemma positions_range : forall len a b c ps i, 0 <= len -> slice_positions len a b c ps ->
  In i ps -> 0 <= i < len.
Proof.
  intros len a b c ps i Hlen H Hi. destruct H as [s n Hs Hp from to Hn|s n Hs Hp from to Hn|Hz].
  - apply in_map_iff in Hi as (k & <- & Hk). apply in_seq in Hk.
    assert (0 <= from <= len) by (apply clip_range; lia).
    assert (0 <= to <= len) by (apply clip_range; lia).
    pose proof (Hn k). nia.
  - apply in_map_iff in Hi as (k & <- & Hk). apply in_seq in Hk.
    assert (-1 <= from <= len - 1) by (apply clip_range; lia).
    assert (-1 <= to <= len - 1).
    { subst to. destruct b; [apply clip_range; lia|lia]. }
    pose proof (Hn k). nia.
  - destruct Hi.
Qed.

Lemma no_overflow : forall len a b c, 0 <= len -> or_default 1 c <= max_int64 - len + 1 ->
  ~ overflowing len a b c.
Proof.
  intros len a b c Hlen Hc (ps & i & Hps & Hi).
  assert (0 <= i < len) by (eapply positions_range; eauto; apply in_or_app; right; left; reflexivity).
  lia.
Qed.

Section steps.
Variable W : world.
Variable root : val.
Variable P : val -> Prop.
(** whether panics are to be excluded, which needs a condition on the slices *)
Variable strict : bool.
Hypothesis Hperm : orders_ok W.
Hypothesis P_child : forall v c, P v -> In c (children v) -> P c.
Hypothesis P_node : forall v, P v -> json_node v.
Hypothesis root_noslice : noslice root.

Lemma P_within : forall x v, within x v -> P v -> P x.
Proof.
  intros x v H. induction H; intro Hv; auto.
  - apply IHwithin. eapply P_child; eauto.
  - apply IHwithin. eapply P_child; [exact Hv|]. apply (in_map snd _ (k, e)). exact H.
Qed.

Lemma P_noslice : forall v, P v -> noslice v.
Proof. intros v Hv s Hs. apply (P_node (VSlice s)). eapply P_within; eauto. Qed.

(** what a value must be like for selecting from it *)
Definition ready (v : val) : Prop :=
  json_node v /\ (forall c, In c (children v) -> P c) /\
  (forall l, v = VArr l -> P v) /\ noslice v.

Lemma P_ready : forall v, P v -> ready v.
Proof.
  intros v Hv. split; [auto|]. split; [intros; eapply P_child; eauto|].
  split; [auto|]. apply P_noslice; auto.
Qed.

Lemma nil_ready : ready VNil.
Proof.
  split; [exact I|]. split; [intros c []|]. split; [discriminate|]. apply noslice_atom; reflexivity.
Qed.

(** results that are not excluded *)
Definition fine {A} (r : M A) : Prop := r <> OutOfFuel /\ (strict = true -> r <> Panics).

Lemma clean_fine : forall A (r : M A), clean r -> fine r.
Proof. intros A r [H1 H2]. split; auto. Qed.
Lemma fine_ok : forall A (a : A), fine (OK a).
Proof. intros. split; discriminate. Qed.
Lemma fine_fail : forall A (e : rerr), fine (@Fail rerr A e).
Proof. intros. split; discriminate. Qed.
Lemma fine_bind : forall A B (x : M A) (f : A -> M B), fine x ->
  (forall a, x = OK a -> fine (f a)) -> fine (obind x f).
Proof. intros A B x f [H1 H2] H. destruct x; simpl; auto; split; try discriminate; intros; specialize (H2 H0) || idtac; congruence. Qed.
Hint Resolve fine_ok fine_fail : core.

(** slices that do not overflow *)
Definition slice_guard (sl : slice) : Prop :=
  in_oint64 (bound_int (sl_start sl)) /\ in_oint64 (bound_int (sl_end sl)) /\
  in_oint64 (bound_int (sl_stride sl)) /\
  (strict = true -> forall l, P (VArr l) -> ~ overflowing (Z.of_nat (length l))
     (bound_int (sl_start sl)) (bound_int (sl_end sl)) (bound_int (sl_stride sl))).

Definition okkey (k : val) : Prop :=
  isSlice k = false \/ exists sl, k = VSlice sl /\ slice_guard sl.

Lemma index_child : forall (l : list val) i x, index_Z l i = Some x -> In x l.
Proof.
  intros l i x H. unfold index_Z in H. destruct (i <? 0); [discriminate|].
  eapply nth_error_In; eauto.
Qed.

Lemma valByKey_child : forall v k neg x, IsStructure v = true ->
  valByKey W v k neg = Some x -> In x (children v).
Proof.
  intros v k neg x Hs H. destruct v; try discriminate Hs; cbn [valByKey] in H.
  - match type of H with (if ?c then _ else _) = _ => destruct c end; [|discriminate].
    eapply index_child; eauto.
  - simpl. apply lookup_in in H as [k' H]. apply (in_map snd _ (k', x)). exact H.
Qed.

Lemma elems_children : forall l ps xs, Forall2 (elem l) ps xs -> Forall (fun x => In x l) xs.
Proof.
  intros l ps xs H. induction H; constructor; auto. destruct H as [_ H]. eapply nth_error_In; eauto.
Qed.

Lemma valsByKey_ready : forall acc v k neg, okkey k -> ready v -> Forall P (g_list acc) ->
  fine (valsByKey W acc v k neg) /\
  forall g, valsByKey W acc v k neg = OK g -> Forall P (g_list g).
Proof.
  intros acc v k neg Hk (Hj & Hc & Ha & _) Hacc.
  destruct Hk as [Hk|(sl & -> & Hg)].
  - assert (E : valsByKey W acc v k neg = OK (match v with
      | VArr _ => if isInt k then match valByKey W v k neg with Some x => g_append acc x | None => acc end else acc
      | VObj _ => match valByKey W v k false with Some x => g_append acc x | None => acc end
      | _ => acc end)).
    { unfold valsByKey. destruct k; try discriminate Hk; destruct v; reflexivity. }
    rewrite E. split; [auto|]. intros g Hg. injection Hg as <-.
    assert (Happ : forall x, In x (children v) -> Forall P (g_list (g_append acc x))).
    { intros x Hx. simpl. apply Forall_app. split; auto. }
    destruct v; auto.
    + destruct (isInt k); auto. destruct (valByKey W (VArr l) k neg) eqn:Ev; auto.
      apply Happ. eapply valByKey_child; eauto; reflexivity.
    + destruct (valByKey W (VObj m) k false) eqn:Ev; auto.
      apply Happ. eapply valByKey_child; eauto; reflexivity.
  - destruct Hg as (Hg1 & Hg2 & Hg3 & Hg4).
    destruct v; try (split; [apply fine_ok|]; intros g Hg; injection Hg as <-; constructor).
    specialize (Ha l eq_refl).
    destruct (slice_keys W acc l sl neg _ _ _ eq_refl Hj Hg1 Hg2 Hg3)
      as [(g & xs & E & Hgl & _ & _ & Hp)|[H Ho]].
    + rewrite E. split; [auto|]. intros g' Hg'. injection Hg' as <-. rewrite Hgl. apply Forall_app. split; auto.
      inversion Hp; subst; [|discriminate].
      match goal with H : Forall2 (elem l) _ _ |- _ => apply elems_children in H end.
      eapply Forall_impl; [|eassumption]. intros x Hx. apply Hc. exact Hx.
    + rewrite H. split; [|discriminate]. split; [discriminate|]. intro Hst.
      exfalso. exact (Hg4 Hst l Ha Ho).
Qed.

Lemma keyed_ready : forall neg kvs acc,
  Forall (fun kv => okkey (fst kv) /\ ready (snd kv)) kvs -> Forall P (g_list acc) ->
  fine (keyed W neg acc kvs) /\ forall g, keyed W neg acc kvs = OK g -> Forall P (g_list g).
Proof.
  intros neg kvs. induction kvs as [|[k v] kvs IH]; intros acc H Hacc.
  - split; [apply fine_ok|]. intros g Hg. injection Hg as <-. exact Hacc.
  - inversion H as [|? ? [Hk Hv] Hr]; subst. cbn [fst snd keyed] in *.
    destruct (valsByKey_ready acc v k neg Hk Hv Hacc) as [Hf Hg]. split.
    + apply fine_bind; auto. intros g Eg. apply IH; auto.
    + intros g' E. destruct (valsByKey W acc v k neg) as [g| | |]; cbn [obind] in E; try discriminate.
      apply (proj2 (IH g Hr (Hg g eq_refl)) _ E).
Qed.

Lemma pairs_ready : forall keys cands, Forall okkey keys -> Forall ready cands ->
  Forall (fun kv => okkey (fst kv) /\ ready (snd kv)) (pairs keys cands).
Proof.
  intros keys cands Hk Hc. rewrite Forall_forall in *. intros [k v] Hin.
  apply in_flat_map in Hin as (v' & Hv & Hin). apply in_map_iff in Hin as (k' & E & Hk').
  injection E as -> ->. auto.
Qed.

Lemma live_ok : forall keys, Forall okkey keys -> Forall okkey (live keys).
Proof.
  intros keys H. rewrite Forall_forall in *. intros k Hk. apply filter_In in Hk as [Hk _]. auto.
Qed.

(** ** Arguments *)
Definition arg_guard (a : pval) : Prop :=
  match a with PSlice sl => slice_guard sl | PExpr e => wf_expr e | _ => True end.

Lemma ev_args_ok : forall dot args, noslice dot -> Forall arg_guard args -> forall t,
  clean (ev_args W root dot t args) /\
  forall vs t', ev_args W root dot t args = OK (vs, t') -> Forall okkey vs.
Proof.
  intros dot args Hdot H. induction H as [|a args Ha Hr IH]; intro t; cbn [ev_args].
  - split; auto. intros vs t' Hv. injection Hv as <- <-. constructor.
  - assert (Harg : clean (ev_arg W root dot t a) /\
      forall v t', ev_arg W root dot t a = OK (v, t') -> okkey v).
    { destruct a; cbn [ev_arg]; try (split; [auto|]; intros v t' E; injection E as <- <-; left; reflexivity).
      - split; auto. intros v t' E. injection E as <- <-. right. eauto.
      - simpl in Ha. split; [apply ev_clean; auto|]. intros v t' E.
        left. pose proof (ev_noslice W root e Ha root_noslice dot Hdot _ _ _ E) as Hv.
        destruct v; try reflexivity. exfalso. apply (Hv s). constructor. }
    destruct Harg as [Hc Hk]. split.
    + apply clean_bind; auto. intros [v t1] E. apply clean_bind; [apply IH|]. intros [vs t2] _. auto.
    + intros vs t' Hv. destruct (ev_arg W root dot t a) as [[v t1]| | |] eqn:E; cbn [obind] in Hv; try discriminate.
      destruct (IH t1) as [_ IH2].
      destruct (ev_args W root dot t1 args) as [[vs' t2]| | |]; cbn [obind] in Hv; try discriminate.
      injection Hv as <- <-. constructor; eauto.
Qed.

Definition step_guard (s : pstep) : Prop := Forall arg_guard (st_args s).

(** filters copy what they are given, including the null of an empty loop *)
Definition is_filter (o : op) : bool := match o with OpFilter | OpNestFilter => true | _ => false end.

Lemma body_ok : forall s dot out t, wf_step s -> step_guard s -> loop_op (st_op s) = true ->
  ready dot -> (is_filter (st_op s) = true -> P dot) -> Forall P (g_list out) ->
  fine (ev_body W root s dot out t) /\
  forall out' t', ev_body W root s dot out t = OK (out', t') -> Forall P (g_list out').
Proof.
  intros s dot out t Hwf Hg Hl Hd Hf Hout.
  destruct (ev_args_ok dot (st_args s) (proj2 (proj2 (proj2 Hd))) Hg t) as [Hc Hk].
  destruct (is_nest_select (st_op s)) eqn:Es.
  - rewrite body_keyed by assumption. split.
    + apply fine_bind; [apply clean_fine; auto|]. intros [vs t1] E.
      destruct (keyed_ready (counts_back (st_op s)) (pairs (live vs) [dot]) out) as [Hkf _]; auto.
      { apply pairs_ready; [apply live_ok; eauto|auto]. }
      apply fine_bind; auto.
    + intros out' t' H.
      destruct (ev_args W root dot t (st_args s)) as [[vs t1]| | |]; cbn [obind] in H; try discriminate.
      destruct (keyed_ready (counts_back (st_op s)) (pairs (live vs) [dot]) out) as [_ Hgp]; auto.
      { apply pairs_ready; [apply live_ok; eauto|auto]. }
      destruct (keyed W (counts_back (st_op s)) out (pairs (live vs) [dot])); cbn [obind] in H; try discriminate.
      injection H as <- <-. auto.
  - unfold ev_body. pose proof (wf_step_ok s Hwf) as Hok.
    pose proof (ev_args_length W root dot (st_args s) t) as Hlen.
    destruct (ev_args W root dot t (st_args s)) as [[vs t1]| | |] eqn:E; cbn [obind];
      try (split; [apply fine_fail|discriminate]).
    2:{ destruct Hc as [Hc _]. congruence. }
    2:{ destruct Hc as [_ Hc]. congruence. }
    specialize (Hlen vs t1 eq_refl). rewrite <- Hlen in Hok.
    destruct (st_op s); try discriminate Hl; try discriminate Es; simpl in Hok.
    + destruct vs as [|v [|]]; simpl in Hok; try lia. split; [apply fine_ok|]. intros out' t' H. injection H as <- <-.
      destruct (negb (isNothing v) && cvb W v); auto. simpl. apply Forall_app. auto.
    + destruct vs; simpl in Hok; try lia. split; [apply fine_ok|]. intros out' t' H. injection H as H.
      destruct (valsWild_list W Hperm t1 out dot) as (l & El & Hl' & _).
      rewrite H in El. cbn [fst] in El. rewrite El. apply Forall_app. split; auto.
      apply Forall_forall. intros x Hx. apply (proj1 (proj2 Hd)). eapply children_within; eauto.
    + destruct vs as [|v [|]]; simpl in Hok; try lia. split; [apply fine_ok|]. intros out' t' H. injection H as <- <-.
      destruct (negb (isNothing v) && cvb W v); auto. simpl. apply Forall_app. auto.
Qed.

Lemma loop_ok : forall s, wf_step s -> step_guard s -> loop_op (st_op s) = true ->
  forall dots out t, Forall ready dots -> (is_filter (st_op s) = true -> Forall P dots) ->
  Forall P (g_list out) ->
  fine (ev_loop W root s dots out t) /\
  forall out' t', ev_loop W root s dots out t = OK (out', t') -> Forall P (g_list out').
Proof.
  intros s Hwf Hg Hl dots. induction dots as [|d dots IH]; intros out t Hr Hf Hout; cbn [ev_loop].
  - split; [apply fine_ok|]. intros out' t' H. injection H as <- <-. exact Hout.
  - inversion Hr; subst.
    assert (Hfd : is_filter (st_op s) = true -> P d) by (intro K; specialize (Hf K); inversion Hf; auto).
    assert (Hfr : is_filter (st_op s) = true -> Forall P dots) by (intro K; specialize (Hf K); inversion Hf; auto).
    destruct (body_ok s d out t Hwf Hg Hl) as [Hc Ho]; auto. split.
    + apply fine_bind; auto. intros [out1 t1] E. apply IH; eauto.
    + intros out' t' H. destruct (ev_body W root s d out t) as [[out1 t1]| | |]; cbn [obind] in H; try discriminate.
      apply (proj2 (IH out1 t1 H2 Hfr (Ho _ _ eq_refl)) _ _ H).
Qed.

(** the values a loop visits *)
Lemma dots_stepping : forall cands t, Forall P cands -> Forall P (fst (stepping W t cands)).
Proof.
  intros cands t H. destruct (stepping_gathers W Hperm cands t) as (ls & Hls & ->).
  apply Forall_concat. revert H. induction Hls; intro HP; [constructor|].
  inversion HP; subst. constructor; auto. apply Forall_forall. intros v Hv.
  eapply P_child; eauto. eapply children_within; eauto.
Qed.

Lemma dots_walker : forall cands t, Forall P cands -> Forall P (fst (walker W t cands)).
Proof.
  intros cands t H. destruct (walker_gathers W Hperm cands t) as (ls & Hls & ->).
  apply Forall_concat. revert H. induction Hls; intro HP; [constructor|].
  inversion HP; subst. constructor; auto. apply Forall_forall. intros v Hv.
  eapply P_within; [eapply walks_within; eauto|assumption].
Qed.

Lemma loop_dots_ready : forall vs, Forall P vs -> Forall ready (loop_dots vs).
Proof.
  intros vs H. destruct vs as [|v vs]; cbn [loop_dots].
  - constructor; [apply nil_ready|constructor].
  - eapply Forall_impl; [|exact H]. intros; apply P_ready; auto.
Qed.

Lemma wild_loop_ok : forall cands acc t, Forall P cands -> Forall P (g_list acc) ->
  exists g t', applySelection_loop (fun t v acc => @OK rerr _ (valsWild W t acc v)) t cands acc = OK (g, t') /\
  Forall P (g_list g).
Proof.
  induction cands as [|v cands IH]; intros acc t Hc Hacc; cbn [applySelection_loop]; [eauto|].
  inversion Hc; subst. destruct (valsWild_list W Hperm t acc v) as (l & El & Hl & _).
  destruct (valsWild W t acc v) as [g t1]. cbn [obind fst] in *. apply IH; auto.
  rewrite El. apply Forall_app. split; auto. apply Forall_forall. intros x Hx.
  eapply P_child; eauto. eapply children_within; eauto.
Qed.

Lemma step_outcome : forall s out t, wf_step s -> step_guard s ->
  (is_filter (st_op s) = true -> P VNil) -> Forall P (g_list out) ->
  fine (ev_step W root s out t) /\
  forall out' t', ev_step W root s out t = OK (out', t') -> Forall P (g_list out').
Proof.
  intros s out t Hwf Hg Hf Hout.
  assert (Hloop : loop_op (st_op s) = true -> forall vs t, Forall P vs ->
    fine (ev_loop W root s (loop_dots vs) (Some []) t) /\
    forall out' t', ev_loop W root s (loop_dots vs) (Some []) t = OK (out', t') -> Forall P (g_list out')).
  { intros Hl vs t1 Hvs. apply loop_ok; auto.
    - apply loop_dots_ready; auto.
    - intro K. destruct vs; [|exact Hvs]. constructor; auto.
    - constructor. }
  assert (Hls : forall producer, loop_op (st_op s) = true ->
    (forall cands t, Forall P cands -> Forall P (fst (producer t cands))) ->
    fine (ev_loop_step W root producer s out t) /\
    forall out' t', ev_loop_step W root producer s out t = OK (out', t') -> Forall P (g_list out')).
  { intros producer Hl Hp. unfold ev_loop_step. destruct (g_list out) as [|v0 l0] eqn:Eo.
    - split; [apply fine_ok|]. intros out' t' H. injection H as <- <-. rewrite Eo. constructor.
    - specialize (Hp (v0 :: l0) t Hout). destruct (producer t (v0 :: l0)) as [vs t1]. apply Hloop; auto. }
  destruct (is_select (st_op s)) eqn:Es.
  - rewrite step_keyed by assumption.
    destruct (ev_args_ok VNil (st_args s) (proj2 (proj2 (proj2 nil_ready))) Hg t) as [Hc Hk].
    assert (HrO : Forall ready (g_list out)) by (eapply Forall_impl; [|exact Hout]; intros; apply P_ready; auto).
    split.
    + apply fine_bind; [apply clean_fine; auto|]. intros [vs t1] E.
      destruct (keyed_ready (counts_back (st_op s)) (pairs (live vs) (g_list out)) (Some [])) as [Hkf _].
      { apply pairs_ready; [apply live_ok; eauto|auto]. } { constructor. }
      apply fine_bind; auto.
    + intros out' t' H.
      destruct (ev_args W root VNil t (st_args s)) as [[vs t1]| | |]; cbn [obind] in H; try discriminate.
      destruct (keyed_ready (counts_back (st_op s)) (pairs (live vs) (g_list out)) (Some [])) as [_ Hgp].
      { apply pairs_ready; [apply live_ok; eauto|auto]. } { constructor. }
      destruct (keyed W (counts_back (st_op s)) (Some []) (pairs (live vs) (g_list out))); cbn [obind] in H; try discriminate.
      injection H as <- <-. auto.
  - pose proof (wf_step_ok s Hwf) as Hok. unfold ev_step.
    destruct (st_op s) eqn:Eo; try contradiction Hok; try discriminate Es;
      try (apply Hls; [reflexivity|intros; apply dots_stepping; auto]; fail);
      try (apply Hls; [reflexivity|intros; apply dots_walker; auto]; fail).
    simpl in Hok. destruct (st_args s); simpl in Hok; try lia. cbn [ev_args obind].
    unfold applySelection.
    destruct (wild_loop_ok (g_list out) (Some []) t Hout) as (g & t' & E & Hgp); [constructor|].
    rewrite E. split; [apply fine_ok|]. intros out' t'' H. injection H as <- <-. exact Hgp.
Qed.

Lemma path_outcome : forall ss, wf_path ss -> Forall step_guard ss ->
  (Exists (fun s => is_filter (st_op s) = true) ss -> P VNil) ->
  forall out t, Forall P (g_list out) ->
  fine (ev_path W root ss out t) /\
  forall out' t', ev_path W root ss out t = OK (out', t') -> Forall P (g_list out').
Proof.
  induction ss as [|s ss IH]; intros Hwf Hg Hf out t Hout; cbn [ev_path].
  - split; [apply fine_ok|]. intros out' t' H. injection H as <- <-. exact Hout.
  - inversion Hwf; inversion Hg; subst.
    destruct (step_outcome s out t) as [Hc Ho]; auto. split.
    + apply fine_bind; auto. intros [o1 t1] E. apply IH; eauto.
    + intros out' t' H. destruct (ev_step W root s out t) as [[o1 t1]| | |]; cbn [obind] in H; try discriminate.
      refine (proj2 (IH _ _ _ o1 t1 (Ho _ _ eq_refl)) _ _ H); auto.
Qed.
End steps.

Lemma guard_strict : forall (P : val -> Prop) strict s, wf_step s ->
  (strict = true -> forall sl l, In (PSlice sl) (st_args s) -> P (VArr l) -> ~ overflowing (Z.of_nat (length l))
     (bound_int (sl_start sl)) (bound_int (sl_end sl)) (bound_int (sl_stride sl))) ->
  step_guard P strict s.
Proof.
  intros P strict s H Hs. assert (Hb : forall b, wf_obound b -> in_oint64 (bound_int b)).
  { intros b Hb. destruct b as [b|]; [|exact I]. destruct Hb; simpl; auto.
    unfold in_int64, min_int64, max_int64. lia. }
  assert (Hu : forall v, In v (st_args s) -> wf_union_elt v -> arg_guard P strict v).
  { intros v Hin Hv. destruct Hv; try exact I. destruct H0 as (A & B & C). simpl.
    split; [auto|]. split; [auto|]. split; [auto|]. intros Ht l Hl. exact (Hs Ht _ _ Hin Hl). }
  assert (Hsub : forall v, In v (st_args s) -> wf_sub v -> arg_guard P strict v).
  { intros v Hin Hv. destruct Hv; auto. }
  assert (Hm : forall v, wf_member v -> arg_guard P strict v).
  { intros v Hv. destruct Hv; try exact I. assumption. }
  unfold step_guard. inversion H; subst; simpl in *; try constructor; auto;
    (apply Forall_forall; rewrite Forall_forall in *; auto).
Qed.

Lemma guard_of_wf : forall P s, wf_step s -> step_guard P false s.
Proof. intros P s H. apply guard_strict; auto. discriminate. Qed.
