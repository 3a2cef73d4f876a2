(** What the direct evaluator computes is what the path means. *)
From Coq Require Import QArith Qabs Permutation.
From Verif Require Import SpecSyntax Machine Eval ProgramProofs CoderProofs MachineProofs SpecDoc DocProofs SpecSelect
  SpecRun RunProofs SliceProofs SelectProofs WalkProofs ExprProofs StepProofs SpecCode CodeProofs EvalProofs TextProofs
  StepExact SpecOp OpProofs SpecExpr LogicProofs ArithProofs FloatProofs SaneProofs SpecText SpecSem.
Local Open Scope Z_scope.

(** ** Truncation *)
Lemma abs_le_frac : forall a d z, (Qabs (inject_Z z) <= Qabs (a # d))%Q <-> Z.abs z * Z.pos d <= Z.abs a.
Proof. intros. unfold Qle, inject_Z. simpl. lia. Qed.
Lemma abs_lt_frac : forall a d z, (Qabs (a # d) < Qabs (inject_Z z))%Q <-> Z.abs a < Z.abs z * Z.pos d.
Proof. intros. unfold Qlt, inject_Z. simpl. lia. Qed.
Lemma near_frac : forall a d z, (Qabs ((a # d) - inject_Z z) < 1)%Q <-> Z.abs (a - z * Z.pos d) < Z.pos d.
Proof. intros. unfold Qlt, Qminus, Qplus, Qopp, inject_Z. simpl. rewrite !Pos.mul_1_r, !Z.mul_1_r. 
  rewrite Z.mul_opp_l. rewrite Z.add_opp_r. destruct (a - z * Z.pos d); lia. Qed.

Lemma trunc_real : forall f, match f_trunc f, real_of f with
  | Some z, Some (a # d) => Z.abs z * Z.pos d <= Z.abs a /\ Z.abs (a - z * Z.pos d) < Z.pos d
  | None, None => True
  | _, _ => False
  end.
Proof.
  intros [s|s| |s m e]; cbn [f_trunc real_of]; auto.
  - simpl. lia.
  - destruct (Z.leb_spec 0 e) as [He|He].
    + unfold inject_Z. unfold signed. destruct s; rewrite ?Z.mul_1_r; nia.
    + assert (0 < 2 ^ (- e)) by (apply Z.pow_pos_nonneg; lia).
      rewrite Z2Pos.id by assumption. set (d := 2 ^ (- e)) in *.
      pose proof (Z.div_mod (Z.pos m) d ltac:(lia)). pose proof (Z.mod_pos_bound (Z.pos m) d ltac:(lia)).
      assert (0 <= Z.pos m / d) by (apply Z.div_pos; lia).
      unfold signed. destruct s; nia.
Qed.

Lemma trunc_unique : forall a d z n, Z.abs z * Z.pos d <= Z.abs a -> Z.abs (a - z * Z.pos d) < Z.pos d ->
  Z.abs n * Z.pos d <= Z.abs a -> Z.abs (a - n * Z.pos d) < Z.pos d -> n = z.
Proof. intros. nia. Qed.

Lemma in_int64b_spec : forall z, in_int64b z = true <-> -9223372036854775808 <= z <= 9223372036854775807.
Proof. intro z. unfold in_int64b, min_int64, max_int64. rewrite andb_true_iff, !Z.leb_le. lia. Qed.

Lemma f2i_truncated : forall W f, truncated W f (f2i W f).
Proof.
  intros W f. pose proof (trunc_real f) as H. unfold f2i.
  destruct (f_trunc f) as [z|]; destruct (real_of f) as [[a d]|] eqn:Er; try contradiction.
  - destruct H as [H1 H2]. destruct (in_int64b z) eqn:Ei.
    + apply in_int64b_spec in Ei. eapply TrIn; [exact Er|exact Ei|apply abs_le_frac; exact H1|apply near_frac; exact H2].
    + apply TrOut; [|apply wrap_reduces]. intros q n Hq Hn Hd. rewrite Er in Hq. injection Hq as <-.
      apply near_frac in Hd. apply abs_lt_frac. apply Z.nle_gt. intro Hle.
      assert (n = z) by (eapply trunc_unique; eauto). subst n.
      assert (in_int64b z = true) by (apply in_int64b_spec; exact Hn). congruence.
  - apply TrOut; [|apply wrap_reduces]. intros q n Hq. rewrite Er in Hq. discriminate.
Qed.

(** ** Expressions *)
Definition narrow (is : list instr) : Prop := forall o n, In (IApply o n) is -> Z.of_nat n < 4194304.

Lemma narrow_in : forall A (f : A -> list instr) l a, narrow (flat_map f l) -> In a l -> narrow (f a).
Proof. intros A f l a H Ha o n Hn. apply (H o n). apply in_flat_map. eauto. Qed.

Lemma narrow_app : forall a b, narrow (a ++ b) -> narrow a /\ narrow b.
Proof. intros a b H. split; intros o n Hn; apply (H o n); apply in_or_app; auto. Qed.

Lemma reordered_same : forall W, reordered W (w_perm W) = W.
Proof. intros []; reflexivity. Qed.

Section sem.
Variable W : world.
Variable root : val.
Hypothesis HW : orders_ok W.
Hypothesis Hroot : doc root.

Definition any : list (bytes * val) -> Prop := fun _ => True.

Lemma root_sane : sane False any root.
Proof. apply sane_doc; [exact Hroot|]. intros m _. exact I. Qed.

Lemma no_read : False -> forall s f, o_parse_float (w_text W) s = Some f -> double f.
Proof. intros []. Qed.

(** what evaluating operands in sequence means *)
Definition evs_meaning (dot : val) (kids : list expr) (r : M (list val * nat)) : Prop :=
  match r with
  | OK (vs, _) => Forall2 (fun e v => means W root dot e (OK v)) kids vs
  | Fail err => exists pre e post vs, kids = pre ++ e :: post /\
      Forall2 (fun e v => means W root dot e (OK v)) pre vs /\ means W root dot e (Fail err)
  | _ => False
  end.

Lemma evs_means : forall dot kids, Forall (fun e => forall t, clean (ev W root dot t e) /\
    means W root dot e (value_of (ev W root dot t e))) kids ->
  forall t, evs_meaning dot kids (evs W root dot t kids).
Proof.
  intros dot kids H. induction H as [|e kids He Hk IH]; intro t; cbn [evs]; [constructor|].
  destruct (He t) as [[Hc1 Hc2] Hm]. destruct (ev W root dot t e) as [[v t1]|err| |]; cbn [obind value_of] in *; try congruence.
  - specialize (IH t1). destruct (evs W root dot t1 kids) as [[vs t2]|err| |]; cbn [obind evs_meaning] in *; try contradiction.
    + constructor; assumption.
    + destruct IH as (pre & e' & post & vs & -> & Hp & He'). exists (e :: pre), e', post, (v :: vs).
      split; [reflexivity|]. split; [constructor; assumption|exact He'].
  - exists [], e, kids, []. split; [reflexivity|]. split; [constructor|exact Hm].
Qed.

Lemma ev_means : forall e, wf_expr e -> narrow (list_expr e) -> forall dot t,
  means W root dot e (value_of (ev W root dot t e)).
Proof.
  intros e. induction e using expr_tree_ind; intros Hwf Hn dot t; try (constructor; constructor).
  pose proof (wf_inner _ _ Hwf) as (Hk & _ & Ho). cbn [list_expr] in Hn.
  assert (Hm : evs_meaning dot kids (evs W root dot t kids)).
  { apply evs_means. rewrite Forall_forall in *. intros e He t'. split; [apply ev_clean; auto|].
    apply H; auto. apply narrow_app in Hn as [Hn _]. eapply narrow_in; eauto. }
  pose proof (ev_clean W root (EInner o kids) Hwf dot t) as [_ Hc].
  rewrite ev_inner in *. pose proof (evs_length W root dot kids t) as Hlen.
  destruct (evs W root dot t kids) as [[vs t1]|err| |]; cbn [obind evs_meaning value_of] in *; try contradiction.
  - specialize (Hlen vs t1 eq_refl). apply MnInner with (vs := vs); [exact Hm|]. split.
    + apply narrow_app in Hn as [_ Hn]. rewrite Hlen. apply (Hn o). left. reflexivity.
    + exists (w_perm W), t1, (apply_op W t1 o vs). rewrite reordered_same. split; [exact HW|]. split; [|reflexivity].
      apply operates_apply; [rewrite Hlen; exact Ho|exact Hc].
  - destruct Hm as (pre & e & post & vs & -> & Hp & He). eapply MnError; eauto.
Qed.

(** ** Arguments *)
Definition keysel (back : bool) (v : val) (o : option sel) : Prop :=
  match o with
  | None => isNothing v = true
  | Some s => isNothing v = false /\ key_is W back v s
  end.

Lemma value_acts : forall back v, sane False any v -> exists o, acts_as W back v o /\ keysel back v o.
Proof.
  intros back v H. pose proof (sane_self _ _ _ H) as Hs.
  assert (Hname : forall k, isInt v = false -> isSlice v = false -> isNothing v = false -> named W v k ->
    mapKey W v = k -> exists o, acts_as W back v o /\ keysel back v o).
  { intros k H1 H2 H3 H4 <-. exists (Some (SName (mapKey W v))). split; [constructor; assumption|].
    split; [assumption|]. constructor; assumption. }
  destruct v; try contradiction;
    try (eapply Hname; [reflexivity|reflexivity|reflexivity|constructor|reflexivity]).
  - destruct b; (eapply Hname; [reflexivity|reflexivity|reflexivity|constructor|reflexivity]).
  - exists (Some (SIndex back z)). split; [constructor|]. split; [reflexivity|]. constructor. exact Hs.
  - exists (Some (SIndex back z)). split; [constructor|]. split; [reflexivity|]. constructor. exact Hs.
  - eapply Hname; [reflexivity|reflexivity|reflexivity|constructor; apply f2i_truncated|].
    cbn [mapKey]. apply sprint_int_decimal.
  - exists None. split; [constructor; eexists; reflexivity|reflexivity].
Qed.

Definition arg_meaning (dot : val) (back : bool) (a : pval) (r : M (val * nat)) : Prop :=
  match r with
  | OK (v, _) => exists o, arg_means W root dot back a (OK o) /\ keysel back v o
  | Fail err => arg_means W root dot back a (Fail err)
  | _ => False
  end.

(** a well-formed argument, small enough *)
Definition arg_ok (a : pval) : Prop :=
  ints_ok a /\ match a with PExpr e => wf_expr e /\ narrow (list_expr e) | _ => True end.

Lemma ev_arg_means : forall dot back a, sane False any dot -> arg_ok a -> forall t,
  arg_meaning dot back a (ev_arg W root dot t a).
Proof.
  intros dot back a Hd [Hi Hx] t. destruct a; cbn [ev_arg arg_meaning].
  - exists (Some (SIndex back z)). split; [constructor|]. split; [reflexivity|]. constructor.
    unfold ints_ok, in_int64 in Hi. lia.
  - exists (Some (SName s)). split; [constructor|]. split; [reflexivity|]. apply (KKey W back (VStr s)); reflexivity.
  - exists (Some (SName s)). split; [constructor|]. split; [reflexivity|]. apply (KKey W back (VName s)); reflexivity.
  - eexists. split; [constructor|]. split; [reflexivity|]. destruct Hi as (H1 & H2 & H3).
    rewrite !written_bound_int. constructor; auto.
  - destruct Hx as [Hwf Hn]. pose proof (ev_means e Hwf Hn dot t) as Hm.
    destruct (ev_clean W root e Hwf dot t) as [Hc1 Hc2].
    pose proof (ev_sane False any W no_read root root_sane e Hwf (fun F => match F with end) dot Hd t) as Hs.
    destruct (ev W root dot t e) as [[v t1]|err| |]; cbn [value_of obind] in Hm; try congruence.
    + destruct (value_acts back v (Hs v t1 eq_refl)) as (o & Ho & Hk). exists o. split; [|exact Hk].
      econstructor; eauto.
    + constructor. exact Hm.
Qed.

Definition args_meaning (dot : val) (back : bool) (args : list pval) (r : M (list val * nat)) : Prop :=
  match r with
  | OK (vs, _) => exists sels, args_mean W root dot back args (OK sels) /\ Forall2 (key_is W back) (live vs) sels
  | Fail err => args_mean W root dot back args (Fail err)
  | _ => False
  end.

Lemma ev_args_seq : forall dot back args, sane False any dot -> Forall arg_ok args -> forall t,
  match ev_args W root dot t args with
  | OK (vs, _) => exists os, Forall2 (fun a o => arg_means W root dot back a (OK o)) args os /\
      Forall2 (keysel back) vs os
  | Fail err => exists pre a post os, args = pre ++ a :: post /\
      Forall2 (fun a o => arg_means W root dot back a (OK o)) pre os /\ arg_means W root dot back a (Fail err)
  | _ => False
  end.
Proof.
  intros dot back args Hd H. induction H as [|a args Ha Hargs IH]; intro t; cbn [ev_args].
  - exists []. split; constructor.
  - pose proof (ev_arg_means dot back a Hd Ha t) as Hm.
    destruct (ev_arg W root dot t a) as [[v t1]|err| |]; cbn [obind arg_meaning] in *; try contradiction.
    + destruct Hm as (o & Ho & Hk). specialize (IH t1).
      destruct (ev_args W root dot t1 args) as [[vs t2]|err| |]; cbn [obind] in *; try contradiction.
      * destruct IH as (os & H1 & H2). exists (o :: os). split; constructor; assumption.
      * destruct IH as (pre & a' & post & os & -> & H1 & H2). exists (a :: pre), a', post, (o :: os).
        split; [reflexivity|]. split; [constructor; assumption|exact H2].
    + exists [], a, args, []. split; [reflexivity|]. split; [constructor|exact Hm].
Qed.

Lemma live_sels : forall back vs os, Forall2 (keysel back) vs os ->
  Forall2 (key_is W back) (live vs) (flat_map (fun o => match o with Some s => [s] | None => [] end) os).
Proof.
  intros back vs os H. induction H as [|v o vs os Hv H IH]; [constructor|].
  unfold live. cbn [filter flat_map]. destruct o as [s|]; cbn [keysel] in Hv.
  - destruct Hv as [E Hk]. rewrite E. cbn [negb app]. constructor; [exact Hk|exact IH].
  - rewrite Hv. cbn [negb app]. exact IH.
Qed.

Lemma ev_args_mean : forall dot back args, sane False any dot -> Forall arg_ok args -> forall t,
  args_meaning dot back args (ev_args W root dot t args).
Proof.
  intros dot back args Hd H t. pose proof (ev_args_seq dot back args Hd H t) as Hs.
  destruct (ev_args W root dot t args) as [[vs t1]|err| |]; cbn [args_meaning] in *; try contradiction.
  - destruct Hs as (os & H1 & H2). eexists. split; [constructor; exact H1|]. apply live_sels. exact H2.
  - destruct Hs as (pre & a & post & os & -> & H1 & H2). econstructor; eauto.
Qed.

Lemma keys_apps : forall back keys sels cands, Forall2 (key_is W back) keys sels -> Forall json_node cands ->
  Forall2 (fun kv a => key_is W back (fst kv) (fst a) /\ snd kv = snd a /\ json_node (snd a))
    (pairs keys cands) (applications sels cands).
Proof.
  intros back keys sels cands H Hc. induction Hc as [|v cands Hv Hc IH]; [constructor|].
  rewrite pairs_cons. change (applications sels (v :: cands)) with (map (fun s => (s, v)) sels ++ applications sels cands).
  apply Forall2_app; [|exact IH]. clear IH Hc. induction H; [constructor|].
  constructor; [|auto]. simpl. auto.
Qed.

(** ** Steps *)
Definition meaning (s : pstep) (cands : list val) (r : M (gslice * nat)) : Prop :=
  match r with
  | OK (g, _) => step_means W root s cands (OK (g_list g))
  | Fail err => step_means W root s cands (Fail err)
  | Panics => step_means W root s cands Panics
  | OutOfFuel => False
  end.

Lemma nodes_of : forall cands, Forall doc cands -> Forall json_node cands.
Proof. intros cands H. eapply Forall_impl; [|exact H]. apply doc_node. Qed.

Lemma nil_sane : sane False any VNil.
Proof. apply sane_doc; [apply doc_nil|]. intros m _. exact I. Qed.

Lemma select_meaning : forall s out t, wf_step s -> is_select (st_op s) = true -> Forall arg_ok (st_args s) ->
  Forall doc (g_list out) -> meaning s (g_list out) (ev_step W root s out t).
Proof.
  intros s out t Hwf Hs Ha Hc. rewrite step_keyed by assumption.
  pose proof (ev_args_mean VNil (counts_back (st_op s)) (st_args s) nil_sane Ha t) as Hm.
  destruct (ev_args W root VNil t (st_args s)) as [[vs t1]|err| |]; cbn [obind args_meaning meaning] in *; try contradiction.
  - destruct Hm as (sels & Hm & Hk).
    destruct (keyed_collects W (counts_back (st_op s)) _ _ (Some [])
      (keys_apps _ _ _ (g_list out) Hk (nodes_of _ Hc))) as [(g & E & Hg & Ho)|[E Ho]];
      rewrite E; cbn [obind meaning].
    + apply collects_nil in Hg. eapply SmSelect; eauto.
    + eapply SmOverflow; eauto.
  - apply SmError; assumption.
Qed.

Lemma wild_meaning : forall out t, meaning (mkStep OpWild []) (g_list out) (ev_step W root (mkStep OpWild []) out t).
Proof.
  intros out t. cbn [ev_step st_op st_args ev_args obind]. unfold applySelection.
  destruct (wild_gathers W HW (g_list out) (Some []) t) as (g & t' & l & E & Hg & Hl). rewrite E. cbn [obind meaning].
  apply SmWild; [reflexivity|]. rewrite Hg. exact Hl.
Qed.

Lemma rounds_of : forall pick cands dots, cands <> [] -> gathers pick cands dots -> rounds pick cands (loop_dots dots).
Proof.
  intros pick cands dots Hc Hg. destruct dots as [|d dots]; cbn [loop_dots].
  - apply RdNull; assumption.
  - apply RdAll; [discriminate|assumption].
Qed.

(** a filter's iterations *)
Lemma loop_keeps : forall s e, is_filter (st_op s) = true -> st_args s = [PExpr e] -> wf_expr e -> narrow (list_expr e) ->
  forall dots out t,
  match ev_loop W root s dots out t with
  | OK (g, _) => exists l, g_list g = g_list out ++ l /\ keeps W root e dots (OK l)
  | Fail err => keeps W root e dots (Fail err)
  | _ => False
  end.
Proof.
  intros s e Hf Ha Hwf Hn. induction dots as [|d dots IH]; intros out t; cbn [ev_loop].
  - exists []. rewrite app_nil_r. split; [reflexivity|constructor].
  - pose proof (ev_means e Hwf Hn d t) as Hm. destruct (ev_clean W root e Hwf d t) as [Hc1 Hc2].
    assert (E : ev_body W root s d out t = let! (v, t1) := ev W root d t e in
      OK (if negb (isNothing v) && cvb W v then g_append out d else out, t1)).
    { unfold ev_body. rewrite Ha. cbn [ev_args ev_arg]. destruct (ev W root d t e) as [[v t1]| | |]; cbn [obind]; auto.
      destruct (st_op s); try discriminate Hf; reflexivity. }
    rewrite E. destruct (ev W root d t e) as [[v t1]|err| |]; cbn [obind value_of] in *; try congruence.
    + destruct (negb (isNothing v) && cvb W v) eqn:Eb.
      * apply andb_prop in Eb as [_ Eb]. apply not_falsy_cvb in Eb. specialize (IH (g_append out d) t1).
        destruct (ev_loop W root s dots (g_append out d) t1) as [[g t2]|err| |]; try contradiction.
        -- destruct IH as (l & Hg & Hl). exists (d :: l). split.
           ++ rewrite Hg. unfold g_append. cbn [g_list]. rewrite <- app_assoc. reflexivity.
           ++ exact (KpTrue W root e d v dots (OK l) Hm Eb Hl).
        -- exact (KpTrue W root e d v dots (Fail err) Hm Eb IH).
      * assert (Hfa : falsy W v).
        { apply falsy_cvb. destruct v; try exact Eb; reflexivity. }
        specialize (IH out t1). destruct (ev_loop W root s dots out t1) as [[g t2]|err| |]; try contradiction.
        -- destruct IH as (l & Hg & Hl). exists l. split; [exact Hg|]. eapply KpFalse; eauto.
        -- eapply KpFalse; eauto.
    + apply KpError. exact Hm.
Qed.

(** the iterations of a descent *)
Lemma loop_sweeps : forall s, wf_step s -> is_nest_select (st_op s) = true -> Forall arg_ok (st_args s) ->
  forall dots out t, Forall doc dots ->
  match ev_loop W root s dots out t with
  | OK (g, _) => exists kvs apps, keyed W (counts_back (st_op s)) out kvs = OK g /\
      Forall2 (fun kv a => key_is W (counts_back (st_op s)) (fst kv) (fst a) /\ snd kv = snd a /\ json_node (snd a))
        kvs apps /\ sweeps W root (counts_back (st_op s)) (st_args s) dots (OK apps)
  | Fail err => sweeps W root (counts_back (st_op s)) (st_args s) dots (Fail err)
  | Panics => sweeps W root (counts_back (st_op s)) (st_args s) dots Panics
  | OutOfFuel => False
  end.
Proof.
  intros s Hwf Hs Ha. set (back := counts_back (st_op s)). induction dots as [|d dots IH]; intros out t Hd; cbn [ev_loop].
  - exists [], []. split; [reflexivity|]. split; constructor.
  - inversion Hd as [|x y Hd1 Hd2]; subst. rewrite body_keyed by assumption. fold back.
    pose proof (ev_args_mean d back (st_args s) (sane_doc False any d Hd1 (fun m _ => I)) Ha t) as Hm.
    destruct (ev_args W root d t (st_args s)) as [[vs t1]|err| |]; cbn [obind args_meaning] in *; try contradiction.
    + destruct Hm as (sels & Hm & Hk).
      assert (Hkv := keys_apps _ _ _ [d] Hk (nodes_of [d] (Forall_cons d Hd1 (Forall_nil _)))).
      destruct (keyed_collects W back _ _ out Hkv) as [(g & E & _ & Ho)|[E Ho]]; rewrite E; cbn [obind].
      * specialize (IH g t1 Hd2). destruct (ev_loop W root s dots g t1) as [[g' t2]|err| |]; try contradiction.
        -- destruct IH as (kvs & apps & Hg & Hr & Hsw). exists (pairs (live vs) [d] ++ kvs), (applications sels [d] ++ apps).
           split; [rewrite keyed_app, E; exact Hg|]. split; [apply Forall2_app; assumption|].
           exact (SwDot W root back (st_args s) d dots sels (OK apps) Hm Ho Hsw).
        -- exact (SwDot W root back (st_args s) d dots sels (Fail err) Hm Ho IH).
        -- exact (SwDot W root back (st_args s) d dots sels Panics Hm Ho IH).
      * eapply SwOverflow; eauto.
    + apply SwError. exact Hm.
Qed.

Lemma gathers_doc : forall (pick : val -> list val -> Prop) cands dots,
  (forall v l x, pick v l -> In x l -> within x v) -> Forall doc cands -> gathers pick cands dots -> Forall doc dots.
Proof.
  intros pick cands dots Hp Hc (ls & Hls & ->). apply Forall_forall. intros x Hx.
  apply in_concat in Hx as (y & Hy & Hxy). destruct (Forall2_in_r _ _ _ _ _ _ Hls Hy) as (v & Hv & Hvy).
  rewrite Forall_forall in Hc. exact (doc_within x v (Hc v Hv) (Hp v y x Hvy Hxy)).
Qed.

Lemma loop_dots_doc : forall dots, Forall doc dots -> Forall doc (loop_dots dots).
Proof. intros [|d dots] H; [constructor; [apply doc_nil|constructor]|exact H]. Qed.

Lemma step_meaning : forall s out t, wf_step s -> Forall arg_ok (st_args s) -> Forall doc (g_list out) ->
  meaning s (g_list out) (ev_step W root s out t).
Proof.
  intros s out t Hwf Ha Hc.
  destruct (is_select (st_op s)) eqn:Es; [apply select_meaning; assumption|].
  assert (Hfil : forall prod pick e, st_args s = [PExpr e] -> is_filter (st_op s) = true ->
    (forall cands t, gathers pick cands (fst (prod t cands))) ->
    (forall dots r, rounds pick (g_list out) dots -> keeps W root e dots r -> step_means W root s (g_list out) r) ->
    meaning s (g_list out) (ev_loop_step W root prod s out t)).
  { intros prod pick e Ea Ef Hg Hstep. rewrite Ea in Ha. apply Forall_inv in Ha as [_ [He Hn]].
    unfold ev_loop_step. destruct (g_list out) as [|c cands] eqn:Eo.
    - cbn [meaning]. rewrite Eo. apply Hstep with (dots := []); constructor.
    - specialize (Hg (c :: cands) t). destruct (prod t (c :: cands)) as [dots t1]. cbn [fst] in Hg.
      assert (Hr : rounds pick (c :: cands) (loop_dots dots)) by (apply rounds_of; [discriminate|exact Hg]).
      pose proof (loop_keeps s e Ef Ea He Hn (loop_dots dots) (Some []) t1) as Hl.
      destruct (ev_loop W root s (loop_dots dots) (Some []) t1) as [[g t2]|err| |]; cbn [meaning]; try contradiction.
      + destruct Hl as (l & El & Hl). rewrite El. cbn [g_list app]. eapply Hstep; eauto.
      + eapply Hstep; eauto. }
  assert (Hnest : is_nest_select (st_op s) = true -> meaning s (g_list out) (ev_loop_step W root (walker W) s out t)).
  { intro Hn. unfold ev_loop_step. destruct (g_list out) as [|c cands] eqn:Eo.
    - cbn [meaning]. rewrite Eo. eapply SmNest; [exact Hn|constructor|constructor|exact collects_empty].
    - pose proof (walker_gathers W HW (c :: cands) t) as Hg. destruct (walker W t (c :: cands)) as [dots t1]. cbn [fst] in Hg.
      assert (Hr : rounds walks (c :: cands) (loop_dots dots)) by (apply rounds_of; [discriminate|exact Hg]).
      assert (Hd : Forall doc (loop_dots dots)) by (apply loop_dots_doc; eapply gathers_doc; [exact walks_within|exact Hc|exact Hg]).
      pose proof (loop_sweeps s Hwf Hn Ha (loop_dots dots) (Some []) t1 Hd) as Hl.
      destruct (ev_loop W root s (loop_dots dots) (Some []) t1) as [[g t2]|err| |]; cbn [meaning]; try contradiction.
      + destruct Hl as (kvs & apps & E & Hkv & Hsw).
        destruct (keyed_collects W _ _ _ (Some []) Hkv) as [(g' & E' & Hg' & _)|[E' _]]; [|congruence].
        rewrite E in E'. injection E' as <-. apply collects_nil in Hg'. eapply SmNest; eauto.
      + eapply SmNestError; eauto.
      + eapply SmNestOverflow; eauto. }
  inversion Hwf; subst; cbn [st_op st_args] in *; try discriminate Es;
    try (unfold ev_step; cbn [st_op]; apply Hnest; reflexivity).
  - apply wild_meaning.
  - unfold ev_step; cbn [st_op]. apply (Hfil _ children_in_order e); auto.
    + intros. apply stepping_gathers. exact HW.
    + intros dots r Hr Hk. exact (SmFilter W root (mkStep OpFilter [PExpr e]) _ e dots r eq_refl eq_refl Hr Hk).
  - unfold ev_step; cbn [st_op]. unfold ev_loop_step. destruct (g_list out) as [|c cands] eqn:Eo.
    + cbn [meaning]. rewrite Eo. eapply SmNestWild; [reflexivity|constructor|apply gathers_nil].
    + pose proof (walker_gathers W HW (c :: cands) t) as Hg. destruct (walker W t (c :: cands)) as [dots t1]. cbn [fst] in Hg.
      destruct (loop_wild W root HW (loop_dots dots) (Some []) t1) as (g & t' & l & E & Hgl & Hl).
      rewrite E. cbn [meaning]. eapply SmNestWild; [reflexivity|apply rounds_of; [discriminate|exact Hg]|].
      rewrite Hgl. exact Hl.
  - unfold ev_step; cbn [st_op]. apply (Hfil _ walks e); auto.
    + intros. apply walker_gathers. exact HW.
    + intros dots r Hr Hk. exact (SmNestFilter W root (mkStep OpNestFilter [PExpr e]) _ e dots r eq_refl eq_refl Hr Hk).
Qed.

Lemma path_meaning : forall ss, wf_path ss -> Forall (fun s => Forall arg_ok (st_args s)) ss ->
  forall out t, Forall doc (g_list out) ->
  match ev_path W root ss out t with
  | OK (g, _) => path_means W root ss (g_list out) (OK (g_list g))
  | Fail err => path_means W root ss (g_list out) (Fail err)
  | Panics => path_means W root ss (g_list out) Panics
  | OutOfFuel => False
  end.
Proof.
  intros ss Hwf. induction Hwf as [|s ss Hs Hwf IH]; intros Ha out t Hc; cbn [ev_path]; [constructor|].
  inversion Ha as [|x y Ha1 Ha2]; subst.
  pose proof (step_meaning s out t Hs Ha1 Hc) as Hm.
  destruct (step_outcome W root doc false HW (fun v c Hv => doc_child c v Hv) doc_node (doc_noslice root Hroot)
    s out t Hs (guard_of_wf doc s Hs) (fun _ => doc_nil) Hc) as [_ Hd].
  destruct (ev_step W root s out t) as [[g t1]|err| |]; cbn [obind meaning] in *; try contradiction.
  - specialize (IH Ha2 g t1 (Hd g t1 eq_refl)).
    destruct (ev_path W root ss g t1) as [[g' t2]|err| |]; try contradiction; eapply PmStep; eauto.
  - apply PmError. exact Hm.
  - apply PmPanic. exact Hm.
Qed.
End sem.
