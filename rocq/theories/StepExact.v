(** What single steps select, exactly. *)
From Coq Require Import Permutation.
From Verif Require Import SpecSyntax Machine Coder Eval CoderProofs SpecDoc DocProofs SpecSelect SpecRun RunProofs
  SliceProofs SelectProofs WalkProofs ExprProofs StepProofs SpecCode CodeProofs EvalProofs TextProofs.
Local Open Scope Z_scope.

Lemma small_compiles : forall ss, wf_path ss -> small ss ->
  exists p, Compile ss = OK p /\ prog_size p < indexTop.
Proof.
  intros ss Hwf Hs. unfold small in Hs. destruct (compile_few ss Hwf) as [p Hp].
  - pose proof (literals_count ss). lia.
  - exists p. split; [exact Hp|]. unfold prog_size. rewrite (compile_length ss p Hwf Hp). exact Hs.
Qed.

Lemma ev_sel_ends : forall W root t cands ss, orders_ok W -> doc root -> Forall doc cands -> wf_path ss ->
  ev_sel W root t cands ss <> OutOfFuel.
Proof.
  intros W root t cands ss HW Hr Hc Hwf. unfold ev_sel. apply obind_oof; [|intros [? ?]; discriminate].
  destruct (path_outcome W root doc false HW (fun v c Hv => doc_child c v Hv) doc_node (doc_noslice root Hr) ss Hwf)
    with (out := Some cands) (t := t) as [[Hf _] _]; auto.
  - eapply Forall_impl; [|exact Hwf]. intros s Hs. apply guard_of_wf. exact Hs.
  - intros _. apply doc_nil.
Qed.

(** running compiled steps is evaluating them *)
Lemma runs_exact : forall W root t cands ss r, orders_ok W -> doc root -> Forall doc cands -> wf_path ss ->
  small ss -> (runs W root t cands ss r <-> r = ev_sel W root t cands ss).
Proof.
  intros W root t cands ss r HW Hr Hc Hwf Hs. pose proof (ev_sel_ends W root t cands ss HW Hr Hc Hwf) as He. split.
  - intro H. eapply runs_ev; eauto.
  - intros ->. destruct (small_compiles ss Hwf Hs) as (p & Hp & Hz). eapply ev_runs; eauto.
Qed.

Lemma ev_sel_one : forall W root t cands s,
  ev_sel W root t cands [s] =
  let! (out, t') := ev_step W root s (Some cands) t in OK (g_list out, t').
Proof.
  intros. unfold ev_sel. cbn [ev_path]. destruct (ev_step W root s (Some cands) t) as [[o t1]| | |]; reflexivity.
Qed.

(** ** Literal selectors *)
Definition literal (a : pval) : bool := match a with PExpr _ => false | _ => true end.
Definition arg_val (a : pval) : val :=
  match a with
  | PInt z => VInt64 z | PStr s => VStr s | PName s => VName s | PSlice s => VSlice s | PExpr _ => VNil
  end.

Lemma ev_args_literal : forall W root dot args t, forallb literal args = true ->
  ev_args W root dot t args = OK (map arg_val args, t).
Proof.
  induction args as [|a args IH]; intros t H; [reflexivity|]. simpl in H. apply andb_prop in H as [H1 H2].
  cbn [ev_args map]. destruct a; try discriminate; cbn [ev_arg obind]; rewrite (IH t H2); reflexivity.
Qed.

Lemma selector_literal : forall back args sels, Forall2 (selector back) args sels -> forallb literal args = true.
Proof. intros back args sels H. induction H; simpl; auto. destruct H; simpl; auto. Qed.

Lemma live_literal : forall args, forallb literal args = true -> live (map arg_val args) = map arg_val args.
Proof.
  induction args as [|a args IH]; intro H; [reflexivity|]. simpl in H. apply andb_prop in H as [H1 H2].
  destruct a; try discriminate; cbn [map arg_val]; unfold live; cbn [filter isNothing negb]; f_equal; apply IH; auto.
Qed.

(** the integers written in an argument are 64-bit integers *)
Definition ints_ok (a : pval) : Prop :=
  match a with
  | PInt z => in_int64 z
  | PSlice sl => in_oint64 (bound_int (sl_start sl)) /\ in_oint64 (bound_int (sl_end sl)) /\
      in_oint64 (bound_int (sl_stride sl))
  | _ => True
  end.

Lemma selector_key : forall W back a s, selector back a s -> ints_ok a -> key_is W back (arg_val a) s.
Proof.
  intros W back a s H Ho. destruct H; simpl in *.
  - apply (KKey W back (VName k)); reflexivity.
  - apply (KKey W back (VStr k)); reflexivity.
  - constructor. unfold in_int64 in Ho. lia.
  - destruct Ho as (O1 & O2 & O3).
    rewrite (bound_is_int _ _ H) in O1. rewrite (bound_is_int _ _ H0) in O2. rewrite (bound_is_int _ _ H1) in O3.
    constructor; auto.
    unfold slice_ints. rewrite (bound_is_int _ _ H), (bound_is_int _ _ H0), (bound_is_int _ _ H1). reflexivity.
Qed.

Lemma arg_ints : forall s, wf_step s -> Forall ints_ok (st_args s).
Proof.
  intros s H. assert (Hb : forall b, wf_obound b -> in_oint64 (bound_int b)).
  { intros b Hb. destruct b as [b|]; [|exact I]. destruct Hb; simpl; auto.
    unfold in_int64, min_int64, max_int64. lia. }
  assert (Hu : forall v, wf_union_elt v -> ints_ok v).
  { intros v Hv. destruct Hv; try exact I; try assumption. destruct H0 as (A & B & C). simpl. auto. }
  assert (Hsub : forall v, wf_sub v -> ints_ok v).
  { intros v Hv. destruct Hv; auto. exact I. }
  assert (Hm : forall v, wf_member v -> ints_ok v).
  { intros v Hv. destruct Hv; try exact I. assumption. }
  inversion H; subst; simpl; try constructor; auto; try exact I;
    (eapply Forall_impl; [|eassumption]; auto).
Qed.

Lemma pairs_apps : forall W back args sels cands, Forall2 (selector back) args sels -> Forall ints_ok args ->
  Forall json_node cands ->
  Forall2 (fun kv a => key_is W back (fst kv) (fst a) /\ snd kv = snd a /\ json_node (snd a))
    (pairs (map arg_val args) cands) (applications sels cands).
Proof.
  intros W back args sels cands H Ho Hc. induction Hc as [|v cands Hv Hc IH]; [constructor|].
  rewrite pairs_cons. change (applications sels (v :: cands)) with (map (fun s => (s, v)) sels ++ applications sels cands).
  apply Forall2_app; [|exact IH]. clear IH Hc. induction H; [constructor|].
  inversion Ho; subst. constructor; [|auto]. simpl. split; [apply selector_key; auto|auto].
Qed.

(** ** Uniqueness *)
Lemma picked_fun : forall apps ls ls', Forall (fun a => json_node (snd a)) apps ->
  Forall2 (fun a l => picks (fst a) (snd a) l) apps ls ->
  Forall2 (fun a l => picks (fst a) (snd a) l) apps ls' -> ls = ls'.
Proof.
  intros apps ls ls' Hn H. revert ls'. induction H; intros ls' H'; inversion H'; subst; auto.
  inversion Hn; subst. f_equal; [eapply picks_fun; eauto|apply IHForall2; auto].
Qed.

Lemma split_unique : forall (b1 a1 b2 a2 : list (sel * val)), b1 ++ a1 = b2 ++ a2 ->
  (b1 = [] \/ exists b a, b1 = b ++ [a] /\ discards a) -> Forall (fun a => ~ discards a) a1 ->
  (b2 = [] \/ exists b a, b2 = b ++ [a] /\ discards a) -> Forall (fun a => ~ discards a) a2 ->
  a1 = a2 /\ b1 = b2.
Proof.
  assert (H : forall (b1 a1 b2 a2 : list (sel * val)), (length b1 <= length b2)%nat -> b1 ++ a1 = b2 ++ a2 ->
    Forall (fun a => ~ discards a) a1 -> (b2 = [] \/ exists b a, b2 = b ++ [a] /\ discards a) -> a1 = a2 /\ b1 = b2).
  { intros b1 a1 b2 a2 Hle E Ha Hb. destruct (Nat.eq_dec (length b1) (length b2)) as [Hl|Hl].
    - split; [eapply app_inv_head|]. 
      + rewrite E. f_equal. symmetry. apply (f_equal (firstn (length b1))) in E.
        rewrite !firstn_app, Hl, !Nat.sub_diag, !app_nil_r in E. rewrite <- Hl in E at 1. rewrite !firstn_all in E. exact E.
      + apply (f_equal (firstn (length b1))) in E.
        rewrite !firstn_app, Hl, !Nat.sub_diag, !app_nil_r in E. rewrite <- Hl in E at 1. rewrite !firstn_all in E. exact E.
    - exfalso. destruct Hb as [->|(b & a & -> & Hd)]; [simpl in *; lia|].
      rewrite app_length in *. simpl in *.
      assert (Hin : In a a1).
      { apply (f_equal (skipn (length b1))) in E. rewrite skipn_app, skipn_all, Nat.sub_diag in E. simpl in E.
        rewrite E, skipn_app. apply in_or_app. left. rewrite skipn_app. apply in_or_app. right.
        replace (length b1 - length b)%nat with 0%nat by lia. left. reflexivity. }
      rewrite Forall_forall in Ha. exact (Ha a Hin Hd). }
  intros b1 a1 b2 a2 E H1 H2 H3 H4. destruct (Nat.le_ge_cases (length b1) (length b2)).
  - eapply H; eauto.
  - destruct (H b2 a2 b1 a1) as [-> ->]; auto.
Qed.

Lemma collects_fun : forall apps r r', Forall (fun a => json_node (snd a)) apps ->
  collects apps r -> collects apps r' -> r = r'.
Proof.
  intros apps r r' Hn (b1 & a1 & E1 & B1 & A1 & ls1 & P1 & ->) (b2 & a2 & E2 & B2 & A2 & ls2 & P2 & ->).
  destruct (split_unique b1 a1 b2 a2) as [-> ->]; auto; [congruence|].
  f_equal. apply (picked_fun a2); auto. subst apps. apply Forall_app in Hn. apply Hn.
Qed.

(** ** Members, subscripts and unions *)
Lemma applications_nodes : forall sels cands, Forall json_node cands ->
  Forall (fun a => json_node (snd a)) (applications sels cands).
Proof.
  intros sels cands H. unfold applications. apply Forall_flat_map. eapply Forall_impl; [|exact H].
  intros v Hv. apply Forall_forall. intros a Ha. apply in_map_iff in Ha as (s & <- & _). exact Hv.
Qed.

Lemma select_exact : forall W root t cands s sels r, orders_ok W -> doc root -> Forall doc cands ->
  wf_step s -> small [s] -> is_select (st_op s) = true ->
  Forall2 (selector (counts_back (st_op s))) (st_args s) sels ->
  (runs W root t cands [s] r <->
   (exists l, r = OK (l, t) /\ collects (applications sels cands) l /\
      Forall (fun a => ~ app_overflows a) (applications sels cands)) \/
   (r = Panics /\ Exists app_overflows (applications sels cands))).
Proof.
  intros W root t cands s sels r HW Hr Hc Hwf Hs Hsel Hargs.
  assert (Hnodes : Forall json_node cands) by (eapply Forall_impl; [|exact Hc]; apply doc_node).
  assert (Hwp : wf_path [s]) by (constructor; [assumption|constructor]).
  rewrite (runs_exact W root t cands [s] r HW Hr Hc Hwp Hs).
  rewrite ev_sel_one, step_keyed by auto.
  pose proof (selector_literal _ _ _ Hargs) as Hlit.
  rewrite ev_args_literal by exact Hlit. cbn [obind g_list]. rewrite live_literal by exact Hlit.
  destruct (keyed_collects W (counts_back (st_op s)) _ _ (Some [])
    (pairs_apps W _ _ _ cands Hargs (arg_ints s Hwf) Hnodes)) as [(g & E & Hg & Ho)|[E Ho]];
    rewrite E; cbn [obind].
  - apply collects_nil in Hg. split.
    + intros ->. left. exists (g_list g). auto.
    + intros [(l & -> & Hl & _)|[-> He]].
      * do 2 f_equal. apply (collects_fun (applications sels cands)); auto. apply applications_nodes. exact Hnodes.
      * exfalso. apply Exists_exists in He as (a & Ha & Hx). rewrite Forall_forall in Ho. exact (Ho a Ha Hx).
  - split.
    + intros ->. right. auto.
    + intros [(l & _ & _ & Hn)|[-> _]]; [|reflexivity].
      exfalso. apply Exists_exists in Ho as (a & Ha & Hx). rewrite Forall_forall in Hn. exact (Hn a Ha Hx).
Qed.

(** ** Wildcards *)
Lemma wild_gathers : forall W, orders_ok W -> forall cands acc t,
  exists g t' l, applySelection_loop (fun t v acc => @OK rerr _ (valsWild W t acc v)) t cands acc = OK (g, t') /\
    g_list g = g_list acc ++ l /\ gathers children_in_order cands l.
Proof.
  intros W HW. induction cands as [|v cands IH]; intros acc t.
  - exists acc, t, []. rewrite app_nil_r. split; [reflexivity|]. split; [reflexivity|]. apply gathers_nil.
  - cbn [applySelection_loop]. destruct (valsWild W t acc v) as [acc1 t1] eqn:E. cbn [obind].
    destruct (valsWild_list W HW t acc v) as (l1 & H1 & H2 & _). rewrite E in H1. cbn [fst] in H1.
    destruct (IH acc1 t1) as (g & t' & l & H3 & H4 & H5). exists g, t', (l1 ++ l).
    split; [exact H3|]. split; [rewrite H4, H1, app_assoc; reflexivity|]. apply gathers_cons; auto.
Qed.

Lemma wild_exact : forall W root t cands, orders_ok W -> doc root -> Forall doc cands ->
  (exists r, runs W root t cands [mkStep OpWild []] r) /\
  forall r, runs W root t cands [mkStep OpWild []] r ->
    exists l t', r = OK (l, t') /\ gathers children_in_order cands l.
Proof.
  intros W root t cands HW Hr Hc.
  assert (Hx : forall r, runs W root t cands [mkStep OpWild []] r <-> r = ev_sel W root t cands [mkStep OpWild []]).
  { intro r. apply runs_exact; auto; [constructor; constructor|reflexivity]. }
  split; [eexists; apply Hx; reflexivity|]. intros r H. apply Hx in H. subst r.
  rewrite ev_sel_one. cbn [ev_step st_op st_args ev_args obind].
  unfold applySelection. cbn [g_list].
  destruct (wild_gathers W HW cands (Some []) t) as (g & t' & l & E & Hg & Hl). rewrite E. cbn [obind].
  exists l, t'. split; [rewrite Hg; reflexivity|exact Hl].
Qed.

(** ** Recursive descent *)
Definition is_nest (o : op) : bool :=
  match o with OpNestMember | OpNestSelect | OpNestUnion => true | _ => false end.

Lemma loop_keyed : forall W root s, wf_step s -> is_nest_select (st_op s) = true ->
  forallb literal (st_args s) = true -> forall dots out t,
  ev_loop W root s dots out t =
  let! g := keyed W (counts_back (st_op s)) out (pairs (map arg_val (st_args s)) dots) in OK (g, t).
Proof.
  intros W root s Hwf Hn Hl. induction dots as [|d dots IH]; intros out t; [reflexivity|].
  cbn [ev_loop]. rewrite body_keyed by auto. rewrite ev_args_literal by exact Hl. cbn [obind].
  rewrite live_literal by exact Hl. rewrite (pairs_cons _ d dots), keyed_app.
  replace (pairs (map arg_val (st_args s)) [d]) with (map (fun k => (k, d)) (map arg_val (st_args s)))
    by (unfold pairs; cbn [flat_map]; rewrite app_nil_r; reflexivity).
  destruct (keyed W (counts_back (st_op s)) out (map (fun k => (k, d)) (map arg_val (st_args s)))) as [g| | |];
    cbn [obind]; auto.
Qed.

Lemma collects_empty : collects [] [].
Proof.
  exists [], []. split; [reflexivity|]. split; [left; reflexivity|]. split; [constructor|].
  exists []. split; constructor.
Qed.

Lemma picks_nil : forall s l, picks s VNil l -> l = [].
Proof.
  intros s l H. inversion H; subst; auto; match goal with K : picks_name _ VNil _ |- _ => inversion K; auto end.
Qed.

Lemma collects_null : forall sels l, collects (applications sels [VNil]) l -> l = [].
Proof.
  intros sels l (b & a & E & _ & _ & ls & Hp & ->).
  assert (Ha : Forall (fun x => snd x = VNil) a).
  { assert (Forall (fun x : sel * val => snd x = VNil) (applications sels [VNil])).
    { unfold applications. cbn [flat_map]. rewrite app_nil_r. apply Forall_forall. intros x Hx.
      apply in_map_iff in Hx as (s & <- & _). reflexivity. }
    rewrite E in H. apply Forall_app in H. apply H. }
  clear E. induction Hp; auto. inversion Ha; subst. simpl. rewrite H2 in H. apply picks_nil in H. subst. auto.
Qed.

Lemma null_no_overflow : forall sels, ~ Exists app_overflows (applications sels [VNil]).
Proof.
  intros sels H. apply Exists_exists in H as ([s v] & Hin & Ho).
  unfold applications in Hin. cbn [flat_map] in Hin. rewrite app_nil_r in Hin.
  apply in_map_iff in Hin as (s' & E & _). injection E as <- <-. destruct s'; exact Ho.
Qed.

Lemma nest_exact : forall W root t cands s sels, orders_ok W -> doc root -> Forall doc cands ->
  wf_step s -> small [s] -> is_nest_select (st_op s) = true ->
  Forall2 (selector (counts_back (st_op s))) (st_args s) sels ->
  (exists r, runs W root t cands [s] r) /\
  forall r, runs W root t cands [s] r -> exists dots, gathers walks cands dots /\
   ((exists l t', r = OK (l, t') /\ collects (applications sels dots) l /\
      Forall (fun a => ~ app_overflows a) (applications sels dots)) \/
    (r = Panics /\ Exists app_overflows (applications sels dots))).
Proof.
  intros W root t cands s sels HW Hr Hc Hwf Hs Hsel Hargs.
  assert (Hx : forall r, runs W root t cands [s] r <-> r = ev_sel W root t cands [s]).
  { intro r. apply runs_exact; auto; constructor; auto. }
  split; [eexists; apply Hx; reflexivity|]. intros r H. apply Hx in H. subst r.
  pose proof (selector_literal _ _ _ Hargs) as Hlit.
  rewrite ev_sel_one.
  assert (E : ev_step W root s (Some cands) t = ev_loop_step W root (walker W) s (Some cands) t).
  { destruct (st_op s) eqn:Eo; try discriminate Hsel; unfold ev_step; rewrite Eo; reflexivity. }
  rewrite E. unfold ev_loop_step. cbn [g_list]. destruct cands as [|c cands].
  { exists []. split; [apply gathers_nil|]. left. exists [], t. split; [reflexivity|].
    split; [exact collects_empty|constructor]. }
  set (cs := c :: cands) in *.
  pose proof (walker_gathers W HW cs t) as Hw. destruct (walker W t cs) as [dots t1]. cbn [fst] in Hw.
  rewrite loop_keyed by auto. exists dots. split; [exact Hw|].
  assert (Hdots : Forall json_node (loop_dots dots)).
  { assert (Forall json_node dots).
    { apply Forall_forall. intros x Hx'. destruct Hw as (ls & Hls & Ed). subst dots.
      apply in_concat in Hx' as (y & Hy & Hxy). destruct (Forall2_in_r _ _ _ _ _ _ Hls Hy) as (v & Hv & Hvy).
      pose proof (walks_within _ _ _ Hvy Hxy) as Hin. rewrite Forall_forall in Hc.
      apply doc_node. exact (doc_within x v (Hc v Hv) Hin). }
    destruct dots; simpl; auto. constructor; [exact I|constructor]. }
  destruct (keyed_collects W (counts_back (st_op s)) _ _ (Some [])
    (pairs_apps W _ _ _ (loop_dots dots) Hargs (arg_ints s Hwf) Hdots)) as [(g & Eg & Hg & Ho)|[Eg Ho]];
    rewrite Eg; cbn [obind].
  - left. exists (g_list g), t1. split; [reflexivity|]. apply collects_nil in Hg.
    destruct dots as [|d dots]; [|split; [exact Hg|exact Ho]].
    cbn [loop_dots] in Hg. apply collects_null in Hg. rewrite Hg. split; [exact collects_empty|constructor].
  - destruct dots as [|d dots]; [|right; split; [reflexivity|exact Ho]].
    exfalso. cbn [loop_dots] in Ho. exact (null_no_overflow _ Ho).
Qed.

Lemma loop_wild : forall W root, orders_ok W -> forall dots out t,
  exists g t' l, ev_loop W root (mkStep OpNestWild []) dots out t = OK (g, t') /\
    g_list g = g_list out ++ l /\ gathers children_in_order dots l.
Proof.
  intros W root HW. induction dots as [|d dots IH]; intros out t.
  - exists out, t, []. rewrite app_nil_r. split; [reflexivity|]. split; [reflexivity|]. apply gathers_nil.
  - cbn [ev_loop]. unfold ev_body. cbn [st_args st_op ev_args obind].
    destruct (valsWild W t out d) as [acc1 t1] eqn:E. cbn [obind].
    destruct (valsWild_list W HW t out d) as (l1 & H1 & H2 & _). rewrite E in H1. cbn [fst] in H1.
    destruct (IH acc1 t1) as (g & t' & l & H3 & H4 & H5). exists g, t', (l1 ++ l).
    split; [exact H3|]. split; [rewrite H4, H1, app_assoc; reflexivity|]. apply gathers_cons; auto.
Qed.

Lemma nest_wild_exact : forall W root t cands, orders_ok W -> doc root -> Forall doc cands ->
  (exists r, runs W root t cands [mkStep OpNestWild []] r) /\
  forall r, runs W root t cands [mkStep OpNestWild []] r ->
    exists dots l t', r = OK (l, t') /\ gathers walks cands dots /\ gathers children_in_order dots l.
Proof.
  intros W root t cands HW Hr Hc.
  assert (Hx : forall r, runs W root t cands [mkStep OpNestWild []] r <-> r = ev_sel W root t cands [mkStep OpNestWild []]).
  { intro r. apply runs_exact; auto; [constructor; constructor|reflexivity]. }
  split; [eexists; apply Hx; reflexivity|]. intros r H. apply Hx in H. subst r.
  rewrite ev_sel_one. cbn [ev_step st_op]. unfold ev_loop_step. cbn [g_list].
  destruct cands as [|c cands].
  { exists [], [], t. split; [reflexivity|]. split; apply gathers_nil. }
  set (cs := c :: cands) in *.
  pose proof (walker_gathers W HW cs t) as Hw. destruct (walker W t cs) as [dots t1]. cbn [fst] in Hw.
  destruct (loop_wild W root HW (loop_dots dots) (Some []) t1) as (g & t' & l & E & Hg & Hl).
  rewrite E. cbn [obind]. exists dots, l, t'. split; [rewrite Hg; reflexivity|]. split; [exact Hw|].
  destruct dots as [|d dots]; [|exact Hl]. cbn [loop_dots] in Hl.
  destruct Hl as (ls & Hls & ->). inversion Hls; subst. inversion H3; subst. inversion H1; subst.
  simpl. apply gathers_nil.
Qed.

(** ** Composition *)
Lemma ev_path_app : forall W root p q out t, ev_path W root (p ++ q) out t =
  let! (o, t1) := ev_path W root p out t in ev_path W root q o t1.
Proof.
  induction p as [|s p IH]; intros q out t; [reflexivity|]. cbn [app ev_path].
  destruct (ev_step W root s out t) as [[o t1]| | |]; cbn [obind]; auto.
Qed.

(** a step sees only the values of a selection *)
Lemma ev_step_list : forall W root s out out' t, g_list out = g_list out' ->
  (let! (o, t1) := ev_step W root s out t in OK (g_list o, t1)) =
  (let! (o, t1) := ev_step W root s out' t in @OK rerr _ (g_list o, t1)).
Proof.
  intros W root s out out' t H.
  assert (L : forall prod, (let! (o, t1) := ev_loop_step W root prod s out t in OK (g_list o, t1)) =
    (let! (o, t1) := ev_loop_step W root prod s out' t in @OK rerr _ (g_list o, t1))).
  { intro prod. unfold ev_loop_step. rewrite H. destruct (g_list out') eqn:E; auto.
    cbn [obind]. rewrite H, E. reflexivity. }
  unfold ev_step. destruct (st_op s) eqn:Eo; auto;
    destruct (ev_args W root VNil t (st_args s)) as [[vs t1]| | |]; cbn [obind]; auto;
    unfold applySelection; rewrite H; auto.
Qed.

Lemma ev_path_list : forall W root ss out out' t, g_list out = g_list out' ->
  (let! (o, t1) := ev_path W root ss out t in OK (g_list o, t1)) =
  (let! (o, t1) := ev_path W root ss out' t in @OK rerr _ (g_list o, t1)).
Proof.
  induction ss as [|s ss IH]; intros out out' t H; cbn [ev_path].
  - cbn [obind]. rewrite H. reflexivity.
  - pose proof (ev_step_list W root s out out' t H) as E.
    destruct (ev_step W root s out t) as [[o1 t1]| | |], (ev_step W root s out' t) as [[o2 t2]| | |];
      cbn [obind] in *; try discriminate; auto; try congruence.
    injection E as E1 E2. subst t2. apply IH. exact E1.
Qed.

Lemma ev_sel_app : forall W root t cands p q, ev_sel W root t cands (p ++ q) =
  let! (l, t1) := ev_sel W root t cands p in ev_sel W root t1 l q.
Proof.
  intros W root t cands p q. unfold ev_sel. rewrite ev_path_app.
  destruct (ev_path W root p (Some cands) t) as [[o t1]| | |]; cbn [obind]; auto.
  apply ev_path_list. reflexivity.
Qed.

Lemma small_app : forall p q, small (p ++ q) -> small p /\ small q.
Proof.
  assert (L : forall p q a, length (list_path a (p ++ q)) = (length (list_path a p) + length (list_path a q))%nat).
  { assert (S : forall s a b, length (list_step a s) = length (list_step b s)).
    { intros. unfold list_step. destruct (loop_of (st_op s)); simpl; rewrite ?app_length; simpl; auto. }
    assert (S' : forall q a b, length (list_path a q) = length (list_path b q)).
    { induction q as [|s q IH]; intros a b; [reflexivity|]. cbn [list_path]. rewrite !app_length.
      rewrite (S s a b). f_equal. apply IH. }
    induction p as [|s p IH]; intros q a; [reflexivity|]. cbn [app list_path]. rewrite !app_length, IH.
    rewrite (S' q _ a). lia. }
  intros p q H. unfold small in *. rewrite L in H. lia.
Qed.

Lemma selection_doc : forall W root t cands ss l t', orders_ok W -> doc root -> Forall doc cands -> wf_path ss ->
  ev_sel W root t cands ss = OK (l, t') -> Forall doc l.
Proof.
  intros W root t cands ss l t' HW Hr Hc Hwf H. unfold ev_sel in H.
  destruct (ev_path W root ss (Some cands) t) as [[o t1]| | |] eqn:E; try discriminate. injection H as <- <-.
  destruct (path_outcome W root doc false HW (fun v c Hv => doc_child c v Hv) doc_node (doc_noslice root Hr) ss Hwf)
    with (out := Some cands) (t := t) as [_ Hf]; auto.
  - eapply Forall_impl; [|exact Hwf]. intros s Hs. apply guard_of_wf. exact Hs.
  - intros _. apply doc_nil.
  - eapply Hf; eauto.
Qed.

Lemma runs_app : forall W root t cands p q r, orders_ok W -> doc root -> Forall doc cands -> wf_path (p ++ q) ->
  small (p ++ q) ->
  (runs W root t cands (p ++ q) r <->
   (exists l t1, runs W root t cands p (OK (l, t1)) /\ runs W root t1 l q r) \/
   (exists e, runs W root t cands p (Fail e) /\ r = Fail e) \/
   (runs W root t cands p Panics /\ r = Panics)).
Proof.
  intros W root t cands p q r HW Hr Hc Hwf Hs. destruct (small_app p q Hs) as [Hs1 Hs2].
  apply Forall_app in Hwf as Hw. destruct Hw as [Hw1 Hw2].
  rewrite runs_exact by auto. rewrite ev_sel_app.
  pose proof (ev_sel_ends W root t cands p HW Hr Hc Hw1) as He.
  assert (Hp : forall r, runs W root t cands p r <-> r = ev_sel W root t cands p) by (intro; apply runs_exact; auto).
  destruct (ev_sel W root t cands p) as [[l t1]|e| |] eqn:E; cbn [obind]; [| | |congruence].
  - assert (Hl : Forall doc l) by (exact (selection_doc W root t cands p l t1 HW Hr Hc Hw1 E)). split.
    + intro H. left. exists l, t1. split; [apply Hp; auto|]. apply runs_exact; auto.
    + intros [(l' & t1' & H1 & H2)|[(e & H1 & _)|[H1 _]]]; apply Hp in H1; try discriminate.
      injection H1 as -> ->. apply runs_exact in H2; auto.
  - split.
    + intros ->. right. left. exists e. split; [apply Hp; reflexivity|reflexivity].
    + intros [(l' & t1' & H1 & H2)|[(e' & H1 & H2)|[H1 _]]]; apply Hp in H1; congruence.
  - split.
    + intros ->. right. right. split; [apply Hp; reflexivity|reflexivity].
    + intros [(l' & t1' & H1 & H2)|[(e' & H1 & H2)|[H1 H2]]]; apply Hp in H1; congruence.
Qed.

(** an empty selection stays empty *)
Lemma keyed_nil : forall W neg acc, keyed W neg acc [] = OK acc.
Proof. reflexivity. Qed.
Lemma ev_step_empty : forall W root s out t out' t', wf_step s -> g_list out = [] ->
  ev_step W root s out t = OK (out', t') -> g_list out' = [].
Proof.
  intros W root s out t out' t' Hwf Ho H.
  assert (L : forall prod, ev_loop_step W root prod s out t = OK (out', t') -> g_list out' = []).
  { intros prod Hl. unfold ev_loop_step in Hl. rewrite Ho in Hl. injection Hl as <- <-. exact Ho. }
  unfold ev_step in H.
  inversion Hwf; subst; cbn [st_op st_args] in *; eauto;
    destruct (ev_args W root VNil t _) as [[vs t1]| | |]; cbn [obind] in H; try discriminate;
    repeat match goal with
    | K : context [match ?vs with [] => _ | _ :: _ => _ end] |- _ => destruct vs; try discriminate
    | K : context [isNothing ?v] |- _ => destruct (isNothing v)
    end; unfold applySelection in H; rewrite ?Ho in H; cbn [applySelection_loop obind] in H;
    try (injection H as <- <-); reflexivity.
Qed.

Lemma ev_path_empty : forall W root ss out t out' t', wf_path ss -> g_list out = [] ->
  ev_path W root ss out t = OK (out', t') -> g_list out' = [].
Proof.
  induction ss as [|s ss IH]; intros out t out' t' Hwf Ho H; cbn [ev_path] in H.
  - injection H as <- <-. exact Ho.
  - inversion Hwf; subst. destruct (ev_step W root s out t) as [[o t1]| | |] eqn:E; try discriminate.
    cbn [obind] in H. eapply IH; [assumption| |exact H]. eapply ev_step_empty; eauto.
Qed.

Lemma runs_empty : forall W root t ss l t', orders_ok W -> doc root -> wf_path ss -> small ss ->
  runs W root t [] ss (OK (l, t')) -> l = [].
Proof.
  intros W root t ss l t' HW Hr Hwf Hs H. apply runs_exact in H; auto. unfold ev_sel in H.
  destruct (ev_path W root ss (Some []) t) as [[o t1]| | |] eqn:E; try discriminate. injection H as -> ->.
  eapply ev_path_empty; eauto. reflexivity.
Qed.
