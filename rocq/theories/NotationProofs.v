(** Paths that differ only in notation evaluate alike. *)
From Verif Require Import Syntax SpecSyntax SpecGrammar Value Machine Eval SpecDoc SpecSelect SpecRun SpecText SpecLayout Api
  TextProofs.
Local Open Scope Z_scope.

Section notation.
Variable W : world.
Variable root : val.

(** values that select the same *)
Inductive same_sel (b b' : bool) : val -> val -> Prop :=
| SvName : forall k v v', v = VName k \/ v = VStr k -> v' = VName k \/ v' = VStr k -> same_sel b b' v v'
| SvInt : forall n, b = b' \/ 0 <= n -> same_sel b b' (VInt64 n) (VInt64 n)
| SvSlice : forall sl sl', same_slice sl sl' -> same_sel b b' (VSlice sl) (VSlice sl')
| SvSame : forall v, b = b' -> same_sel b b' v v.

Lemma slice_same : forall sl sl' l, same_slice sl sl' -> sliceEval sl l = sliceEval sl' l.
Proof.
  intros [a b c] [a' b' c'] l (H1 & H2 & H3). unfold stride_of in H1, H3. cbn [sl_start sl_end sl_stride] in *.
  unfold sliceEval. cbn [sl_start sl_end sl_stride].
  assert (E1 : match c with Some b => cvi_bound b | None => 1 end = or_default 1 (written_bound c)) by (destruct c as [[]|]; reflexivity).
  assert (E2 : match c' with Some b => cvi_bound b | None => 1 end = or_default 1 (written_bound c')) by (destruct c' as [[]|]; reflexivity).
  rewrite E1, E2, <- H1. clear E1 E2. set (s := or_default 1 (written_bound c)) in *.
  assert (E : forall d, match b with Some b => cvi_bound b | None => d end = match b' with Some b => cvi_bound b | None => d end).
  { intro d. destruct b as [[]|], b' as [[]|]; cbn in H2; try discriminate H2; try injection H2 as H2; cbn; congruence. }
  rewrite E. clear E.
  assert (E : match a with Some b => cvi_bound b | None => if s <? 0 then l - 1 else 0 end =
              match a' with Some b => cvi_bound b | None => if s <? 0 then l - 1 else 0 end).
  { destruct H3 as [H3|[Hs H3]].
    - destruct a as [[]|], a' as [[]|]; cbn in H3; try discriminate H3; try injection H3 as H3; cbn; congruence.
    - destruct (Z.ltb_spec s 0); [lia|]. destruct a as [[]|], a' as [[]|]; cbn in H3 |- *; congruence. }
  rewrite E. reflexivity.
Qed.

Lemma sel_same : forall b b' v v', same_sel b b' v v' ->
  isNothing v = isNothing v' /\ forall acc x, valsByKey W acc x v b = valsByKey W acc x v' b'.
Proof.
  intros b b' v v' [k u u' Hu Hu'|n H|sl sl' H|u ->].
  - destruct Hu as [-> | ->], Hu' as [-> | ->]; (split; [reflexivity|intros acc x; destruct x; reflexivity]).
  - split; [reflexivity|]. intros acc x. cbn [valsByKey isInt]. destruct x; try reflexivity.
    destruct H as [-> | H]; [reflexivity|]. cbn [valByKey cvi]. destruct (Z.ltb_spec n 0); [lia|].
    rewrite !andb_false_r. reflexivity.
  - split; [reflexivity|]. intros acc x. cbn [valsByKey]. destruct x; try reflexivity.
    rewrite (slice_same sl sl' _ H). reflexivity.
  - split; reflexivity.
Qed.

Lemma select1_same : forall b b' v v' out x, same_sel b b' v v' -> select1 W v b out x = select1 W v' b' out x.
Proof. intros b b' v v' out x H. apply sel_same in H as [H1 H2]. unfold select1. rewrite H1, H2. reflexivity. Qed.

Lemma union_same : forall vs vs', Forall2 (same_sel true true) vs vs' -> forall out x, unionVals W out x vs = unionVals W out x vs'.
Proof.
  intros vs vs' H. induction H as [|v v' vs vs' H _ IH]; intros out x; [reflexivity|].
  cbn [unionVals]. apply sel_same in H as [H1 H2]. rewrite H1, H2. destruct (if isNothing v' then OK out else valsByKey W out x v' true); try reflexivity.
  cbn [obind]. apply IH.
Qed.

Lemma arg_same : forall b b' dot t a a', same_arg b b' a a' ->
  (exists v v', ev_arg W root dot t a = OK (v, t) /\ ev_arg W root dot t a' = OK (v', t) /\ same_sel b b' v v') \/
  (b = b' /\ a = a').
Proof.
  intros b b' dot t a a' [k u u' Hu Hu'|n u u' Hu Hu' H|sl sl' H|e ->].
  - left. cbn in Hu, Hu'.
    destruct Hu as [<-|[<-|[<-|[<-|[]]]]], Hu' as [<-|[<-|[<-|[<-|[]]]]]; do 2 eexists; (split; [reflexivity|]); (split; [reflexivity|]);
      apply SvName with (k := k); auto.
  - left. cbn in Hu, Hu'. destruct Hu as [<-|[<-|[]]], Hu' as [<-|[<-|[]]]; do 2 eexists; (split; [reflexivity|]); (split; [reflexivity|]);
      apply SvInt; exact H.
  - left. do 2 eexists. split; [reflexivity|]. split; [reflexivity|]. apply SvSlice, H.
  - right. auto.
Qed.

(** two lists of arguments: the same outcome but for values that select the same *)
Inductive both_args (b b' : bool) : M (list val * nat) -> M (list val * nat) -> Prop :=
| BaOK : forall vs vs' t, Forall2 (same_sel b b') vs vs' -> both_args b b' (OK (vs, t)) (OK (vs', t))
| BaSame : forall r, (forall x, r <> OK x) -> both_args b b' r r.

Lemma args_same : forall b b' dot args args', Forall2 (same_arg b b') args args' -> forall t,
  both_args b b' (ev_args W root dot t args) (ev_args W root dot t args').
Proof.
  intros b b' dot args args' H. induction H as [|a a' args args' H _ IH]; intro t; [constructor; constructor|].
  cbn [ev_args]. destruct (arg_same b b' dot t a a' H) as [(v & v' & E & E' & S)|[-> <-]].
  - rewrite E, E'. cbn [obind]. destruct (IH t) as [vs vs' t' F|r F]; cbn [obind].
    + constructor. constructor; assumption.
    + destruct r as [x| | |]; [exfalso; apply (F x eq_refl)|apply BaSame; discriminate..].
  - destruct (ev_arg W root dot t a) as [[v t']| | |]; [|apply BaSame; discriminate..]. cbn [obind].
    destruct (IH t') as [vs vs' t2 F|r F]; cbn [obind].
    + constructor. constructor; [apply SvSame; reflexivity|exact F].
    + destruct r as [x| | |]; [exfalso; apply (F x eq_refl)|apply BaSame; discriminate..].
Qed.

Lemma apply_same : forall f g, (forall t v acc, f t v acc = g t v acc) -> forall out t, applySelection t out f = applySelection t out g.
Proof.
  intros f g E out t. unfold applySelection. generalize (Some [] : gslice). revert t. induction (g_list out) as [|v l IH]; intros t acc; [reflexivity|].
  cbn [applySelection_loop]. rewrite E. destruct (g t v acc) as [[a t']| | |]; try reflexivity. cbn [obind]. apply IH.
Qed.

Lemma loop_same : forall s s', (forall d out t, ev_body W root s d out t = ev_body W root s' d out t) -> forall dots out t,
  ev_loop W root s dots out t = ev_loop W root s' dots out t.
Proof.
  intros s s' E dots. induction dots as [|d dots IH]; intros out t; [reflexivity|]. cbn [ev_loop]. rewrite E.
  destruct (ev_body W root s' d out t) as [[o t']| | |]; try reflexivity. cbn [obind]. apply IH.
Qed.

Lemma loop_step_same : forall prod s s', (forall d out t, ev_body W root s d out t = ev_body W root s' d out t) -> forall out t,
  ev_loop_step W root prod s out t = ev_loop_step W root prod s' out t.
Proof.
  intros prod s s' E out t. unfold ev_loop_step. destruct (g_list out) as [|x l]; [reflexivity|].
  destruct (prod t (x :: l)) as [vs t1]. apply loop_same, E.
Qed.

Lemma step_same : forall s s', same_step s s' -> forall out t, ev_step W root s out t = ev_step W root s' out t.
Proof.
  intros s s' [s0|o o' args args' K A] out t; [reflexivity|].
  destruct K as [[K K']|[[K K']|[[-> ->]|[-> ->]]]].
  - cbn in K, K'. destruct K as [<-|[<-|[]]], K' as [<-|[<-|[]]]; unfold ev_step; cbn [st_op st_args];
      destruct (args_same _ _ VNil _ _ A t) as [vs vs' t1 F|r F];
      try (destruct r as [x| | |]; [exfalso; apply (F x eq_refl)|reflexivity..]);
      cbn [obind]; (destruct F as [|v v' vs vs' S F]; [reflexivity|]); (destruct F; [|reflexivity]);
      apply sel_same in S as [S1 S2]; rewrite S1; (destruct (isNothing v'); [reflexivity|]);
      apply apply_same; intros; cbn [counts_back] in S2; rewrite S2; reflexivity.
  - cbn in K, K'. destruct K as [<-|[<-|[]]], K' as [<-|[<-|[]]]; unfold ev_step; cbn [st_op];
      apply loop_step_same; intros d out' t'; unfold ev_body; cbn [st_op st_args];
      destruct (args_same _ _ d _ _ A t') as [vs vs' t1 F|r F];
      try (destruct r as [x| | |]; [exfalso; apply (F x eq_refl)|reflexivity..]);
      cbn [obind]; (destruct F as [|v v' vs vs' S F]; [reflexivity|]); (destruct F; [|reflexivity]);
      cbn [counts_back] in S; rewrite (select1_same _ _ _ _ _ _ S); reflexivity.
  - unfold ev_step; cbn [st_op st_args].
    destruct (args_same _ _ VNil _ _ A t) as [vs vs' t1 F|r F];
      try (destruct r as [x| | |]; [exfalso; apply (F x eq_refl)|reflexivity..]).
    cbn [obind]. apply apply_same. intros t0 v acc. rewrite (union_same _ _ F). reflexivity.
  - unfold ev_step; cbn [st_op]. apply loop_step_same; intros d out' t'; unfold ev_body; cbn [st_op st_args].
    destruct (args_same _ _ d _ _ A t') as [vs vs' t1 F|r F];
      try (destruct r as [x| | |]; [exfalso; apply (F x eq_refl)|reflexivity..]).
    cbn [obind]. rewrite (union_same _ _ F). destruct F; reflexivity.
Qed.

Lemma steps_same : forall ss ss', Forall2 same_step ss ss' -> forall out t, ev_path W root ss out t = ev_path W root ss' out t.
Proof.
  intros ss ss' H. induction H as [|s s' ss ss' H _ IH]; intros out t; [reflexivity|].
  cbn [ev_path]. rewrite (step_same s s' H). destruct (ev_step W root s' out t) as [[o t']| | |]; try reflexivity. cbn [obind]. apply IH.
Qed.
End notation.

Lemma eval_notation : forall TX s ss jp TX' s' ss' jp' W t root r, accepted TX s ss jp -> fits jp -> accepted TX' s' ss' jp' -> fits jp' ->
  orders_ok W -> doc root -> Forall2 same_step ss ss' -> (JP_Eval W t jp root r <-> JP_Eval W t jp' root r).
Proof.
  intros TX s ss jp TX' s' ss' jp' W t root r A F A' F' HW Hr S.
  rewrite (text_eval TX s ss jp A F W t root r HW Hr), (text_eval TX' s' ss' jp' A' F' W t root r HW Hr).
  unfold ev_run. rewrite (steps_same W root ss ss' S). reflexivity.
Qed.

From Verif Require Import SpecTokens Parser Coder ParserExact LayoutProofs.

Lemma compile_tokens : forall TX s s' ss jp, accepted TX s ss jp -> is_bytes s' ->
  same_tokens (o_parse_float TX) false InPath s s' ->
  exists jp', accepted TX s' ss jp' /\ jp_prog jp' = jp_prog jp.
Proof.
  intros TX s s' ss jp (H & Hf & HP & HC) H' S.
  pose proof (proj1 (path_tokens TX s s' H H' S ss) HP) as HP'.
  unfold JP_Compile in HC. rewrite HP in HC. destruct (Compile ss) as [prog| | |] eqn:E; try discriminate HC. injection HC as <-.
  exists (mkJP s' prog). split; [|reflexivity]. split; [exact H'|]. split; [exact Hf|]. split; [exact HP'|].
  unfold JP_Compile. rewrite HP', E. reflexivity.
Qed.
