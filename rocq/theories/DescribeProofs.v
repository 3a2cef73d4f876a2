(** Proofs about the texts of steps. *)
From Verif Require Import Syntax Listing Describe SpecDescribe MessageProofs SpecSyntax Machine Eval Api SpecText TextProofs SpecRun SpecDoc Examples.
Local Open Scope Z_scope.

(** ** Words *)
Definition letter (c : Z) : bool := (65 <=? c) && (c <=? 90) || (97 <=? c) && (c <=? 122).
Definition stops (x : bytes) : Prop := match x with [] => True | c :: _ => letter c = false /\ ~ 48 <= c <= 57 end.

Lemma words_app : forall u v x y, forallb letter u = true -> forallb letter v = true -> stops x -> stops y ->
  u ++ x = v ++ y -> u = v /\ x = y.
Proof.
  induction u as [|c u IH]; intros [|d v] x y Hu Hv Hx Hy E; cbn in E; auto.
  - subst x. cbn in Hx, Hv. destruct Hx as [Hx _]. rewrite Hx in Hv. discriminate.
  - subst y. cbn in Hy, Hu. destruct Hy as [Hy _]. rewrite Hy in Hu. discriminate.
  - cbn in Hu, Hv. apply andb_prop in Hu as [_ Hu], Hv as [_ Hv]. injection E as -> E.
    apply IH in E as [-> ->]; auto.
Qed.

Lemma op_letters : forall o, forallb letter (op_GoString o) = true.
Proof. destruct o; reflexivity. Qed.

Lemma op_first : forall o x, exists r, op_GoString o ++ x = 79 :: r.
Proof. destruct o; intros x; eexists; reflexivity. Qed.

Definition op_code (w : bytes) : option op := find (fun o => if list_eq_dec Z.eq_dec (op_GoString o) w then true else false) all_ops.

Lemma op_code_ok : forall o, op_code (op_GoString o) = Some o.
Proof. destruct o; vm_compute; reflexivity. Qed.

Lemma op_words_inj : forall o o', op_GoString o = op_GoString o' -> o = o'.
Proof. intros o o' E. apply (f_equal op_code) in E. rewrite !op_code_ok in E. congruence. Qed.

Lemma ops_app : forall o o' x y, stops x -> stops y -> op_GoString o ++ x = op_GoString o' ++ y -> o = o' /\ x = y.
Proof. intros o o' x y Hx Hy E. apply words_app in E as [E ->]; auto using op_letters, op_words_inj. Qed.

Lemma stops_digit : forall x, stops x -> no_digit x.
Proof. intros [|c x]; cbn; tauto. Qed.

Lemma int_first : forall z x, exists c r, sprint_int z ++ x = c :: r /\ 45 <= c < 58.
Proof.
  intros z x. unfold sprint_int. destruct (z <? 0).
  - eexists _, _. split; [reflexivity|lia].
  - pose proof (DecimalN.Unsigned.of_to (Z.to_N z)) as K. destruct (N.to_uint (Z.to_N z)) eqn:E; cbn; try (do 2 eexists; split; [reflexivity|lia]).
    exfalso. destruct (Z.to_N z); [discriminate E|]. revert E. apply DecimalPos.Unsigned.to_uint_nonnil.
Qed.

(** ** Bounds *)
Lemma outermost_opcode : forall e, outermost e = opcode e.
Proof. destruct e; reflexivity. Qed.

Lemma bounds_app : forall b b' x y, stops x -> stops y -> bound_GoSyntax b ++ x = bound_GoSyntax b' ++ y ->
  alike_bound b b' /\ x = y.
Proof.
  intros [[z|e]|] [[z'|e']|] x y Hx Hy E; cbn [bound_GoSyntax] in E.
  - apply sprint_int_app in E as [-> ->]; auto using stops_digit. split; [constructor|reflexivity].
  - destruct (int_first z x) as (c & r & K & Hc), (op_first (opcode e') y) as (r' & K'). rewrite K, K' in E. injection E as -> _. lia.
  - destruct (int_first z x) as (c & r & K & Hc). rewrite K in E. injection E as -> _. lia.
  - destruct (int_first z' y) as (c & r & K & Hc), (op_first (opcode e) x) as (r' & K'). rewrite K, K' in E. injection E as E _. lia.
  - apply ops_app in E as [E ->]; auto. split; [constructor; rewrite !outermost_opcode; exact E|reflexivity].
  - destruct (op_first (opcode e) x) as (r' & K'). rewrite K' in E. discriminate E.
  - destruct (int_first z' y) as (c & r & K & Hc). rewrite K in E. injection E as E _. lia.
  - destruct (op_first (opcode e') y) as (r' & K'). rewrite K' in E. discriminate E.
  - apply app_inv_head in E as ->. split; [constructor|reflexivity].
Qed.

Lemma bounds_alike : forall b b', alike_bound b b' -> bound_GoSyntax b = bound_GoSyntax b'.
Proof. intros b b' []; cbn [bound_GoSyntax]; try reflexivity. rewrite <- !outermost_opcode, H. reflexivity. Qed.

Lemma slices_app : forall s s' x y, slice_GoSyntax s ++ x = slice_GoSyntax s' ++ y ->
  alike_arg (PSlice s) (PSlice s') /\ x = y.
Proof.
  intros s s' x y E. unfold slice_GoSyntax in E. rewrite <- !app_assoc in E. apply app_inv_head in E.
  assert (S : forall r, stops (b_of ", End:" ++ r)) by (intros r; split; [reflexivity|cbn; lia]).
  assert (S' : forall r, stops (b_of ", Stride:" ++ r)) by (intros r; split; [reflexivity|cbn; lia]).
  assert (S'' : forall r, stops (b_of "}" ++ r)) by (intros r; split; [reflexivity|cbn; lia]).
  apply bounds_app in E as [A E]; auto. apply app_inv_head in E.
  apply bounds_app in E as [B E]; auto. apply app_inv_head in E.
  apply bounds_app in E as [C E]; auto. apply app_inv_head in E as ->.
  split; [constructor; assumption|reflexivity].
Qed.

(** ** Arguments *)
Section args.
Variable F : printers.
Hypothesis Q : quoting F.

Definition first_of (a : pval) (c : Z) : Prop :=
  match a with PInt _ => 45 <= c < 58 | PStr _ | PName _ => c = 34 | PSlice _ => c = 38 | PExpr _ => c = 79 end.

Lemma arg_first : forall a x, exists c r, pval_GoSyntax F a ++ x = c :: r /\ first_of a c.
Proof.
  intros a x. destruct a; cbn [pval_GoSyntax first_of].
  - destruct (int_first z x) as (c & r & E & H). eauto.
  - destruct Q as [Q1 _], (Q1 s) as (r & ->). cbn. eauto.
  - destruct Q as [Q1 _], (Q1 s) as (r & ->). cbn. eauto.
  - do 2 eexists. split; reflexivity.
  - destruct (op_first (opcode e) x) as (r & E). eauto.
Qed.

Lemma args_app : forall a a' x y, stops x -> stops y -> pval_GoSyntax F a ++ x = pval_GoSyntax F a' ++ y ->
  alike_arg a a' /\ x = y.
Proof.
  intros a a' x y Hx Hy E.
  assert (K : exists c, first_of a c /\ first_of a' c).
  { destruct (arg_first a x) as (c & r & E1 & H1), (arg_first a' y) as (c' & r' & E2 & H2).
    rewrite E1, E2 in E. injection E as -> _. eauto. }
  destruct K as (c & K1 & K2).
  destruct a, a'; cbn [first_of] in K1, K2; try (exfalso; lia); cbn [pval_GoSyntax] in E.
  - apply sprint_int_app in E as [-> ->]; auto using stops_digit. split; [constructor|reflexivity].
  - apply Q in E as [-> ->]. split; [eapply AaStrings; eauto|reflexivity].
  - apply Q in E as [-> ->]. split; [eapply AaStrings; eauto|reflexivity].
  - apply Q in E as [-> ->]. split; [eapply AaStrings; eauto|reflexivity].
  - apply Q in E as [-> ->]. split; [eapply AaStrings; eauto|reflexivity].
  - apply slices_app, E.
  - apply ops_app in E as [E ->]; auto. split; [constructor; rewrite !outermost_opcode; exact E|reflexivity].
Qed.

Lemma rest_stops : forall l x, stops x -> stops (args_String F l ++ x).
Proof. intros [|a l] x H; cbn [args_String]; [exact H|]. split; [reflexivity|cbn; lia]. Qed.

Lemma lists_app : forall l l' x y, args_String F l ++ b_of ")" ++ x = args_String F l' ++ b_of ")" ++ y ->
  Forall2 alike_arg l l' /\ x = y.
Proof.
  induction l as [|a l IH]; intros [|a' l'] x y E; cbn [args_String] in E.
  - apply (app_inv_head (b_of ")")) in E as ->. auto.
  - discriminate E.
  - discriminate E.
  - rewrite <- !app_assoc in E. apply app_inv_head in E.
    assert (S : forall r, stops (b_of ")" ++ r)) by (intros r; split; [reflexivity|cbn; lia]).
    apply args_app in E as [A E]; auto using rest_stops. apply IH in E as [B ->]. auto.
Qed.

Lemma steps_apart : forall st st', Step_String F st = Step_String F st' -> alike st st'.
Proof.
  intros [o l] [o' l'] E. unfold Step_String in E. cbn [st_op st_args] in E.
  apply ops_app in E as [-> E].
  2: { destruct l; [exact I|split; [reflexivity|cbn; lia]]. }
  2: { destruct l'; [exact I|split; [reflexivity|cbn; lia]]. }
  split; [reflexivity|]. cbn [st_args]. destruct l as [|a l], l' as [|a' l']; try discriminate E; [constructor|].
  apply app_inv_head in E.
  assert (S : forall r, stops (b_of ")" ++ r)) by (intros r; split; [reflexivity|cbn; lia]).
  rewrite <- (app_nil_r (b_of ")")) in E.
  apply args_app in E as [A E]; auto using rest_stops. apply lists_app in E as [B _]. auto.
Qed.
End args.

Lemma args_alike : forall F a a', alike_arg a a' -> pval_GoSyntax F a = pval_GoSyntax F a'.
Proof.
  intros F a a' [z|b b' s [->| ->] [->| ->]|s s' A B C|e e' E]; try reflexivity; cbn [pval_GoSyntax].
  - unfold slice_GoSyntax. rewrite (bounds_alike _ _ A), (bounds_alike _ _ B), (bounds_alike _ _ C). reflexivity.
  - rewrite <- !outermost_opcode, E. reflexivity.
Qed.

Lemma steps_alike : forall F st st', alike st st' -> Step_String F st = Step_String F st'.
Proof.
  intros F [o l] [o' l'] [E H]. cbn [st_op st_args] in *. subst o'. unfold Step_String. cbn [st_op st_args].
  destruct H as [|a a' l l' A H]; [reflexivity|]. rewrite (args_alike F _ _ A).
  replace (args_String F l') with (args_String F l); [reflexivity|].
  clear A. induction H as [|b b' l l' B H IH]; cbn [args_String]; [reflexivity|]. rewrite (args_alike F _ _ B), IH. reflexivity.
Qed.

Lemma step_strings : forall F, quoting F -> forall st st', Step_String F st = Step_String F st' <-> alike st st'.
Proof. intros F Q st st'. split; [apply steps_apart, Q|apply steps_alike]. Qed.

(** ** Steps with no expressions *)
Definition same_key (v v' : val) : Prop :=
  v = v' \/ (exists s, (v = VStr s \/ v = VName s) /\ (v' = VStr s \/ v' = VName s)) \/
  exists s s', v = VSlice s /\ v' = VSlice s' /\ alike_arg (PSlice s) (PSlice s').

Lemma bound_cvi : forall b b', alike_bound (Some b) (Some b') -> cvi_bound b = cvi_bound b'.
Proof. intros b b' H. inversion H; reflexivity. Qed.

Lemma bound_default : forall b b' (d : Z), alike_bound b b' ->
  match b with Some b => cvi_bound b | None => d end = match b' with Some b => cvi_bound b | None => d end.
Proof. intros [b|] [b'|] d H; [apply bound_cvi, H|inversion H|inversion H|reflexivity]. Qed.

Lemma slice_same : forall s s' l, alike_arg (PSlice s) (PSlice s') -> sliceEval s l = sliceEval s' l.
Proof.
  intros s s' l H. inversion H as [|a a' x [K|K] _|s0 s0' A B C|]; try discriminate K. subst s0 s0'.
  unfold sliceEval. rewrite (bound_default _ _ 1 C). set (st := match sl_stride s' with Some b => cvi_bound b | None => 1 end).
  rewrite (bound_default _ _ (if st <? 0 then l - 1 else 0) A), (bound_default _ _ (if st <? 0 then - l - 1 else l) B). reflexivity.
Qed.

Section same.
Variable W : world.

Lemma nothing_same : forall v v', same_key v v' -> isNothing v = isNothing v'.
Proof. intros v v' [->|[(s & [->| ->] & [->| ->])|(s & s' & -> & -> & _)]]; reflexivity. Qed.

Lemma keys_same : forall v v' out src neg, same_key v v' -> valsByKey W out src v neg = valsByKey W out src v' neg.
Proof.
  intros v v' out src neg [->|[(s & [->| ->] & [->| ->])|(s & s' & -> & -> & K)]]; try (destruct src; reflexivity).
  cbn [valsByKey]. destruct src; try reflexivity. rewrite (slice_same _ _ _ K). reflexivity.
Qed.

Lemma unions_same : forall vs vs', Forall2 same_key vs vs' -> forall out src, unionVals W out src vs = unionVals W out src vs'.
Proof.
  induction 1 as [|v v' vs vs' K H IH]; intros out src; cbn [unionVals]; [reflexivity|].
  rewrite (nothing_same _ _ K), (keys_same _ _ out src true K). destruct (isNothing v').
  - cbn. apply IH.
  - destruct (valsByKey W out src v' true); cbn; try reflexivity. apply IH.
Qed.

Variable root : val.

Lemma arg_same : forall dot t a a', alike_arg a a' -> (forall e, a <> PExpr e) ->
  exists v v', ev_arg W root dot t a = OK (v, t) /\ ev_arg W root dot t a' = OK (v', t) /\ same_key v v'.
Proof.
  intros dot t a a' [z|b b' s B B'|s s' B1 B2 B3|e e' Ee] N.
  - exists (VInt64 z), (VInt64 z). split; [reflexivity|]. split; [reflexivity|]. left. reflexivity.
  - destruct B as [->| ->], B' as [->| ->]; do 2 eexists; (split; [reflexivity|]); (split; [reflexivity|]); right; left; exists s; auto.
  - exists (VSlice s), (VSlice s'). split; [reflexivity|]. split; [reflexivity|]. right. right. exists s, s'. split; [reflexivity|]. split; [reflexivity|]. constructor; assumption.
  - destruct (N e eq_refl).
Qed.

Lemma args_same : forall dot t l l', Forall2 alike_arg l l' -> (forall e, ~ In (PExpr e) l) ->
  exists vs vs', ev_args W root dot t l = OK (vs, t) /\ ev_args W root dot t l' = OK (vs', t) /\ Forall2 same_key vs vs'.
Proof.
  intros dot t l l' H. induction H as [|a a' l l' A H IH]; intros N.
  - exists [], []. auto.
  - destruct IH as (vs & vs' & E & E' & K). { intros e He. apply (N e). right. exact He. }
    destruct (arg_same dot t a a' A) as (v & v' & D & D' & K'). { intros e ->. apply (N e). left. reflexivity. }
    exists (v :: vs), (v' :: vs'). cbn [ev_args]. rewrite D, D'. cbn. rewrite E, E'. cbn. auto.
Qed.

Lemma body_same : forall s s', wf_step s -> alike s s' -> constant s -> forall dot out t,
  ev_body W root s dot out t = ev_body W root s' dot out t.
Proof.
  intros [o l] [o' l'] Hw [E H] N dot out t. cbn [st_op st_args] in *. subst o'.
  unfold ev_body. cbn [st_op st_args].
  destruct (args_same dot t l l' H N) as (vs & vs' & -> & -> & K). cbn [obind].
  destruct o; try reflexivity.
  all: try (inversion Hw; subst; exfalso; eapply N; left; reflexivity).
  - destruct K as [|v v' ? ? K [|]]; try reflexivity. unfold select1. rewrite (nothing_same _ _ K), (keys_same _ _ _ _ _ K). reflexivity.
  - destruct K as [|v v' ? ? K [|]]; try reflexivity. unfold select1. rewrite (nothing_same _ _ K), (keys_same _ _ _ _ _ K). reflexivity.
  - rewrite (unions_same _ _ K). reflexivity.
  - destruct K; reflexivity.
Qed.

Lemma loop_same : forall s s', wf_step s -> alike s s' -> constant s -> forall dots out t,
  ev_loop W root s dots out t = ev_loop W root s' dots out t.
Proof.
  intros s s' Hw H N dots. induction dots as [|d dots IH]; intros out t; cbn [ev_loop]; [reflexivity|].
  rewrite (body_same s s' Hw H N). destruct (ev_body W root s' d out t) as [[o t']| | |]; cbn; auto.
Qed.

Lemma applied_same : forall f g t out, (forall t v acc, f t v acc = g t v acc) -> applySelection t out f = applySelection t out g.
Proof.
  intros f g t out H. unfold applySelection. generalize (g_list out), (Some (@nil val)). intros l. revert t.
  induction l as [|v l IH]; intros t o; cbn [applySelection_loop]; [reflexivity|].
  rewrite H. destruct (g t v o) as [[o' t']| | |]; cbn; auto.
Qed.

Lemma step_same : forall s s', wf_step s -> alike s s' -> constant s -> forall out t,
  ev_step W root s out t = ev_step W root s' out t.
Proof.
  intros s s' Hw H N out t. pose proof (loop_same s s' Hw H N) as L. destruct H as [E H]. unfold ev_step. rewrite <- E.
  destruct (args_same VNil t _ _ H N) as (vs & vs' & -> & -> & K). cbn [obind].
  destruct (st_op s); try reflexivity.
  all: try (unfold ev_loop_step; destruct (g_list out); [reflexivity|]; destruct (stepping W t _) || destruct (walker W t _); apply L).
  - destruct K as [|v v' ? ? K [|]]; try reflexivity. rewrite (nothing_same _ _ K). destruct (isNothing v'); [reflexivity|].
    apply applied_same. intros. rewrite (keys_same _ _ _ _ _ K). reflexivity.
  - destruct K as [|v v' ? ? K [|]]; try reflexivity. rewrite (nothing_same _ _ K). destruct (isNothing v'); [reflexivity|].
    apply applied_same. intros. rewrite (keys_same _ _ _ _ _ K). reflexivity.
  - apply applied_same. intros. rewrite (unions_same _ _ K). reflexivity.
  - destruct K; reflexivity.
Qed.

Lemma path_same : forall ss ss', Forall wf_step ss -> Forall2 alike ss ss' -> Forall constant ss -> forall out t,
  ev_path W root ss out t = ev_path W root ss' out t.
Proof.
  intros ss ss' Hw H N. induction H as [|s s' ss ss' A H IH]; intros out t; cbn [ev_path]; [reflexivity|].
  inversion Hw; inversion N; subst. rewrite (step_same s s'); auto. destruct (ev_step W root s' out t) as [[o t']| | |]; cbn; auto.
Qed.
End same.

Lemma strings_alike : forall F, quoting F -> forall ss ss', map (Step_String F) ss = map (Step_String F) ss' -> Forall2 alike ss ss'.
Proof.
  intros F Q. induction ss as [|s ss IH]; intros [|s' ss'] E; try discriminate E; constructor.
  - injection E as E _. apply (steps_apart F Q), E.
  - injection E as _ E. apply IH, E.
Qed.

Lemma constant_strings : forall F TX s s' ss ss' jp jp', quoting F -> accepted TX s ss jp -> fits jp -> accepted TX s' ss' jp' -> fits jp' ->
  Forall constant ss -> map (Step_String F) ss = map (Step_String F) ss' ->
  forall W t root r, orders_ok W -> doc root -> (JP_Eval W t jp root r <-> JP_Eval W t jp' root r).
Proof.
  intros F TX s s' ss ss' jp jp' Q Ha Hf Ha' Hf' N E W t root r HW Hr.
  rewrite (text_eval TX s ss jp Ha Hf W t root r HW Hr), (text_eval TX s' ss' jp' Ha' Hf' W t root r HW Hr).
  unfold ev_run. rewrite (path_same W root ss ss'); [tauto|exact (text_wf TX s ss jp Ha)|apply (strings_alike F Q), E|exact N].
Qed.

Lemma strings_ambiguous : exists s s' ss ss' jp jp' W root, accepted x_text s ss jp /\ accepted x_text s' ss' jp' /\
  doc root /\ (forall F, map (Step_String F) ss = map (Step_String F) ss') /\
  JP_Eval W 0 jp root (OK [VInt64 2]) /\ JP_Eval W 0 jp' root (OK [VInt64 1]).
Proof.
  set (s := b_of "$[?(@ > 1)]"). set (s' := b_of "$[?(2 > @)]").
  exists s, s', (steps_of s), (steps_of s'), (jp_of s), (jp_of s'), x_world, (VArr [VInt64 1; VInt64 2]).
  split; [apply acceptedb_ok; vm_compute; reflexivity|]. split; [apply acceptedb_ok; vm_compute; reflexivity|].
  split; [apply docb_doc; reflexivity|]. split; [intro F; vm_compute; reflexivity|].
  split; (split; [discriminate|]; exists 100%nat; vm_compute; reflexivity).
Qed.
