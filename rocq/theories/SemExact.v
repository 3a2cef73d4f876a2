(** Filters, script subscripts and their scope, from the meaning of steps. *)
From Coq Require Import QArith Permutation.
From Verif Require Import SpecSyntax Machine Eval Coder Api ProgramProofs CoderProofs MachineProofs SpecDoc DocProofs SpecSelect
  SpecRun RunProofs SelectProofs WalkProofs ExprProofs StepProofs SpecCode CodeProofs EvalProofs TextProofs
  StepExact SelectFinal SpecOp SpecExpr SpecText SpecSem SemProofs SemFinal UniqueProofs UniquePath OrderProofs Examples.
Local Open Scope Z_scope.

Section exact.
Variable W : world.
Variable root : val.
Variable t : nat.
Variable cands : list val.
Hypothesis HW : orders_ok W.
Hypothesis Hr : doc root.
Hypothesis Hc : Forall doc cands.

Lemma runs_some : forall ss, wf_path ss -> small ss -> exists r, runs W root t cands ss r.
Proof. intros ss Hwf Hs. eexists. apply runs_exact; auto. Qed.

Lemma runs_step : forall s r, wf_step s -> small [s] -> runs W root t cands [s] r -> step_means W root s cands (selected r).
Proof.
  intros s r Hw Hs H. apply runs_means in H; auto; [|constructor; auto].
  inversion H as [|? ? ? l ? H1 H2| |]; subst; try assumption. inversion H2; subst. exact H1.
Qed.

Lemma filter_exact : forall e, wf_expr e -> small [mkStep OpFilter [PExpr e]] ->
  (exists r, runs W root t cands [mkStep OpFilter [PExpr e]] r) /\
  forall r, runs W root t cands [mkStep OpFilter [PExpr e]] r ->
    exists dots, rounds children_in_order cands dots /\ keeps W root e dots (selected r).
Proof.
  intros e He Hs. assert (Hw : wf_step (mkStep OpFilter [PExpr e])) by (constructor; exact He).
  split; [apply runs_some; auto; constructor; auto|]. intros r H. apply runs_step in H; auto.
  inversion H; subst; try discriminate.
  match goal with A : st_args _ = [PExpr ?x] |- _ => cbn in A; injection A as <- end. eauto.
Qed.

Lemma children_none : forall v, children v = [] -> children_in_order v [].
Proof.
  intros v H. destruct v; try (constructor; reflexivity).
  - cbn in H. subst. constructor.
  - cbn in H. destruct m; [|discriminate]. change (@nil val) with (map (@snd bytes val) []). constructor. constructor.
Qed.

Lemma filter_gathers : forall e r, wf_expr e -> small [mkStep OpFilter [PExpr e]] ->
  (cands = [] \/ Exists (fun v => children v <> []) cands) ->
  runs W root t cands [mkStep OpFilter [PExpr e]] r ->
  exists dots, gathers children_in_order cands dots /\ keeps W root e dots (selected r).
Proof.
  intros e r He Hs Hx H. destruct (proj2 (filter_exact e He Hs) r H) as (dots & Hd & Hk). exists dots. split; [|exact Hk].
  inversion Hd as [E1 E2|? N (ls & F & E)|]; subst; auto; [apply gathers_nil|]. exfalso.
  destruct Hx as [->|Hx]; [contradiction|]. apply Exists_exists in Hx as (v & Hv & Hx).
  clear - F E Hv Hx. induction F as [|v' l vs ls P F IH]; [contradiction|].
  cbn [concat] in E. symmetry in E. apply app_eq_nil in E as [-> E]. destruct Hv as [->|Hv]; [|apply IH; auto].
  apply Hx. inversion P as [|m m' Hp Q|? Hn]; subst; try reflexivity.
  - destruct m'; [|discriminate]. apply Permutation_sym, Permutation_nil in Hp. subst. reflexivity.
  - destruct v; reflexivity || discriminate.
Qed.

Lemma rounds_visits : forall dots, rounds walks cands dots -> rounds visits_containers cands dots.
Proof.
  intros dots H. inversion H; subst; [apply RdNone|apply RdNull|apply RdAll]; auto; apply gathers_visits; auto.
Qed.

Lemma nest_filter_exact : forall e, wf_expr e -> small [mkStep OpNestFilter [PExpr e]] ->
  (exists r, runs W root t cands [mkStep OpNestFilter [PExpr e]] r) /\
  forall r, runs W root t cands [mkStep OpNestFilter [PExpr e]] r ->
    exists dots, rounds visits_containers cands dots /\ keeps W root e dots (selected r).
Proof.
  intros e He Hs. assert (Hw : wf_step (mkStep OpNestFilter [PExpr e])) by (constructor; exact He).
  split; [apply runs_some; auto; constructor; auto|]. intros r H. apply runs_step in H; auto.
  inversion H; subst; try discriminate.
  match goal with A : st_args _ = [PExpr ?x] |- _ => cbn in A; injection A as <- end. eauto using rounds_visits.
Qed.

Lemma nest_script_exact : forall s, wf_step s -> small [s] -> is_nest_select (st_op s) = true ->
  (exists r, runs W root t cands [s] r) /\
  forall r, runs W root t cands [s] r -> exists dots a, rounds visits_containers cands dots /\
    sweeps W root (counts_back (st_op s)) (st_args s) dots a /\
    match a with
    | OK apps => exists l, selected r = OK l /\ collects apps l
    | Fail err => r = Fail err
    | Panics => r = Panics
    | OutOfFuel => False
    end.
Proof.
  intros s Hw Hs Ho. split; [apply runs_some; auto; constructor; auto|]. intros r H. apply runs_step in H; auto.
  assert (HF : forall x, selected r = Fail x -> r = Fail x) by (intros x; destruct r as [[]| | |]; cbn; congruence).
  assert (HP : selected r = Panics -> r = Panics) by (destruct r as [[]| | |]; cbn; congruence).
  inversion H as [? A|? ? A|? A|? A|? ? ? A|? ? A|? ? ? A|dots apps l A D B E F|dots err A D B E|dots A D B E]; subst;
    try (rewrite A in Ho; discriminate Ho); try (destruct (st_op s); try discriminate A; discriminate Ho).
  - exists dots, (OK apps). split; [apply rounds_visits; exact D|]. split; [exact B|]. exists l. auto.
  - exists dots, (Fail err). split; [apply rounds_visits; exact D|]. split; [exact B|]. apply HF. congruence.
  - exists dots, Panics. split; [apply rounds_visits; exact D|]. split; [exact B|]. apply HP. congruence.
Qed.

Lemma script_exact : forall o e, In o [OpMember; OpSelect] -> wf_expr e -> small [mkStep o [PExpr e]] ->
  (exists r, runs W root t cands [mkStep o [PExpr e]] r) /\
  forall r, runs W root t cands [mkStep o [PExpr e]] r ->
    exists rv, means W root VNil e rv /\
    match rv with
    | OK v => exists a l t', acts_as W (counts_back o) v a /\ r = OK (l, t') /\
        match a with None => l = [] | Some s => gathers (picks s) cands l end
    | Fail err => r = Fail err
    | _ => False
    end.
Proof.
  intros o e Ho He Hs. assert (Hw : wf_step (mkStep o [PExpr e])).
  { destruct Ho as [<-|[<-|[]]]; constructor; constructor; exact He. }
  assert (Hi : is_select o = true) by (destruct Ho as [<-|[<-|[]]]; reflexivity).
  split; [apply runs_some; auto; constructor; auto|]. intros r H. apply runs_step in H; auto.
  assert (HF : forall x, selected r = Fail x -> r = Fail x) by (intros x; destruct r as [[]| | |]; cbn; congruence).
  assert (HO : forall l, OK l = selected r -> exists t', r = OK (l, t')).
  { intros l E. destruct r as [[l' t']| | |]; cbn in E; try discriminate. injection E as ->. eauto. }
  assert (HA : forall dot back q, args_mean W root dot back [PExpr e] q ->
    (exists v a, means W root dot e (OK v) /\ acts_as W back v a /\ q = OK (match a with Some s => [s] | None => [] end)) \/
    (exists err, means W root dot e (Fail err) /\ q = Fail err)).
  { intros dot back q Hq. inversion Hq as [? os F|pre a post os err F E1 E2]; subst.
    - inversion F as [|? x ? os' F1 F2]; subst. inversion F2; subst. inversion F1 as [| | | |? v ? M1 M2|]; subst.
      left. exists v, x. split; [exact M1|]. split; [exact M2|]. cbn. rewrite app_nil_r. reflexivity.
    - right. exists err. destruct pre as [|? [|]]; try discriminate. injection E2 as E2 E3. subst.
      inversion E1; subst. auto. }
  inversion H as [? A|sels l A B C D E|sels A B C D|err A B D|? ? ? A|? ? A|? ? ? A|? ? ? A|? ? A|? A]; subst; cbn [st_op st_args] in *;
    try (rewrite A in Hi; discriminate Hi); try (destruct o; try discriminate A; discriminate Hi).
  - apply HA in B as [(v & a & M1 & M2 & M3)|(err & _ & M)]; [|discriminate]. exists (OK v). split; [exact M1|].
    apply HO in E as (t' & ->). exists a, l, t'. split; [exact M2|]. split; [reflexivity|]. injection M3 as ->.
    apply collects_gathers in D.
    + destruct a as [s|].
      * eapply gathers_impl; [|exact D]. intros v0 l0. apply picks_one.
      * destruct D as (ls & F & ->). clear - F. induction F as [|v l vs ls (q & Q1 & ->) F IH]; [reflexivity|].
        inversion Q1; subst. exact IH.
    + apply Forall_forall. intros x Hx. apply in_flat_map in Hx as (v0 & _ & Hx). apply in_map_iff in Hx as (s0 & <- & Hs0).
      destruct a as [s|]; [|contradiction]. destruct Hs0 as [<-|[]]. inversion M2; subst; intros [].
  - apply HA in B as [(v & a & M1 & M2 & M3)|(err & _ & M)]; [|discriminate]. injection M3 as ->.
    exfalso. apply Exists_exists in C as (x & Hx & Hov). apply in_flat_map in Hx as (v0 & _ & Hx). apply in_map_iff in Hx as (s0 & <- & Hs0).
    destruct a as [s|]; [|contradiction]. destruct Hs0 as [<-|[]]. inversion M2; subst; exact Hov.
  - apply HA in B as [(v & a & _ & _ & M)|(err' & M1 & M)]; [discriminate|]. exists (Fail err'). split; [exact M1|].
    apply HF. congruence.
Qed.

Lemma bounds_exact : forall sl, wf_slice sl ->
  forall r, runs W root t cands [mkStep OpSelect [PSlice sl]] r ->
  let apps := applications [SSlice (written_bound (sl_start sl)) (written_bound (sl_end sl)) (written_bound (sl_stride sl))] cands in
  (exists l t', r = OK (l, t') /\ collects apps l /\ Forall (fun a => ~ app_overflows a) apps) \/
  (r = Panics /\ Exists app_overflows apps).
Proof.
  intros sl Hsl r H apps. assert (Hw : wf_step (mkStep OpSelect [PSlice sl])) by (repeat constructor; exact Hsl || apply Hsl).
  apply runs_step in H; auto; [|reflexivity].
  assert (HP : Panics = selected r -> r = Panics) by (destruct r as [[]| | |]; cbn; congruence).
  assert (HO : forall l, OK l = selected r -> exists t', r = OK (l, t')).
  { intros l E. destruct r as [[l' t']| | |]; cbn in E; try discriminate. injection E as ->. eauto. }
  assert (HA : forall dot back q, args_mean W root dot back [PSlice sl] q ->
    q = OK [SSlice (written_bound (sl_start sl)) (written_bound (sl_end sl)) (written_bound (sl_stride sl))]).
  { intros dot back q Hq. inversion Hq as [? os F|pre a post os err F E1 E2]; subst.
    - inversion F as [|? x ? os' F1 F2]; subst. inversion F2; subst. inversion F1; subst. reflexivity.
    - destruct pre as [|? [|]]; try discriminate. injection E2 as E2 E3. subst. inversion E1. }
  inversion H as [? A|sels l A B C D E|sels A B C D|err A B D|? ? ? A|? ? A|? ? ? A|? ? ? A|? ? A|? A]; subst; cbn [st_op st_args] in *;
    try discriminate A; apply HA in B; try discriminate B; injection B as ->.
  - apply HO in E as (t' & ->). left. exists l, t'. auto.
  - right. auto.
Qed.
End exact.

(** ** @ in script subscripts *)
Lemma ev_no_current : forall W root e t, ev W root VNil t (no_current e) = ev W root VNil t e.
Proof.
  intros W root e. induction e using expr_tree_ind; intro t; try reflexivity.
  cbn [no_current]. rewrite !ev_inner. f_equal.
  revert t. induction H as [|k ks Hk H IH]; intro t; [reflexivity|]. cbn [map evs]. rewrite Hk.
  destruct (ev W root VNil t k) as [[v t1]| | |]; cbn [obind]; try reflexivity. rewrite IH. reflexivity.
Qed.

Definition null_arg (a : pval) : pval := match a with PExpr e => PExpr (no_current e) | a => a end.

Lemma ev_args_null : forall W root args t, ev_args W root VNil t (map null_arg args) = ev_args W root VNil t args.
Proof.
  intros W root args. induction args as [|a args IH]; intro t; [reflexivity|]. cbn [map ev_args].
  assert (E : ev_arg W root VNil t (null_arg a) = ev_arg W root VNil t a) by (destruct a; try reflexivity; apply ev_no_current).
  rewrite E. destruct (ev_arg W root VNil t a) as [[v t1]| | |]; cbn [obind]; try reflexivity. rewrite IH. reflexivity.
Qed.

Lemma wf_no_current : forall e, wf_expr e -> wf_expr (no_current e).
Proof.
  intro e. induction e using expr_tree_ind; intro Hw; try exact Hw; [constructor|].
  cbn [no_current]. inversion Hw; subst; cbn [map];
    repeat match goal with A : Forall _ (_ :: _) |- _ => apply Forall_cons_iff in A as [? A] end.
  - apply WfUnary; auto.
  - apply WfBinary; auto.
  - apply WfDot; auto.
  - apply WfArray, Forall_map. rewrite Forall_forall in *. auto.
  - apply WfCall, Forall_map. rewrite Forall_forall in *. auto.
Qed.

Lemma wf_null_scripts : forall s, wf_step s -> wf_step (null_scripts s).
Proof.
  assert (HU : forall l, Forall wf_union_elt l -> map null_arg l = l).
  { intros l H. induction H as [|a l Ha H IH]; [reflexivity|]. cbn [map]. rewrite IH. inversion Ha; reflexivity. }
  intros s H. unfold null_scripts. destruct (is_select (st_op s)) eqn:E; [|exact H].
  change (wf_step (mkStep (st_op s) (map null_arg (st_args s)))).
  inversion H; subst; try discriminate E; cbn [st_op st_args map].
  - constructor. match goal with A : wf_member _ |- _ => inversion A; subst; constructor; auto; apply wf_no_current; assumption end.
  - constructor. match goal with A : wf_sub _ |- _ => inversion A; subst end.
    + match goal with A : wf_union_elt _ |- _ => inversion A; subst; apply WfSElt; exact A end.
    + apply WfSExpr. apply wf_no_current. assumption.
  - rewrite HU by assumption. exact H.
Qed.

Lemma list_no_current : forall e, length (list_expr (no_current e)) = length (list_expr e).
Proof.
  intro e. induction e using expr_tree_ind; try reflexivity. cbn [no_current list_expr]. rewrite !app_length. cbn [length].
  f_equal. induction H as [|k ks Hk H IH]; [reflexivity|]. cbn [map flat_map]. rewrite !app_length, Hk, IH. reflexivity.
Qed.

Lemma list_null_body : forall s, length (list_body (null_scripts s)) = length (list_body s) /\ st_op (null_scripts s) = st_op s.
Proof.
  intro s. unfold null_scripts. destruct (is_select (st_op s)); [|auto]. split; [|reflexivity].
  unfold list_body. cbn [st_op st_args]. rewrite !app_length. f_equal.
  induction (st_args s) as [|a l IH]; [reflexivity|]. cbn [map flat_map]. rewrite !app_length, IH. f_equal.
  destruct a; try reflexivity. apply list_no_current.
Qed.

Lemma list_null_path : forall ss a, length (list_path a (map null_scripts ss)) = length (list_path a ss).
Proof.
  induction ss as [|s ss IH]; intro a; [reflexivity|]. cbn [map list_path]. rewrite !app_length.
  assert (E : forall a, length (list_step a (null_scripts s)) = length (list_step a s)).
  { intro b. destruct (list_null_body s) as [H1 H2]. unfold list_step. rewrite H2. destruct (loop_of (st_op s)); [|exact H1].
    cbn [length]. rewrite !app_length, H1. reflexivity. }
  rewrite !E. f_equal. apply IH.
Qed.

Lemma ev_null_path : forall W root ss out t, wf_path ss ->
  ev_path W root (map null_scripts ss) out t = ev_path W root ss out t.
Proof.
  intros W root ss. induction ss as [|s ss IH]; intros out t Hw; [reflexivity|]. apply Forall_cons_iff in Hw as [Hs Hw].
  cbn [map ev_path].
  assert (E : ev_step W root (null_scripts s) out t = ev_step W root s out t).
  { pose proof (wf_null_scripts s Hs) as Hs'. destruct (list_null_body s) as [_ Ho].
    destruct (is_select (st_op s)) eqn:Es; [|unfold null_scripts; rewrite Es; reflexivity].
    rewrite !step_keyed; auto; [|rewrite Ho; exact Es]. rewrite Ho.
    assert (Ea : st_args (null_scripts s) = map null_arg (st_args s)) by (unfold null_scripts; rewrite Es; reflexivity).
    rewrite Ea, ev_args_null. reflexivity. }
  rewrite E. destruct (ev_step W root s out t) as [[g t1]| | |]; cbn [obind]; try reflexivity. apply IH. exact Hw.
Qed.

Lemma scripts_null : forall W root t cands ss r, orders_ok W -> doc root -> Forall doc cands -> wf_path ss -> small ss ->
  (runs W root t cands ss r <-> runs W root t cands (map null_scripts ss) r).
Proof.
  intros W root t cands ss r HW Hr Hc Hw Hs.
  assert (Hw' : wf_path (map null_scripts ss)).
  { apply Forall_map. eapply Forall_impl; [|exact Hw]. apply wf_null_scripts. }
  assert (Hs' : small (map null_scripts ss)) by (unfold small in *; rewrite list_null_path; exact Hs).
  rewrite (runs_exact W root t cands ss r) by assumption. rewrite (runs_exact W root t cands (map null_scripts ss) r) by assumption.
  unfold ev_sel. rewrite ev_null_path by exact Hw. reflexivity.
Qed.

(** ** Counterexamples *)
Lemma empty_filter : exists s root e, doc root /\ gathers children_in_order [root] [] /\
  (forall W, keeps W root e [] (OK [])) /\
  forall TX, ParsePath TX s = OK [mkStep OpFilter [PExpr e]] /\
  exists jp, JP_Compile TX s = OK jp /\ forall W t, JP_Eval W t jp root (OK [VNil]).
Proof.
  exists (b_of "$[?(1==1)]"), (VArr []), (EInner OpEQ [EInt 1; EInt 1]).
  split; [apply docb_doc; reflexivity|]. split; [exists [[]]; split; [repeat constructor|reflexivity]|]. split; [constructor|].
  intro TX. split; [vm_compute; reflexivity|]. eexists. split; [vm_compute; reflexivity|].
  intros W t. split; [discriminate|]. exists 10%nat. vm_compute. reflexivity.
Qed.

Lemma filter_together : exists s a b, wf_step s /\ st_op s = OpFilter /\ doc a /\ doc b /\ forall W root t,
  runs W root t [a; b] [s] (OK ([VInt64 1], t)) /\ runs W root t [a] [s] (OK ([VNil], t)) /\
  runs W root t [b] [s] (OK ([VInt64 1], t)).
Proof.
  exists (mkStep OpFilter [PExpr (EInner OpEQ [EInt 1; EInt 1])]), (VArr []), (VArr [VInt64 1]).
  split; [repeat constructor; cbn; discriminate|]. split; [reflexivity|].
  split; [apply docb_doc; reflexivity|]. split; [apply docb_doc; reflexivity|].
  intros W root t. split; [|split]; (eexists; split; [vm_compute; reflexivity|]; split; [vm_compute; reflexivity|];
    split; [discriminate|]; exists 20%nat; vm_compute; reflexivity).
Qed.

Lemma bound_ignored : exists s sl root, doc root /\ sl_start sl = Some (BExpr (EInt 1)) /\
  picks (SSlice (Some 1) None None) root [VInt64 20] /\
  forall TX, ParsePath TX s = OK [mkStep OpSelect [PSlice sl]] /\
  exists jp, JP_Compile TX s = OK jp /\ forall W t, JP_Eval W t jp root (OK [VInt64 10; VInt64 20]).
Proof.
  exists (b_of "$[(1):]"), (mkSlice (Some (BExpr (EInt 1))) None None), (VArr [VInt64 10; VInt64 20]).
  split; [apply docb_doc; reflexivity|]. split; [reflexivity|]. split.
  - apply PkSlice with (ps := [1]).
    + apply (SlUp 2 (Some 1) None None 1 1); [reflexivity|lia|]. intro k.
      change (clip 0 2 (from_end 2 (or_default 0 (Some 1)))) with 1.
      change (clip 0 2 (from_end 2 (or_default 2 None))) with 2. lia.
    + repeat constructor; cbn; try lia. 
  - intro TX. split; [vm_compute; reflexivity|]. eexists. split; [vm_compute; reflexivity|].
    intros W t. split; [discriminate|]. exists 10%nat. vm_compute. reflexivity.
Qed.

Definition forwards (t n : nat) : list nat := seq 0 n.
Definition backwards (t n : nat) : list nat := rev (seq 0 n).
Lemma forwards_ok : forall W, orders_ok (reordered W forwards).
Proof. intros W t n. apply Permutation_refl. Qed.
Lemma backwards_ok : forall W, orders_ok (reordered W backwards).
Proof. intros W t n. apply Permutation_sym, Permutation_rev. Qed.

Lemma slice_order : exists s root, doc root /\ forall TX, exists jp, JP_Compile TX s = OK jp /\
  forall W, exists p q, orders_ok (reordered W p) /\ orders_ok (reordered W q) /\ forall t,
  JP_Eval (reordered W p) t jp root (OK []) /\ JP_Eval (reordered W q) t jp root (OK [VInt64 1]).
Proof.
  exists (b_of "$.*[0:1]"), (VObj [(b_of "a", VArr [VInt64 1]); (b_of "b", VInt64 2)]).
  split; [apply docb_doc; reflexivity|]. intro TX. eexists. split; [vm_compute; reflexivity|].
  intro W. exists forwards, backwards. split; [apply forwards_ok|]. split; [apply backwards_ok|].
  intro t. split; (split; [discriminate|exists 10%nat; vm_compute; reflexivity]).
Qed.

Lemma keys_order : exists s root, doc root /\ forall TX, exists jp, JP_Compile TX s = OK jp /\
  forall W, exists p q, orders_ok (reordered W p) /\ orders_ok (reordered W q) /\ forall t,
  JP_Eval (reordered W p) t jp root (OK (children root)) /\ JP_Eval (reordered W q) t jp root (OK []).
Proof.
  exists (b_of "$[?(keys(@)==['a','b'])]"), (VArr [VObj [(b_of "a", VInt64 1); (b_of "b", VInt64 2)]]).
  split; [apply docb_doc; reflexivity|]. intro TX. eexists. split; [vm_compute; reflexivity|].
  intro W. exists forwards, backwards. split; [apply forwards_ok|]. split; [apply backwards_ok|].
  intro t. split; (split; [discriminate|exists 20%nat; vm_compute; reflexivity]).
Qed.
