(** Properties of whole paths and of steps with expressions (C13, C26-C29, C54).  What a path
    means is defined in SpecSem: [path_means W root ss cands r] relates the steps [ss], on the
    candidates [cands], to the selections and errors [r] they may give, whatever the orders of
    iteration over maps. *)
From Verif Require Import Syntax SpecSyntax Machine Coder SpecDoc SpecSelect SpecRun SpecCode SpecOp SpecExpr Parser Api
  SpecText SpecSem SemFinal OrderProofs EveryOrder SemExact TextProofs Examples.
Local Open Scope Z_scope.

Ltac run_it := eexists; split; [vm_compute; reflexivity|]; split; [vm_compute; reflexivity|];
  split; [discriminate|]; exists 100%nat; vm_compute; reflexivity.
Ltac eval_it := split; [discriminate|]; exists 200%nat; vm_compute; reflexivity.

(** ** C13 *)
(** An accepted text evaluates to one of the meanings of its steps. *)
Theorem C13_meaning : forall TX s ss jp W t root r, accepted TX s ss jp -> fits jp -> orders_ok W -> doc root ->
  JP_Eval W t jp root r -> path_means W root ss [root] r.
Proof. exact text_means. Qed.
Print Assumptions C13_meaning.

(** The meanings are exactly what evaluation gives for some orders of iteration over maps,
    whatever number [t] the first iteration has. *)
Theorem C13_every : forall TX s ss jp W t root r, accepted TX s ss jp -> fits jp -> orders_ok W -> doc root ->
  (path_means W root ss [root] r <-> exists perm, orders_ok (reordered W perm) /\ JP_Eval (reordered W perm) t jp root r).
Proof. exact text_every. Qed.
Print Assumptions C13_every.

(** If no object has two members there is one meaning, and it is what evaluation gives. *)
Theorem C13_exact : forall TX s ss jp W t root r, accepted TX s ss jp -> fits jp -> orders_ok W -> doc root ->
  lone_members root -> (JP_Eval W t jp root r <-> path_means W root ss [root] r).
Proof. exact text_unique. Qed.
Print Assumptions C13_exact.

(** The same for steps on any selection. *)
Theorem C13_steps : forall W root t cands ss r, orders_ok W -> doc root -> Forall doc cands -> wf_path ss -> small ss ->
  runs W root t cands ss r -> path_means W root ss cands (selected r).
Proof. exact runs_means. Qed.
Print Assumptions C13_steps.

Theorem C13_steps_every : forall W root t cands ss r, orders_ok W -> doc root -> Forall doc cands -> wf_path ss -> small ss ->
  (path_means W root ss cands r <->
   exists perm r', orders_ok (reordered W perm) /\ runs (reordered W perm) root t cands ss r' /\ r = selected r').
Proof. exact steps_every. Qed.
Print Assumptions C13_steps_every.

(** $.*.* on {"a": {"b": 1, "c": 2}, "d": {"e": 3, "f": 4}}: the orders of the three iterations
    are independent, so there are eight meanings; this is one. *)
Example C13_ex_every : let s := b_of "$.*.*" in
  let root := VObj [(b_of "a", VObj [(b_of "b", VInt64 1); (b_of "c", VInt64 2)]);
                    (b_of "d", VObj [(b_of "e", VInt64 3); (b_of "f", VInt64 4)])] in
  accepted x_text s (steps_of s) (jp_of s) /\ fits (jp_of s) /\ orders_ok x_world /\ doc root /\
  path_means x_world root (steps_of s) [root] (OK [VInt64 3; VInt64 4; VInt64 2; VInt64 1]).
Proof.
  split; [apply acceptedb_ok; vm_compute; reflexivity|]. split; [vm_compute; reflexivity|]. split; [exact x_world_ok|].
  split; [apply docb_doc; vm_compute; reflexivity|].
  set (root := VObj _). eapply PmStep.
  - apply SmWild; [reflexivity|]. exists [[VObj [(b_of "e", VInt64 3); (b_of "f", VInt64 4)]; VObj [(b_of "b", VInt64 1); (b_of "c", VInt64 2)]]].
    split; [|reflexivity]. constructor; [|constructor].
    apply (CiObj _ [(b_of "d", VObj [(b_of "e", VInt64 3); (b_of "f", VInt64 4)]); (b_of "a", VObj [(b_of "b", VInt64 1); (b_of "c", VInt64 2)])]).
    apply Permutation.perm_swap.
  - eapply PmStep; [|constructor]. apply SmWild; [reflexivity|]. exists [[VInt64 3; VInt64 4]; [VInt64 2; VInt64 1]]. split; [|reflexivity].
    constructor; [apply (CiObj _ [(b_of "e", VInt64 3); (b_of "f", VInt64 4)]); apply Permutation.Permutation_refl|].
    constructor; [apply (CiObj _ [(b_of "c", VInt64 2); (b_of "b", VInt64 1)]); apply Permutation.perm_swap|constructor].
Qed.

(** {"a": [{"b": 5}, {"b": 1}, {"c": 7}]} *)
Definition x_lone : val :=
  VObj [(b_of "a", VArr [VObj [(b_of "b", VInt64 5)]; VObj [(b_of "b", VInt64 1)]; VObj [(b_of "c", VInt64 7)]])].
Example C13_ex : let s := b_of "$.a[?(@.b > 2 || @.c)]..*" in
  accepted x_text s (steps_of s) (jp_of s) /\ fits (jp_of s) /\ orders_ok x_world /\ doc x_lone /\ lone_members x_lone /\
  JP_Eval x_world 0 (jp_of s) x_lone (OK [VInt64 5; VInt64 7]) /\
  path_means x_world x_lone (steps_of s) [x_lone] (OK [VInt64 5; VInt64 7]).
Proof.
  assert (Ha : accepted x_text (b_of "$.a[?(@.b > 2 || @.c)]..*") (steps_of (b_of "$.a[?(@.b > 2 || @.c)]..*"))
    (jp_of (b_of "$.a[?(@.b > 2 || @.c)]..*"))) by (apply acceptedb_ok; vm_compute; reflexivity).
  assert (Hf : fits (jp_of (b_of "$.a[?(@.b > 2 || @.c)]..*"))) by (vm_compute; reflexivity).
  assert (Hd : doc x_lone) by (apply docb_doc; vm_compute; reflexivity).
  assert (He : JP_Eval x_world 0 (jp_of (b_of "$.a[?(@.b > 2 || @.c)]..*")) x_lone (OK [VInt64 5; VInt64 7])) by eval_it.
  split; [exact Ha|]. split; [exact Hf|]. split; [exact x_world_ok|]. split; [exact Hd|].
  split; [exact (loneb_ok x_lone eq_refl)|]. split; [exact He|].
  exact (text_means _ _ _ _ _ _ _ _ Ha Hf x_world_ok Hd He).
Qed.

(** ** C26 *)
(** A filter evaluates its expression with @ bound to each child of the candidates, in order
    ([keeps]); if there are candidates but no child, once with @ null ([rounds]). *)
Theorem C26_exact : forall W root t cands, orders_ok W -> doc root -> Forall doc cands ->
  forall e, wf_expr e -> small [mkStep OpFilter [PExpr e]] ->
  (exists r, runs W root t cands [mkStep OpFilter [PExpr e]] r) /\
  forall r, runs W root t cands [mkStep OpFilter [PExpr e]] r ->
    exists dots, rounds children_in_order cands dots /\ keeps W root e dots (selected r).
Proof. exact filter_exact. Qed.
Print Assumptions C26_exact.

(** So it keeps exactly the children that satisfy it.  Missing: candidates without any
    child, where it is false. *)
Theorem C26_filter_partial : forall W root t cands, orders_ok W -> doc root -> Forall doc cands ->
  forall e r, wf_expr e -> small [mkStep OpFilter [PExpr e]] ->
  (cands = [] \/ Exists (fun v => children v <> []) cands) ->
  runs W root t cands [mkStep OpFilter [PExpr e]] r ->
  exists dots, gathers children_in_order cands dots /\ keeps W root e dots (selected r).
Proof. exact filter_gathers. Qed.
Print Assumptions C26_filter_partial.

Example C26_ex : let e := EInner OpGE [ECurrent; EInt 2] in let s := mkStep OpFilter [PExpr e] in
  wf_expr e /\ small [s] /\
  runs x_world x_doc 0 [VArr [VInt64 1; VInt64 3]; VStr []; VObj [(b_of "a", VInt64 2); (b_of "b", VNil)]] [s]
    (OK ([VInt64 3; VInt64 2], 1%nat)).
Proof. split; [repeat constructor; cbn; discriminate|]. split; [reflexivity|run_it]. Qed.

(** $[?(1==1)] gives [null] on []. *)
Theorem C26_refuted : exists s root e, doc root /\ gathers children_in_order [root] [] /\
  (forall W, keeps W root e [] (OK [])) /\
  forall TX, ParsePath TX s = OK [mkStep OpFilter [PExpr e]] /\
  exists jp, JP_Compile TX s = OK jp /\ forall W t, JP_Eval W t jp root (OK [VNil]).
Proof. exact empty_filter. Qed.
Print Assumptions C26_refuted.

(** The same filter on two candidates gives less than on each. *)
Theorem C26_together_refuted : exists s a b, wf_step s /\ st_op s = OpFilter /\ doc a /\ doc b /\ forall W root t,
  runs W root t [a; b] [s] (OK ([VInt64 1], t)) /\ runs W root t [a] [s] (OK ([VNil], t)) /\
  runs W root t [b] [s] (OK ([VInt64 1], t)).
Proof. exact filter_together. Qed.
Print Assumptions C26_together_refuted.

(** ** C27 *)
(** ..[?(e)] keeps the containers that satisfy e, each visited once, parents first; if there
    are candidates but no container, e is evaluated with @ null. *)
Theorem C27_filter : forall W root t cands, orders_ok W -> doc root -> Forall doc cands ->
  forall e, wf_expr e -> small [mkStep OpNestFilter [PExpr e]] ->
  (exists r, runs W root t cands [mkStep OpNestFilter [PExpr e]] r) /\
  forall r, runs W root t cands [mkStep OpNestFilter [PExpr e]] r ->
    exists dots, rounds visits_containers cands dots /\ keeps W root e dots (selected r).
Proof. exact nest_filter_exact. Qed.
Print Assumptions C27_filter.

(** A .. step with any selectors evaluates them for each container and applies them to it. *)
Theorem C27_script : forall W root t cands, orders_ok W -> doc root -> Forall doc cands ->
  forall s, wf_step s -> small [s] -> is_nest_select (st_op s) = true ->
  (exists r, runs W root t cands [s] r) /\
  forall r, runs W root t cands [s] r -> exists dots a, rounds visits_containers cands dots /\
    sweeps W root (counts_back (st_op s)) (st_args s) dots a /\
    match a with
    | OK apps => exists l, selected r = OK l /\ collects apps l
    | Fail err => r = Fail err
    | Panics => r = Panics
    | OutOfFuel => False
    end.
Proof. exact nest_script_exact. Qed.
Print Assumptions C27_script.

Example C27_sem_ex :
  runs x_world x_doc 0 [x_doc] [mkStep OpNestFilter [PExpr (EInner OpDot [ECurrent; EName (b_of "b")])]]
    (OK ([VObj [(b_of "b", VStr (b_of "x"))]], 3%nat)) /\
  runs x_world x_doc 0 [x_doc] [mkStep OpNestSelect [PExpr (EInner OpDot [ECurrent; EName (b_of "b")])]] (OK ([], 3%nat)) /\
  small [mkStep OpNestFilter [PExpr (EInner OpDot [ECurrent; EName (b_of "b")])]].
Proof. split; [run_it|]. split; [run_it|reflexivity]. Qed.

(** ** C28 *)
(** In a script subscript outside .. steps, @ is null, at every position of every path:
    writing null for it changes nothing. *)
Theorem C28_scripts : forall W root t cands ss r, orders_ok W -> doc root -> Forall doc cands -> wf_path ss -> small ss ->
  (runs W root t cands ss r <-> runs W root t cands (map null_scripts ss) r).
Proof. exact scripts_null. Qed.
Print Assumptions C28_scripts.

(** What a step does, with the values of $ and @ in its expressions: [step_means] evaluates
    script subscripts once, with @ null, and the expressions of filters and .. steps once for
    each value they iterate over, with @ that value; $ is always the document. *)
Theorem C28_scope : forall W root t cands, orders_ok W -> doc root -> Forall doc cands ->
  forall s r, wf_step s -> small [s] -> runs W root t cands [s] r -> step_means W root s cands (selected r).
Proof. exact runs_step. Qed.
Print Assumptions C28_scope.

Example C28_ex : let f := mkStep OpFilter [PExpr (EInner OpEQ [ECurrent; EInner OpDot [ERoot; EName (b_of "d")]])] in
  let s := mkStep OpSelect [PExpr (EInner OpAdd [ECurrent; EInt 1])] in
  wf_path [f; s] /\ small [f; s] /\ null_scripts f = f /\
  null_scripts s = mkStep OpSelect [PExpr (EInner OpAdd [ENull; EInt 1])] /\
  runs x_world x_doc 0 [VArr [VFloat x_half; VInt64 1]] [f] (OK ([VFloat x_half], 0%nat)).
Proof.
  split; [repeat constructor; cbn; discriminate|]. split; [reflexivity|]. split; [reflexivity|]. split; [reflexivity|run_it].
Qed.

(** ** C29 *)
(** Without slices and keys(), two orders of iteration over maps give the same values up to
    their order, or both an error. *)
Theorem C29_reordered : forall TX s ss jp W perm t t' root r r', accepted TX s ss jp -> fits jp -> orders_ok W ->
  orders_ok (reordered W perm) -> doc root -> ~ has_slice ss -> ~ calls_keys ss ->
  JP_Eval W t jp root r -> JP_Eval (reordered W perm) t' jp root r' -> alike r r'.
Proof. exact text_orders. Qed.
Print Assumptions C29_reordered.

(** If no object has two members, they give the same. *)
Theorem C29_lone : forall TX s ss jp W perm t t' root r r', accepted TX s ss jp -> fits jp -> orders_ok W ->
  orders_ok (reordered W perm) -> doc root -> lone_members root ->
  JP_Eval W t jp root r -> JP_Eval (reordered W perm) t' jp root r' -> r = r'.
Proof. exact text_lone. Qed.
Print Assumptions C29_lone.

Example C29_ex : let s := b_of "$..b" in
  accepted x_text s (steps_of s) (jp_of s) /\ fits (jp_of s) /\ ~ has_slice (steps_of s) /\ ~ calls_keys (steps_of s) /\
  JP_Eval x_world 0 (jp_of s) x_doc (OK [VStr (b_of "x"); VNil]) /\
  orders_ok (reordered x_world backwards) /\
  JP_Eval (reordered x_world backwards) 0 (jp_of s) x_doc (OK [VNil; VStr (b_of "x")]).
Proof.
  split; [apply acceptedb_ok; vm_compute; reflexivity|]. split; [vm_compute; reflexivity|].
  change (steps_of (b_of "$..b")) with [mkStep OpNestMember [PName (b_of "b")]].
  split; [intros (s & sl & [<-|[]] & [H|[]]); discriminate|].
  split; [intros (args & s & e & [<-|[]] & [H|[]] & _); discriminate|].
  split; [eval_it|]. split; [apply backwards_ok|eval_it].
Qed.

(** Both restrictions are needed: $.*[0:1] and $[?(keys(@)==['a','b'])]. *)
Theorem C29_slice_refuted : exists s root, doc root /\ forall TX, exists jp, JP_Compile TX s = OK jp /\
  forall W, exists p q, orders_ok (reordered W p) /\ orders_ok (reordered W q) /\ forall t,
  JP_Eval (reordered W p) t jp root (OK []) /\ JP_Eval (reordered W q) t jp root (OK [VInt64 1]).
Proof. exact slice_order. Qed.
Print Assumptions C29_slice_refuted.

Theorem C29_keys_refuted : exists s root, doc root /\ forall TX, exists jp, JP_Compile TX s = OK jp /\
  forall W, exists p q, orders_ok (reordered W p) /\ orders_ok (reordered W q) /\ forall t,
  JP_Eval (reordered W p) t jp root (OK (children root)) /\ JP_Eval (reordered W q) t jp root (OK []).
Proof. exact keys_order. Qed.
Print Assumptions C29_keys_refuted.

(** ** C54 *)
(** .(e) and [(e)] select with the value of e, where @ is null: an integer is an index, other
    values are member names (see [acts_as]), a failure selects nothing. *)
Theorem C54_subscript : forall W root t cands, orders_ok W -> doc root -> Forall doc cands ->
  forall o e, In o [OpMember; OpSelect] -> wf_expr e -> small [mkStep o [PExpr e]] ->
  (exists r, runs W root t cands [mkStep o [PExpr e]] r) /\
  forall r, runs W root t cands [mkStep o [PExpr e]] r ->
    exists rv, means W root VNil e rv /\
    match rv with
    | OK v => exists a l t', acts_as W (counts_back o) v a /\ r = OK (l, t') /\
        match a with None => l = [] | Some s => gathers (picks s) cands l end
    | Fail err => r = Fail err
    | _ => False
    end.
Proof. exact script_exact. Qed.
Print Assumptions C54_subscript.

(** A slice selects as if its bounds that are expressions were 0 ([written_bound]).  Missing:
    that they act as the values of the expressions, which is false. *)
Theorem C54_bounds_partial : forall W root t cands, orders_ok W -> doc root -> Forall doc cands ->
  forall sl, wf_slice sl ->
  forall r, runs W root t cands [mkStep OpSelect [PSlice sl]] r ->
  let apps := applications [SSlice (written_bound (sl_start sl)) (written_bound (sl_end sl)) (written_bound (sl_stride sl))] cands in
  (exists l t', r = OK (l, t') /\ collects apps l /\ Forall (fun a => ~ app_overflows a) apps) \/
  (r = Panics /\ Exists app_overflows apps).
Proof. exact bounds_exact. Qed.
Print Assumptions C54_bounds_partial.

Example C54_ex : let e := EInner OpSub [EInner OpDot [ERoot; EName (b_of "length")]; EInt 1] in
  wf_expr e /\ small [mkStep OpSelect [PExpr e]] /\
  runs x_world (VArr [VInt64 7; VInt64 8]) 0 [VArr [VInt64 7; VInt64 8]] [mkStep OpSelect [PExpr e]] (OK ([VInt64 8], 0%nat)) /\
  runs x_world x_doc 0 [x_doc] [mkStep OpSelect [PExpr (EStr (b_of "d"))]] (OK ([VFloat x_half], 0%nat)) /\
  runs x_world x_doc 0 [VArr [VInt64 7; VInt64 8]]
    [mkStep OpSelect [PSlice (mkSlice (Some (BExpr (EInt 1))) (Some (BInt 1)) None)]] (OK ([VInt64 7], 0%nat)).
Proof.
  split; [repeat constructor; cbn; discriminate|]. split; [reflexivity|]. split; [run_it|]. split; run_it.
Qed.

(** $[(1):] selects all elements. *)
Theorem C54_refuted : exists s sl root, doc root /\ sl_start sl = Some (BExpr (EInt 1)) /\
  picks (SSlice (Some 1) None None) root [VInt64 20] /\
  forall TX, ParsePath TX s = OK [mkStep OpSelect [PSlice sl]] /\
  exists jp, JP_Compile TX s = OK jp /\ forall W t, JP_Eval W t jp root (OK [VInt64 10; VInt64 20]).
Proof. exact bound_ignored. Qed.
Print Assumptions C54_refuted.
