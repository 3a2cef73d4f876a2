(** Laws relating the results of different paths. *)
From Coq Require Import Permutation.
From Verif Require Import Syntax Machine SpecSyntax Eval SpecDoc SpecRun SpecText SpecSem DocProofs Api CoderProofs TextProofs UniqueProofs EveryOrder SpecLaws.
Local Open Scope Z_scope.

(** ** Filters *)
Section filters.
Variable W : world.
Variable root : val.

Definition kept (v : val) : bool := negb (isNothing v) && cvb W v.
Fixpoint verdicts (e : expr) (dots : list val) (t : nat) : M (list bool * nat) :=
  match dots with
  | [] => OK ([], t)
  | d :: r => let! (v, t1) := ev W root d t e in let! (bs, t2) := verdicts e r t1 in OK (kept v :: bs, t2)
  end.

Lemma loop_filter : forall o e dots out t, filter_op o ->
  (let! (g, t') := ev_loop W root (mkStep o [PExpr e]) dots out t in OK (g_list g, t')) =
  let! (bs, t') := verdicts e dots t in OK (g_list out ++ chosen bs dots, t').
Proof.
  intros o e dots out t Ho. revert out t. induction dots as [|d r IH]; intros out t; cbn [ev_loop verdicts].
  - cbn [obind]. rewrite app_nil_r. reflexivity.
  - assert (B : ev_body W root (mkStep o [PExpr e]) d out t = let! (v, t1) := ev W root d t e in OK (if kept v then g_append out d else out, t1)).
    { unfold ev_body. cbn [st_args st_op ev_args ev_arg]. destruct (ev W root d t e) as [[v t1]| | |]; cbn [obind]; try reflexivity.
      unfold kept. destruct Ho as [-> | ->]; reflexivity. }
    rewrite B. destruct (ev W root d t e) as [[v t1]| | |]; cbn [obind]; try reflexivity. rewrite IH.
    destruct (verdicts e r t1) as [[bs t2]| | |]; cbn [obind]; try reflexivity. unfold chosen. cbn [combine filter fst].
    destruct (kept v); [|reflexivity]. unfold g_append. cbn [g_list map snd]. rewrite <- app_assoc. reflexivity.
Qed.

Lemma path_app : forall pre post out t, ev_path W root (pre ++ post) out t = let! (o, t1) := ev_path W root pre out t in ev_path W root post o t1.
Proof.
  induction pre as [|s pre IH]; intros post out t; cbn [app ev_path]; [reflexivity|].
  destruct (ev_step W root s out t) as [[o t1]| | |]; cbn [obind]; try reflexivity. apply IH.
Qed.

Lemma filter_run : forall pre o t, filter_op o ->
  (exists r, (forall l, r <> OK l) /\ forall e, ev_run W root t (pre ++ [mkStep o [PExpr e]]) = r) \/
  exists D t2, forall e, ev_run W root t (pre ++ [mkStep o [PExpr e]]) = let! (bs, _) := verdicts e D t2 in OK (chosen bs D).
Proof.
  intros pre o t Ho. unfold ev_run. destruct (ev_path W root pre (Some [root]) t) as [[out t1]|e| |] eqn:E.
  2: { left. exists (Fail e). split; [discriminate|]. intro e'. rewrite path_app, E. reflexivity. }
  2: { left. exists Panics. split; [discriminate|]. intro e'. rewrite path_app, E. reflexivity. }
  2: { left. exists OutOfFuel. split; [discriminate|]. intro e'. rewrite path_app, E. reflexivity. }
  right.
  assert (S : forall e, ev_run W root t (pre ++ [mkStep o [PExpr e]]) =
    let! (g, _) := ev_loop_step W root (match o with OpFilter => stepping W | _ => walker W end) (mkStep o [PExpr e]) out t1 in OK (g_list g)).
  { intro e. unfold ev_run. rewrite path_app, E. cbn [obind ev_path].
    replace (ev_step W root (mkStep o [PExpr e]) out t1) with
      (ev_loop_step W root (match o with OpFilter => stepping W | _ => walker W end) (mkStep o [PExpr e]) out t1)
      by (destruct Ho as [-> | ->]; reflexivity).
    destruct (ev_loop_step W root _ _ out t1) as [[g t2]| | |]; reflexivity. }
  unfold ev_run in S. unfold ev_loop_step in S. destruct (g_list out) as [|x l] eqn:G.
  - exists [], t1. intro e. rewrite S. cbn [obind verdicts]. rewrite G. reflexivity.
  - destruct ((match o with OpFilter => stepping W | _ => walker W end) t1 (x :: l)) as [vs t2].
    exists (loop_dots vs), t2. intro e. rewrite S. pose proof (loop_filter o e (loop_dots vs) (Some []) t2 Ho) as L.
    destruct (ev_loop W root (mkStep o [PExpr e]) (loop_dots vs) (Some []) t2) as [[g t3]| | |];
      destruct (verdicts e (loop_dots vs) t2) as [[bs t4]| | |]; cbn [obind g_list app] in *; try congruence.
Qed.

Lemma verdicts_length : forall e D t bs t', verdicts e D t = OK (bs, t') -> length bs = length D.
Proof.
  intros e D. induction D as [|d D IH]; intros t bs t' H; cbn [verdicts] in H.
  - injection H as <- _. reflexivity.
  - destruct (ev W root d t e) as [[v t1]| | |]; try discriminate H. cbn [obind] in H.
    destruct (verdicts e D t1) as [[bs1 t2]| | |] eqn:E; try discriminate H. cbn [obind] in H. injection H as <- _. simpl. f_equal. eauto.
Qed.
Lemma verdicts_true : forall D t, verdicts (EBool true) D t = OK (map (fun _ => true) D, t).
Proof. induction D as [|d D IH]; intro t; cbn [verdicts ev obind]; [reflexivity|]. rewrite IH. reflexivity. Qed.
Lemma chosen_all : forall A (D : list A), chosen (map (fun _ => true) D) D = D.
Proof. unfold chosen. induction D as [|d D IH]; cbn; [reflexivity|]. f_equal. exact IH. Qed.
Lemma kept_not : forall v, kept (VBool (negb (cvb W v))) = negb (kept v).
Proof. intros [| | | | | | | | | | | |k]; unfold kept; try reflexivity. Qed.
Lemma ev_not : forall d t e, ev W root d t (EInner OpNot [e]) = let! (v, t1) := ev W root d t e in OK (VBool (negb (cvb W v)), t1).
Proof. intros. cbn [ev]. destruct (ev W root d t e) as [[v t1]| | |]; reflexivity. Qed.
Lemma verdicts_not : forall e D t, verdicts (EInner OpNot [e]) D t = let! (bs, t') := verdicts e D t in OK (map negb bs, t').
Proof.
  intros e. induction D as [|d D IH]; intro t; cbn [verdicts]; [reflexivity|]. rewrite ev_not.
  destruct (ev W root d t e) as [[v t1]| | |]; cbn [obind]; try reflexivity. rewrite IH.
  destruct (verdicts e D t1) as [[bs t2]| | |]; cbn [obind]; try reflexivity. cbn [map]. rewrite kept_not. reflexivity.
Qed.
Lemma chosen_split : forall A (bs : list bool) (D : list A), length bs = length D -> interleaves (chosen bs D) (chosen (map negb bs) D) D.
Proof.
  unfold chosen. intros A. induction bs as [|b bs IH]; intros [|d D] H; try discriminate H; cbn [combine filter map].
  - constructor.
  - injection H as H. destruct b; cbn [negb fst map snd]; constructor; apply IH; exact H.
Qed.

(** *** Expressions without keys() *)
Lemma apply_fixed : forall o vs, (forall args, o = OpCall -> vs <> VName (b_of "keys") :: args) ->
  exists r, forall p t, apply_op (reordered W p) t o vs = let! v := r in OK (v, t).
Proof.
  intros o vs H.
  assert (H2 : exists r, forall p t, match vs with
    | [v] => match unop (reordered W p) o v with Some r => OK (r, t) | None => Panics end
    | [a; b] => match binop (reordered W p) o a b with Some r => let! v := r in OK (v, t) | None => Panics end
    | _ => Panics end = let! v := r in OK (v, t) : M (val * nat)).
  { destruct vs as [|a [|b [|c vs]]]; try (exists Panics; reflexivity).
    - exists (match unop W o a with Some r => OK r | None => Panics end). intros p t. destruct o; try reflexivity; cbn [unop]; reflexivity.
    - exists (match binop (reordered W (w_perm W)) o a b with Some r => r | None => Panics end). intros p t.
      rewrite (binop_worlds W p (w_perm W)). destruct (binop _ o a b) as [r|]; reflexivity. }
  destruct o; try exact H2; clear H2; cbn [apply_op].
  - destruct vs as [|x vs]; [exists Panics; reflexivity|]. destruct x; try (exists Panics; reflexivity).
    assert (Hk : s <> b_of "keys") by (intros ->; exact (H vs eq_refl eq_refl)).
    exists (value_of (call (reordered W (w_perm W)) 0 s vs)). intros p t. exact (call_fixed W p (w_perm W) t 0 s vs Hk).
  - exists (OK (VArr vs)). reflexivity.
Qed.
Lemma ev_every : forall d e, wf_expr e -> keyless e -> exists r, forall p t, ev (reordered W p) root d t e = let! v := r in OK (v, t).
Proof.
  intros d e. induction e as [z|f|s|b| |s| | |s|o l H] using expr_tree_ind; intros Hw Hk; try (eexists (OK _); reflexivity).
  assert (K : exists rs : M (list val), (forall p t, evs (reordered W p) root d t l = let! vs := rs in OK (vs, t)) /\
    forall x r, nth_error l 0 = Some (EName x) -> rs = OK r -> nth_error r 0 = Some (VName x)).
  { assert (Hws : Forall wf_expr l).
    { inversion Hw; subst; repeat (apply Forall_cons || apply Forall_nil || assumption || constructor). }
    assert (Hks : Forall keyless l).
    { rewrite Forall_forall. intros x Hx args Hp. apply (Hk args). econstructor; eauto. }
    clear Hw Hk. induction l as [|x l IH].
    - exists (OK []). split; [reflexivity|]. discriminate.
    - destruct (Forall_inv H (Forall_inv Hws) (Forall_inv Hks)) as [r1 E1].
      destruct (IH (Forall_inv_tail H) (Forall_inv_tail Hws) (Forall_inv_tail Hks)) as (rs & E2 & _).
      exists (let! v := r1 in let! vs := rs in OK (v :: vs)). split.
      + intros p t. cbn [evs]. rewrite E1. destruct r1 as [v| | |]; cbn [obind]; try reflexivity. rewrite E2.
        destruct rs; reflexivity.
      + intros y r Hy Hr. injection Hy as ->. specialize (E1 (w_perm W) 0%nat). cbn [ev] in E1. destruct r1 as [v| | |]; try discriminate E1.
        injection E1 as <-. cbn [obind] in Hr. destruct rs as [vs| | |]; try discriminate Hr. injection Hr as <-. reflexivity. }
  destruct K as (rs & E & Hn). destruct rs as [vs|er| |].
  - destruct (apply_fixed o vs) as [r Hr].
    + intros args -> ->. inversion Hw; subst; try discriminate.
      * match goal with H : _ \/ _ |- _ => destruct H; discriminate end.
      * specialize (Hn f _ eq_refl eq_refl). injection Hn as <-. apply (Hk l0). constructor.
    + exists r. intros p t. rewrite ev_inner, E. cbn [obind]. apply Hr.
  - exists (Fail er). intros p t. rewrite ev_inner, E. reflexivity.
  - exists Panics. intros p t. rewrite ev_inner, E. reflexivity.
  - exists OutOfFuel. intros p t. rewrite ev_inner, E. reflexivity.
Qed.
Lemma reordered_self : reordered W (w_perm W) = W.
Proof. destruct W. reflexivity. Qed.
Lemma ev_fixed : forall d e, wf_expr e -> keyless e -> exists r, forall t, ev W root d t e = let! v := r in OK (v, t).
Proof. intros d e Hw Hk. destruct (ev_every d e Hw Hk) as [r H]. exists r. intro t. rewrite <- (H (w_perm W) t), reordered_self. reflexivity. Qed.

(** *** Paths of selectors *)
Lemma arg_every : forall d a, (forall e, a = PExpr e -> wf_expr e /\ keyless e) -> exists r, forall p t, ev_arg (reordered W p) root d t a = let! v := r in OK (v, t).
Proof.
  intros d [z|s|s|sl|e] H; try (eexists (OK _); reflexivity). destruct (H e eq_refl) as [Hw Hk]. exact (ev_every d e Hw Hk).
Qed.
Lemma args_every : forall d l, (forall e, In (PExpr e) l -> wf_expr e /\ keyless e) ->
  exists r, forall p t, ev_args (reordered W p) root d t l = let! v := r in OK (v, t).
Proof.
  intros d l. induction l as [|a l IH]; intro H; [exists (OK []); reflexivity|].
  destruct (arg_every d a) as [r1 E1]. { intros e ->. apply H. left. reflexivity. }
  destruct IH as [r2 E2]. { intros e He. apply H. right. exact He. }
  exists (let! v := r1 in let! vs := r2 in OK (v :: vs)). intros p t. cbn [ev_args]. rewrite E1. destruct r1 as [v| | |]; cbn [obind]; try reflexivity.
  rewrite E2. destruct r2; reflexivity.
Qed.
Lemma apply_every : forall (f : gslice -> val -> M gslice) l g t,
  applySelection_loop (fun t v acc => let! g := f acc v in OK (g, t)) t l g = let! g' := (fix go l g := match l with [] => OK g | v :: r => let! g' := f g v in go r g' end) l g in OK (g', t).
Proof.
  intros f l. induction l as [|v l IH]; intros g t; cbn [applySelection_loop]; [reflexivity|].
  destruct (f g v) as [g'| | |]; cbn [obind]; try reflexivity. apply IH.
Qed.
Lemma byKey_worlds : forall p g v k n, valsByKey (reordered W p) g v k n = valsByKey W g v k n.
Proof. intros. destruct k, v; reflexivity. Qed.
Lemma union_worlds : forall p sels g v, unionVals (reordered W p) g v sels = unionVals W g v sels.
Proof.
  intros p. induction sels as [|k r IH]; intros g v; cbn [unionVals]; [reflexivity|]. destruct (isNothing k); cbn [obind]; [apply IH|].
  rewrite byKey_worlds. destruct (valsByKey W g v k true); cbn [obind]; try reflexivity. apply IH.
Qed.
Lemma loop_worlds : forall (f f' : nat -> val -> gslice -> M (gslice * nat)), (forall t v g, f t v g = f' t v g) ->
  forall l t g, applySelection_loop f t l g = applySelection_loop f' t l g.
Proof.
  intros f f' H. induction l as [|v l IH]; intros t g; cbn [applySelection_loop]; [reflexivity|]. rewrite H.
  destruct (f' t v g) as [[g' t']| | |]; cbn [obind]; try reflexivity. apply IH.
Qed.
Lemma selection_every : forall (f : world -> gslice -> val -> M gslice), (forall p g v, f (reordered W p) g v = f W g v) -> forall out,
  exists r, forall p t, applySelection t out (fun t v acc => let! g := f (reordered W p) acc v in OK (g, t)) = let! g := r in OK (g, t).
Proof.
  intros f Hf out. eexists. intros p t. unfold applySelection.
  erewrite loop_worlds; [|intros; rewrite Hf; reflexivity]. apply (apply_every (f W)).
Qed.
Lemma step_every : forall s out, SpecSelect.is_select (st_op s) = true -> (forall e, In (PExpr e) (st_args s) -> wf_expr e /\ keyless e) ->
  exists r, forall p t, ev_step (reordered W p) root s out t = let! g := r in OK (g, t).
Proof.
  intros s out Hs Ha. destruct (args_every VNil (st_args s) Ha) as [r E].
  assert (K : forall n sel, exists r, forall p t, applySelection t out (fun t v acc => let! g := valsByKey (reordered W p) acc v sel n in OK (g, t)) = let! g := r in OK (g, t)).
  { intros n sel. apply (selection_every (fun W g v => valsByKey W g v sel n)). intros. apply byKey_worlds. }
  assert (U : forall sels, exists r, forall p t, applySelection t out (fun t v acc => let! g := unionVals (reordered W p) acc v sels in OK (g, t)) = let! g := r in OK (g, t)).
  { intros sels. apply (selection_every (fun W g v => unionVals W g v sels)). intros. apply union_worlds. }
  destruct r as [vs|e| |].
  2: { exists (Fail e). intros p t. unfold ev_step. rewrite E. destruct (st_op s); try discriminate Hs; reflexivity. }
  2: { exists Panics. intros p t. unfold ev_step. rewrite E. destruct (st_op s); try discriminate Hs; reflexivity. }
  2: { exists OutOfFuel. intros p t. unfold ev_step. rewrite E. destruct (st_op s); try discriminate Hs; reflexivity. }
  destruct (st_op s) eqn:O; try discriminate Hs.
  1, 2: destruct vs as [|sel [|x vs]]; [exists Panics; intros p t; unfold ev_step; rewrite O, E; reflexivity| |exists Panics; intros p t; unfold ev_step; rewrite O, E; reflexivity];
    destruct (isNothing sel) eqn:N; [exists (OK (Some [])); intros p t; unfold ev_step; rewrite O, E; cbn [obind]; rewrite N; reflexivity|].
  - destruct (K false sel) as [r Hr]. exists r. intros p t. unfold ev_step. rewrite O, E. cbn [obind]. rewrite N. apply Hr.
  - destruct (K true sel) as [r Hr]. exists r. intros p t. unfold ev_step. rewrite O, E. cbn [obind]. rewrite N. apply Hr.
  - destruct (U vs) as [r Hr]. exists r. intros p t. unfold ev_step. rewrite O, E. cbn [obind]. apply Hr.
Qed.
Lemma path_every : forall ss, Forall (fun s => SpecSelect.is_select (st_op s) = true) ss ->
  Forall (fun s => forall e, In (PExpr e) (st_args s) -> wf_expr e /\ keyless e) ss -> forall out,
  exists r, forall p t, ev_path (reordered W p) root ss out t = let! g := r in OK (g, t).
Proof.
  intros ss H1. induction H1 as [|s ss Hs H1 IH]; intros H2 out; [exists (OK out); reflexivity|].
  destruct (step_every s out Hs (Forall_inv H2)) as [[g|e| |] E].
  - destruct (IH (Forall_inv_tail H2) g) as [r E']. exists r. intros p t. cbn [ev_path]. rewrite E. cbn [obind]. apply E'.
  - exists (Fail e). intros p t. cbn [ev_path]. rewrite E. reflexivity.
  - exists Panics. intros p t. cbn [ev_path]. rewrite E. reflexivity.
  - exists OutOfFuel. intros p t. cbn [ev_path]. rewrite E. reflexivity.
Qed.
End filters.

(** what the filters do on the document *)
Lemma filters_eval : forall TX pre o e s jp W t root r, filters TX pre o e s jp -> orders_ok W -> doc root ->
  (JP_Eval W t jp root r <-> r = ev_run W root t (pre ++ [mkStep o [PExpr e]])).
Proof. intros TX pre o e s jp W t root r [Ha Hf] HW Hr. exact (text_eval TX s _ jp Ha Hf W t root r HW Hr). Qed.

Lemma eval_not : forall TX pre o e s1 jp1 s2 jp2 s3 jp3 W t root r, filter_op o ->
  filters TX pre o e s1 jp1 -> filters TX pre o (EInner OpNot [e]) s2 jp2 -> filters TX pre o (EBool true) s3 jp3 ->
  orders_ok W -> doc root -> JP_Eval W t jp1 root r ->
  (exists l1 l2 l, r = OK l1 /\ JP_Eval W t jp2 root (OK l2) /\ JP_Eval W t jp3 root (OK l) /\ interleaves l1 l2 l) \/
  ((forall l, r <> OK l) /\ JP_Eval W t jp2 root r).
Proof.
  intros TX pre o e s1 jp1 s2 jp2 s3 jp3 W t root r Ho H1 H2 H3 HW Hr H.
  apply (filters_eval _ _ _ _ _ _ W t root r H1 HW Hr) in H.
  pose proof (fun r => filters_eval _ _ _ _ _ _ W t root r H2 HW Hr) as E2. pose proof (fun r => filters_eval _ _ _ _ _ _ W t root r H3 HW Hr) as E3.
  destruct (filter_run W root pre o t Ho) as [(r0 & Hn & Hr0)|(D & t2 & HD)].
  - right. rewrite Hr0 in H. subst r0. split; [exact Hn|]. apply E2. symmetry. apply Hr0.
  - rewrite HD in H. setoid_rewrite HD in E2. setoid_rewrite HD in E3. rewrite verdicts_true in E3. cbn [obind] in E3. rewrite chosen_all in E3.
    rewrite verdicts_not in E2. destruct (verdicts W root e D t2) as [[bs t3]| | |] eqn:V; cbn [obind] in *.
    + left. exists (chosen bs D), (chosen (map negb bs) D), D. split; [exact H|]. split; [apply E2; reflexivity|]. split; [apply E3; reflexivity|].
      apply chosen_split. eapply verdicts_length; eauto.
    + right. subst r. split; [discriminate|]. apply E2. reflexivity.
    + right. subst r. split; [discriminate|]. apply E2. reflexivity.
    + right. subst r. split; [discriminate|]. apply E2. reflexivity.
Qed.

Lemma kept_and : forall W a b, kept W (op_and W a b) = kept W a && kept W b.
Proof. intros W a b. unfold op_and, kept. destruct (isNothing a) eqn:A, (cvb W a) eqn:C; cbn [negb orb andb]; rewrite ?A, ?C; reflexivity. Qed.
Lemma kept_or : forall W a b, kept W (op_or W a b) = kept W a || kept W b.
Proof.
  intros W a b. unfold op_or, kept. destruct (isNothing a) eqn:A, (cvb W a) eqn:C, (isNothing b) eqn:B; cbn [negb orb andb]; rewrite ?A, ?B, ?C; try reflexivity.
Qed.
Lemma binary_verdicts : forall W root o f e1 e2, (forall a b, binop W o a b = Some (OK (f a b))) ->
  (forall t vs, apply_op W t o vs = match vs with
    | [v] => match unop W o v with Some r => OK (r, t) | None => Panics end
    | [a; b] => match binop W o a b with Some r => let! v := r in OK (v, t) | None => Panics end
    | _ => Panics end) ->
  wf_expr e1 -> wf_expr e2 -> keyless e1 -> keyless e2 -> forall (g : bool -> bool -> bool), (forall a b, kept W (f a b) = g (kept W a) (kept W b)) ->
  forall D t bs1 bs2 t1 t2, verdicts W root e1 D t = OK (bs1, t1) -> verdicts W root e2 D t = OK (bs2, t2) ->
  exists t', verdicts W root (EInner o [e1; e2]) D t = OK (map (fun p => g (fst p) (snd p)) (combine bs1 bs2), t').
Proof.
  intros W root o f e1 e2 Hb Ha W1 W2 K1 K2 g Hg D. induction D as [|d D IH]; intros t bs1 bs2 t1 t2 H1 H2; cbn [verdicts] in *.
  - injection H1 as <- <-. injection H2 as <- <-. exists t. reflexivity.
  - destruct (ev_fixed W root d e1 W1 K1) as [r1 E1]. destruct (ev_fixed W root d e2 W2 K2) as [r2 E2].
    rewrite ev_inner. cbn [evs]. rewrite E1 in H1 |- *. rewrite E2 in H2.
    destruct r1 as [v1| | |]; try discriminate H1. destruct r2 as [v2| | |]; try discriminate H2. cbn [obind] in *.
    rewrite E2. cbn [obind]. rewrite Ha, Hb. cbn [obind].
    destruct (verdicts W root e1 D t) as [[b1 u1]| | |] eqn:V1; try discriminate H1.
    destruct (verdicts W root e2 D t) as [[b2 u2]| | |] eqn:V2; try discriminate H2. cbn [obind] in *.
    injection H1 as <- <-. injection H2 as <- <-. destruct (IH t b1 b2 u1 u2 V1 V2) as [t' ->]. cbn [obind combine map fst snd]. rewrite Hg.
    eexists. reflexivity.
Qed.

Lemma eval_and_or : forall TX pre o e1 e2 s1 jp1 s2 jp2 s3 jp3 s4 jp4 s5 jp5 W t root l1 l2, filter_op o ->
  filters TX pre o e1 s1 jp1 -> filters TX pre o e2 s2 jp2 -> filters TX pre o (EInner OpAnd [e1; e2]) s3 jp3 ->
  filters TX pre o (EInner OpOr [e1; e2]) s4 jp4 -> filters TX pre o (EBool true) s5 jp5 ->
  keyless e1 -> keyless e2 -> orders_ok W -> doc root -> JP_Eval W t jp1 root (OK l1) -> JP_Eval W t jp2 root (OK l2) ->
  exists l bs1 bs2, JP_Eval W t jp5 root (OK l) /\ length bs1 = length l /\ length bs2 = length l /\
    l1 = chosen bs1 l /\ l2 = chosen bs2 l /\
    JP_Eval W t jp3 root (OK (chosen (map (fun p => fst p && snd p) (combine bs1 bs2)) l)) /\
    JP_Eval W t jp4 root (OK (chosen (map (fun p => fst p || snd p) (combine bs1 bs2)) l)).
Proof.
  intros TX pre o e1 e2 s1 jp1 s2 jp2 s3 jp3 s4 jp4 s5 jp5 W t root l1 l2 Ho F1 F2 F3 F4 F5 K1 K2 HW Hr H1 H2.
  assert (Hw : forall e s jp, filters TX pre o e s jp -> wf_expr e).
  { intros e s jp [Ha _]. pose proof (text_wf _ _ _ _ Ha) as Hw. apply Forall_app in Hw as [_ Hw]. apply Forall_inv in Hw.
    destruct Ho as [-> | ->]; inversion Hw; assumption. }
  apply (filters_eval _ _ _ _ _ _ W t root _ F1 HW Hr) in H1. apply (filters_eval _ _ _ _ _ _ W t root _ F2 HW Hr) in H2.
  destruct (filter_run W root pre o t Ho) as [(r0 & Hn & Hr0)|(D & t2 & HD)].
  - rewrite Hr0 in H1. destruct (Hn l1). congruence.
  - rewrite HD in H1, H2. destruct (verdicts W root e1 D t2) as [[bs1 u1]| | |] eqn:V1; try discriminate H1.
    destruct (verdicts W root e2 D t2) as [[bs2 u2]| | |] eqn:V2; try discriminate H2. cbn [obind] in *. injection H1 as ->. injection H2 as ->.
    exists D, bs1, bs2. split.
    { apply (filters_eval _ _ _ _ _ _ W t root _ F5 HW Hr). rewrite HD, verdicts_true. cbn [obind]. rewrite chosen_all. reflexivity. }
    split; [eapply verdicts_length; eauto|]. split; [eapply verdicts_length; eauto|]. split; [reflexivity|]. split; [reflexivity|]. split.
    + apply (filters_eval _ _ _ _ _ _ W t root _ F3 HW Hr). rewrite HD.
      destruct (binary_verdicts W root OpAnd (op_and W) e1 e2 (fun a b => eq_refl) (fun t vs => eq_refl) (Hw _ _ _ F1) (Hw _ _ _ F2) K1 K2 andb (kept_and W) D t2 bs1 bs2 u1 u2 V1 V2) as [t' ->].
      reflexivity.
    + apply (filters_eval _ _ _ _ _ _ W t root _ F4 HW Hr). rewrite HD.
      destruct (binary_verdicts W root OpOr (op_or W) e1 e2 (fun a b => eq_refl) (fun t vs => eq_refl) (Hw _ _ _ F1) (Hw _ _ _ F2) K1 K2 orb (kept_or W) D t2 bs1 bs2 u1 u2 V1 V2) as [t' ->].
      reflexivity.
Qed.

Lemma eval_direct : forall TX s ss jp W perm t t' root r, accepted TX s ss jp -> fits jp -> direct ss -> ~ calls_keys ss ->
  orders_ok W -> orders_ok (reordered W perm) -> doc root -> JP_Eval W t jp root r -> JP_Eval (reordered W perm) t' jp root r.
Proof.
  intros TX s ss jp W perm t t' root r Ha Hf Hd Hk HW HW' Hr H. apply (text_eval TX s ss jp Ha Hf W t root r HW Hr) in H.
  apply (text_eval TX s ss jp Ha Hf _ t' root r HW' Hr). pose proof (text_wf _ _ _ _ Ha) as Hw.
  destruct (path_every W root ss Hd) with (out := Some [root]) as [q E].
  - rewrite Forall_forall. intros st Hin e He. split.
    + unfold wf_path in Hw. unfold direct in Hd. rewrite Forall_forall in Hw. specialize (Hw st Hin). rewrite Forall_forall in Hd. specialize (Hd st Hin).
      assert (U : forall l, Forall wf_union_elt l -> ~ In (PExpr e) l).
      { intros l Hl Hi. rewrite Forall_forall in Hl. specialize (Hl _ Hi). inversion Hl. }
      destruct Hw as [|v Hv|v Hv|l _ Hl| | | | | | ]; try discriminate Hd; cbn [st_args In] in He; try (destruct He as [->|[]]); try contradiction.
      * inversion Hv; assumption.
      * inversion Hv as [? Hu|]; [inversion Hu|assumption].
      * destruct (U l Hl He).
    + intros args Hp. apply Hk. exists args, st, e. auto.
  - unfold ev_run in *. rewrite (E perm t'). rewrite <- (reordered_self W), (E (w_perm W) t) in H. subst r. destruct q; reflexivity.
Qed.
