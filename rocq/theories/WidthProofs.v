(** Proofs about integers' types (C69).  [wd] gives every integer the type int64, but for the
    least int (and what is no int at all); the machine commutes with it. *)
From Coq Require Import Lia.
From Verif Require Import Syntax Value SpecDoc Machine Api SpecWidth.
From Verif Require Import DocProofs SliceProofs WalkProofs Examples.
Local Open Scope Z_scope.

Definition least (z : Z) : bool := negb ((-9223372036854775808 <? z) && (z <=? 9223372036854775807)).
Fixpoint wd (v : val) : val :=
  match v with
  | VInt z => if least z then VInt z else VInt64 z
  | VArr l => VArr (map wd l)
  | VObj m => VObj (map (fun kv => (fst kv, wd (snd kv))) m)
  | _ => v
  end.
Definition wdm (m : list (bytes * val)) : list (bytes * val) := map (fun kv => (fst kv, wd (snd kv))) m.
Definition wdo (o : option val) : option val := option_map wd o.
Definition wdg (g : gslice) : gslice := option_map (map wd) g.
Definition wde (e : rerr) : rerr :=
  match e with
  | RMatchRight v => RMatchRight (wd v)
  | RMatchLeft v => RMatchLeft (wd v)
  | RInRight n v => RInRight n (wd v)
  | _ => e
  end.
Definition on {A} (f : A -> A) (r : M A) : M A :=
  match r with OK x => OK (f x) | Fail e => Fail (wde e) | Panics => Panics | OutOfFuel => OutOfFuel end.

Ltac wdi z := cbn [wd]; destruct (least z) eqn:?.
Ltac byval v := destruct v as [|?|z0|?|?|s0|?|l0|m0|?|?|?|?]; try reflexivity; try (wdi z0; reflexivity).

Ltac byv v := destruct v; try reflexivity; try (cbn [map wd]; repeat match goal with |- context [least ?z] => destruct (least z) end; reflexivity).

Lemma isNothing_wd : forall v, isNothing (wd v) = isNothing v. Proof. intros v. byval v. Qed.
Lemma isString_wd : forall v, isString (wd v) = isString v. Proof. intros v. byval v. Qed.
Lemma isInt_wd : forall v, isInt (wd v) = isInt v. Proof. intros v. byval v. Qed.
Lemma isFloat_wd : forall v, isFloat (wd v) = isFloat v. Proof. intros v. byval v. Qed.
Lemma isArith_wd : forall v, isArith (wd v) = isArith v. Proof. intros v. byval v. Qed.
Lemma isSimple_wd : forall v, isSimple (wd v) = isSimple v. Proof. intros v. byval v. Qed.
Lemma IsStructure_wd : forall v, IsStructure (wd v) = IsStructure v. Proof. intros v. byval v. Qed.
Lemma typeOf_wd : forall v, typeOf (wd v) = typeOf v. Proof. intros v. byval v. Qed.
Section width.
Variable W : world.
Lemma cvs_wd : forall v, cvs W (wd v) = cvs W v. Proof. intros v. byval v. Qed.
Lemma cvi_wd : forall v, cvi W (wd v) = cvi W v. Proof. intros v. byval v. Qed.
Lemma cvf_wd : forall v, cvf W (wd v) = cvf W v. Proof. intros v. byval v. Qed.
Lemma cvb_wd : forall v, cvb W (wd v) = cvb W v. Proof. intros v. byval v. Qed.
Lemma eqNum_wd : forall a b, eqNum W (wd a) (wd b) = eqNum W a b.
Proof. intros a b. unfold eqNum. rewrite !isFloat_wd, !cvf_wd, !cvi_wd. reflexivity. Qed.
Lemma eqArrayS_wd : forall l s, eqArrayS W (map wd l) s = eqArrayS W l s.
Proof. intros [|x [|y l]] s; cbn [map eqArrayS]; rewrite ?cvs_wd; reflexivity. Qed.
Lemma eqArrayN_wd : forall l b, eqArrayN W (map wd l) (wd b) = eqArrayN W l b.
Proof.
  intros [|x [|y l]] b; cbn [map eqArrayN]; rewrite ?eqNum_wd; try reflexivity.
  change (VFloat f_zero) with (wd (VFloat f_zero)) at 1. apply eqNum_wd.
Qed.
Lemma eqArrayB_wd : forall a b, eqArrayB W (wd a) b = eqArrayB W a b.
Proof. intros a b. byval a. destruct l0 as [|x [|y l]]; cbn [wd map eqArrayB]; rewrite ?cvi_wd; reflexivity. Qed.
Definition asArr (v : val) : option (list val) := match v with VArr l => Some l | _ => None end.
Lemma asArr_wd : forall v, asArr (wd v) = option_map (map wd) (asArr v). Proof. intros v. byval v. Qed.
Lemma eq_mixed_alt : forall a b, eq_mixed W a b =
  match typeOf a, typeOf b with
  | Null, Undefined | Undefined, Null => true
  | Number, JString => if badNum W (cvs W b) (isFloat a) then false else eqNum W a b
  | JString, Number => if badNum W (cvs W a) (isFloat b) then false else eqNum W a b
  | Boolean, Number | Number, Boolean => eqNum W a b
  | Boolean, JString => if badNum W (cvs W b) true then false else f_eqb (cvf W a) (cvf W b)
  | JString, Boolean => if badNum W (cvs W a) true then false else f_eqb (cvf W a) (cvf W b)
  | Object, Boolean => eqArrayB W a (cvi W b)
  | Boolean, Object => eqArrayB W b (cvi W a)
  | JString, Object | Object, JString =>
    match asArr a, asArr b with
    | Some l, _ => eqArrayS W l (cvs W b)
    | None, Some l => eqArrayS W l (cvs W a)
    | _, _ => false
    end
  | Number, Object | Object, Number =>
    match asArr a, asArr b with
    | Some l, _ => eqArrayN W l b
    | None, Some l => eqArrayN W l a
    | _, _ => false
    end
  | _, _ => false
  end.
Proof. intros a b. unfold eq_mixed, asArr. destruct a; try reflexivity; destruct b; reflexivity. Qed.
Lemma eq_mixed_wd : forall a b, eq_mixed W (wd a) (wd b) = eq_mixed W a b.
Proof.
  intros a b. rewrite !eq_mixed_alt, !typeOf_wd, !isFloat_wd, !cvs_wd, !cvf_wd, !cvi_wd, !eqNum_wd, !eqArrayB_wd, !asArr_wd.
  destruct (asArr a), (asArr b); cbn [option_map]; rewrite ?eqArrayS_wd, ?eqArrayN_wd; reflexivity.
Qed.
Lemma lookup_wd : forall k m, lookup k (wdm m) = wdo (lookup k m).
Proof. intros k m. induction m as [|[k' v] m IH]; cbn [wdm map lookup fst snd]; [reflexivity|]. destruct (beqb k k'); [reflexivity|exact IH]. Qed.
Lemma eqVal_wd : forall a b, eqVal W (wd a) (wd b) = eqVal W a b.
Proof.
  assert (D : forall a b, (forall l, a <> VArr l) -> (forall m, a <> VObj m) -> eqVal W a b =
    if negb (jsType_beq (typeOf a) (typeOf b)) then eq_mixed W a b else
    match typeOf a with Undefined | Null => true | Number => eqNum W a b
    | JString => match a, b with VStr s, VStr t => beqb s t | _, _ => false end
    | Boolean => match a, b with VBool s, VBool t => Bool.eqb s t | _, _ => false end
    | Object => false end).
  { intros a b A O. destruct a; try reflexivity; [destruct (A l); reflexivity|destruct (O m); reflexivity]. }
  assert (L : forall a b, (forall l, a <> VArr l) -> (forall m, a <> VObj m) -> eqVal W (wd a) (wd b) = eqVal W a b).
  { intros a b A O. rewrite (D (wd a)), (D a); [|exact A|exact O|intros l E; destruct a; try discriminate E|intros m E; destruct a; try discriminate E].
    - rewrite eq_mixed_wd, eqNum_wd, !typeOf_wd. destruct (negb _); [reflexivity|]. destruct a; try reflexivity; byv b.
    - cbn [wd] in E. destruct (least z); discriminate E.
    - destruct (A l0 eq_refl).
    - cbn [wd] in E. destruct (least z); discriminate E.
    - destruct (O m0 eq_refl). }
  intros a. induction a as [|x0|x0|x0|x0|s0|s0|l IH|m IH|s0|s0|s0|k0] using val_tree_ind; intros b;
    try (apply L; intros; discriminate).
  - destruct b as [|y|y|y|y|t|t|l'|m'|t|t|t|k];
      try (change (eq_mixed W (wd (VArr l)) (wd y) = eq_mixed W (VArr l) y); apply eq_mixed_wd);
      try (exact (eq_mixed_wd (VArr l) _)); try reflexivity.
    + cbn [wd]. destruct (least y) eqn:E; [|].
      * assert (Q := eq_mixed_wd (VArr l) (VInt y)). cbn [wd] in Q. rewrite E in Q. exact Q.
      * assert (Q := eq_mixed_wd (VArr l) (VInt y)). cbn [wd] in Q. rewrite E in Q. exact Q.
    + cbn [wd eqVal typeOf jsType_beq negb]. rewrite !map_length. f_equal. revert l'. induction l as [|x l IHl]; intros [|y l']; try reflexivity.
      cbn [map]. inversion IH as [|? ? IH1 IH2]. rewrite IH1. f_equal. apply IHl, IH2.
  - destruct b as [|y|y|y|y|t|t|l'|m'|t|t|t|k];
      try (exact (eq_mixed_wd (VObj m) _)); try reflexivity.
    + assert (Q := eq_mixed_wd (VObj m) (VInt y)). cbn [wd] in Q |- *. destruct (least y); exact Q.
    + cbn [wd eqVal typeOf jsType_beq negb]. rewrite !map_length. f_equal. induction m as [|[k v] m IHm]; [reflexivity|].
      cbn [map fst snd]. inversion IH as [|? ? IH1 IH2]. f_equal; [|apply IHm, IH2].
      assert (Q := lookup_wd k m'). unfold wdm in Q. rewrite Q. cbn [snd] in IH1. destruct (lookup k m'); [apply IH1|exact (IH1 VNil)].
Qed.

(** functions *)
Lemma arith_loop_wd : forall f l i acc, arith_loop W f i acc (map wd l) = arith_loop W f i acc l.
Proof. intros f. induction l as [|v l IH]; intros i acc; cbn [map arith_loop]; [reflexivity|]. rewrite isArith_wd, cvf_wd, IH. reflexivity. Qed.
Lemma arith_loop_fix : forall f l i acc, wd (arith_loop W f i acc l) = arith_loop W f i acc l.
Proof. intros f. induction l as [|v l IH]; intros i acc; cbn [arith_loop]; [reflexivity|]. destruct (negb _); [reflexivity|apply IH]. Qed.
Lemma arithArrayOp_wd : forall l f, arithArrayOp W (map wd l) f = arithArrayOp W l f.
Proof. intros [|v l] f; [reflexivity|]. exact (arith_loop_wd f (v :: l) _ _). Qed.
Lemma arithArrayOp_fix : forall l f, wd (arithArrayOp W l f) = arithArrayOp W l f.
Proof. intros [|v l] f; [reflexivity|]. apply arith_loop_fix. Qed.
Lemma string_loop_wd : forall f l i acc, string_loop f i acc (map wd l) = string_loop f i acc l.
Proof. intros f. induction l as [|v l IH]; intros i acc; cbn [map string_loop]; [reflexivity|]. byval v. cbn [wd]. apply IH. Qed.
Lemma string_loop_fix : forall f l i acc, wd (string_loop f i acc l) = string_loop f i acc l.
Proof. intros f. induction l as [|v l IH]; intros i acc; cbn [string_loop]; [reflexivity|]. byval v. apply IH. Qed.
Lemma minMaxArray_wd : forall l f g, minMaxArray W (map wd l) f g = wd (minMaxArray W l f g).
Proof.
  intros [|v l] f g; [reflexivity|].
  assert (A := arithArrayOp_wd (v :: l) f). assert (B := arithArrayOp_fix (v :: l) f).
  assert (C := string_loop_wd g (v :: l) 0%nat []). assert (C' := string_loop_fix g (v :: l) 0%nat []).
  cbn [map] in *. destruct v; try reflexivity; cbn [minMaxArray]; cbn [wd] in *; try congruence.
  - destruct (least z); cbn [minMaxArray]; congruence.
  - unfold stringArrayOp. congruence.
Qed.
Lemma avg_loop_wd : forall l s, avg_loop W s (map wd l) = avg_loop W s l.
Proof. induction l as [|v l IH]; intros s; cbn [map avg_loop]; [reflexivity|]. rewrite isArith_wd, cvf_wd, IH. reflexivity. Qed.
Lemma fn_avg_wd : forall v, fn_avg W (wd v) = wd (fn_avg W v).
Proof. intros v. byval v. cbn [wd fn_avg]. rewrite avg_loop_wd, map_length. destruct (avg_loop W f_zero l0); reflexivity. Qed.
Lemma fn_abs_wd : forall v, fn_abs (wd v) = wd (fn_abs v).
Proof.
  intros v. destruct v; try reflexivity; cbn [wd].
  - destruct (least z) eqn:E; cbn [fn_abs]; unfold least in E; destruct (z <? 0) eqn:E0; cbn [wd]; try reflexivity.
    apply negb_false_iff, andb_true_iff in E as [E1 E2]. cbv zeta. destruct (neg64 z <? 0) eqn:E3; [|reflexivity].
    exfalso. unfold neg64 in E3. rewrite wrap64_id in E3 by (unfold in_int64, min_int64, max_int64; lia). lia.
  - cbn [fn_abs]. destruct (z <? 0); [|reflexivity]. cbv zeta. destruct (neg64 z <? 0); reflexivity.
  - cbn [fn_abs]. destruct (f_ltb f f_zero); reflexivity.
Qed.
Lemma fn_ceil_wd : forall v, fn_ceil (wd v) = wd (fn_ceil v).
Proof. intros v. byval v. wdi z0; cbn [fn_ceil wd]; rewrite ?Heqb; reflexivity. Qed.
Lemma fn_floor_wd : forall v, fn_floor (wd v) = wd (fn_floor v).
Proof. intros v. byval v. wdi z0; cbn [fn_floor wd]; rewrite ?Heqb; reflexivity. Qed.
Lemma existsb_wd : forall b l, existsb (fun v => eqVal W v (wd b)) (map wd l) = existsb (fun v => eqVal W v b) l.
Proof. intros b. induction l as [|v l IH]; cbn [map existsb]; [reflexivity|]. rewrite eqVal_wd, IH. reflexivity. Qed.
Lemma fn_contains_wd : forall a b, fn_contains W (wd a) (wd b) = wd (fn_contains W a b).
Proof.
  intros a b. byval a.
  - cbn [wd fn_contains]. byv b.
  - cbn [wd fn_contains]. rewrite existsb_wd. reflexivity.
Qed.
Lemma fn_keys_wd : forall t v, fn_keys W t (wd v) = (wd (fst (fn_keys W t v)), snd (fn_keys W t v)).
Proof.
  intros t v. byval v. cbn [wd fn_keys fst snd]. rewrite map_length, <- reorder_map, !map_map. reflexivity.
Qed.
Lemma fn_length_wd : forall v, fn_length (wd v) = wd (fn_length v).
Proof. intros v. byval v; cbn [wd fn_length]; rewrite map_length; reflexivity. Qed.
Lemma fn_minmax_wd : forall f g l, fn_minmax W f g (map wd l) = wd (fn_minmax W f g l).
Proof.
  intros f g [|v [|v' l]]; [reflexivity| |exact (minMaxArray_wd (v :: v' :: l) f g)].
  cbn [map fn_minmax]. byval v. apply minMaxArray_wd.
Qed.
Lemma fn_prod_wd : forall v, fn_prod W (wd v) = wd (fn_prod W v).
Proof.
  intros v. byval v. destruct l0 as [|x l]; [reflexivity|]. cbn [wd fn_prod]. rewrite arithArrayOp_fix, <- (arithArrayOp_wd (x :: l)). reflexivity.
Qed.
Lemma fn_sum_wd : forall v, fn_sum W (wd v) = wd (fn_sum W v).
Proof.
  intros v. byval v. destruct l0 as [|x l]; [reflexivity|]. cbn [wd fn_sum]. rewrite arithArrayOp_fix, <- (arithArrayOp_wd (x :: l)). reflexivity.
Qed.
Lemma fn_to_number_wd : forall v, fn_to_number W (wd v) = wd (fn_to_number W v).
Proof.
  intros v. byval v.
  - wdi z0; cbn [fn_to_number wd]; rewrite ?Heqb; reflexivity.
  - cbn [wd fn_to_number]. destruct (parse_float W s0); reflexivity.
Qed.
Lemma stringArgs_wd : forall l, stringArgs (map wd l) = stringArgs l.
Proof.
  intros [|a [|b [|c l]]]; try reflexivity; byv a; try (byv b).
Qed.
Lemma strs_wd : forall l, map wd (map VStr l) = map VStr l.
Proof. intros l. rewrite map_map. reflexivity. Qed.
Definition wdp (x : val * nat) : val * nat := (wd (fst x), snd x).
Lemma call_wd : forall t id args, call W t id (map wd args) = on wdp (call W t id args).
Proof.
  intros t id args. unfold call. destruct (lookup id functions) as [fn|] eqn:E; [|reflexivity].
  rewrite map_length. assert (H : fn_body fn W t (map wd args) = on wdp (fn_body fn W t args)).
  { unfold functions in E. cbn [lookup] in E.
    repeat match type of E with
    | (if ?b then _ else _) = _ => destruct b; [injection E as <-; cbn [fn_body fn1]; unfold with_arg, arg; rewrite ?nth_error_map|]
    end; [..|discriminate E].
    all: try (destruct (nth_error args 0) as [v|]; cbn [option_map]; [|reflexivity]).
    all: try (destruct (nth_error args 1) as [v'|]; cbn [option_map]; [|reflexivity]).
    all: rewrite ?fn_abs_wd, ?fn_avg_wd, ?fn_ceil_wd, ?fn_floor_wd, ?fn_contains_wd, ?fn_keys_wd, ?fn_length_wd, ?fn_minmax_wd, ?fn_prod_wd,
      ?fn_sum_wd, ?fn_to_number_wd, ?stringArgs_wd; try reflexivity.
    - destruct (stringArgs args) as [[a b]|]; reflexivity.
    - destruct (stringArgs args) as [[a b]|]; reflexivity.
    - unfold fn_tokenize. rewrite stringArgs_wd. destruct (stringArgs args) as [[a b]|]; [|reflexivity].
      destruct (re_ok W b); [|reflexivity]. cbn [on]. unfold wdp. cbn [fst snd wd]. rewrite strs_wd. reflexivity. }
  destruct (fn_na fn) as [na|]; [|exact H]. destruct (negb _); [reflexivity|exact H].
Qed.

(** selection *)
Lemma g_list_wd : forall g, g_list (wdg g) = map wd (g_list g). Proof. intros [l|]; reflexivity. Qed.
Lemma g_append_wd : forall g v, g_append (wdg g) (wd v) = wdg (g_append g v).
Proof. intros g v. unfold g_append. rewrite g_list_wd. cbn [wdg option_map]. rewrite map_app. reflexivity. Qed.
Lemma g_appends_wd : forall l g, g_appends (wdg g) (map wd l) = wdg (g_appends g l).
Proof. unfold g_appends. induction l as [|v l IH]; intros g; cbn [map fold_left]; [reflexivity|]. rewrite g_append_wd. apply IH. Qed.
Lemma index_wd : forall l i, index_Z (map wd l) i = wdo (index_Z l i).
Proof. intros l i. unfold index_Z, wdo. destruct (i <? 0); [reflexivity|apply nth_error_map]. Qed.
Variable Hp : prints_alike W.
Lemma wd_alike : forall v, alike v (wd v).
Proof.
  intros v. induction v as [|x0|z|x0|x0|s0|s0|l IH|m IH|s0|s0|s0|k0] using val_tree_ind; try (apply AlSame; discriminate).
  - cbn [wd]. destruct (least z) eqn:E; [apply AlSame; discriminate|]. apply AlNarrow. unfold least in E. lia.
  - cbn [wd]. apply AlArr. induction IH; constructor; assumption.
  - cbn [wd]. apply AlObj. induction IH; constructor; [split; [reflexivity|assumption]|assumption].
Qed.
Lemma mapKey_wd : forall v, mapKey W (wd v) = mapKey W v.
Proof.
  intros v. assert (H := Hp v (wd v) (wd_alike v)). byval v; cbn [wd mapKey] in *; symmetry; exact H.
Qed.
Lemma valByKey_wd : forall a k n, valByKey W (wd a) (wd k) n = wdo (valByKey W a k n).
Proof.
  intros a k n. byval a; cbn [wd valByKey].
  - rewrite map_length, cvi_wd. cbv zeta. match goal with |- (if ?c then _ else _) = _ => destruct c end; [apply index_wd|reflexivity].
  - rewrite mapKey_wd. apply lookup_wd.
Qed.
Lemma slice_loop_wd : forall n up l i e st g, slice_loop n up (map wd l) i e st (wdg g) = on wdg (slice_loop n up l i e st g).
Proof.
  induction n as [|n IH]; intros up l i e st g; cbn [slice_loop]; (destruct (if up then i <? e else i >? e); [|reflexivity]); [reflexivity|].
  rewrite index_wd. destruct (index_Z l i) as [v|]; [|reflexivity]. cbn [wdo option_map]. rewrite g_append_wd. apply IH.
Qed.
Lemma slicing_wd : forall l s, slicing (map wd l) s = on (map wd) (slicing l s).
Proof.
  intros l s. unfold slicing. rewrite map_length. destruct (sliceEval s _) as [[st e] d].
  destruct (d =? 1).
  - destruct (_ && _); [|reflexivity]. cbn [on]. rewrite skipn_map, firstn_map. reflexivity.
  - assert (L : forall up, (let! g := slice_loop (S (length l)) up (map wd l) st e d (Some []) in OK (g_list g)) =
      on (map wd) (let! g := slice_loop (S (length l)) up l st e d (Some []) in OK (g_list g))).
    { intros up. change (Some []) with (wdg (Some [])) at 1. rewrite slice_loop_wd.
      destruct (slice_loop _ up l st e d (Some [])) as [g|x| |]; try reflexivity. cbn [on obind]. rewrite g_list_wd. reflexivity. }
    destruct (d >? 0); [apply L|]. destruct (d <? 0); [apply L|reflexivity].
Qed.
Lemma valsByKey_wd : forall g a k n, valsByKey W (wdg g) (wd a) (wd k) n = on wdg (valsByKey W g a k n).
Proof.
  intros g a k n.
  assert (O : forall o : option val, match wdo o with Some v => g_append (wdg g) v | None => wdg g end = wdg (match o with Some v => g_append g v | None => g end)).
  { intros [v|]; [apply g_append_wd|reflexivity]. }
  assert (S : (exists s, k = VSlice s) \/ forall s, k <> VSlice s) by (destruct k; try (right; discriminate); left; eauto).
  destruct S as [[s ->]|S].
  - byval a. cbn [wd valsByKey]. rewrite map_length. destruct (sliceEval s _) as [[st e] d].
    destruct (d >? 0); [apply slice_loop_wd|]. destruct (d <? 0); [apply slice_loop_wd|reflexivity].
  - assert (E : forall g a k, (forall s, k <> VSlice s) -> valsByKey W g a k n =
      match a with
      | VArr _ => if isInt k then OK (match valByKey W a k n with Some v => g_append g v | None => g end) else OK g
      | VObj _ => OK (match valByKey W a k false with Some v => g_append g v | None => g end)
      | _ => OK g
      end).
    { intros g1 a1 k1 H1. destruct k1; try reflexivity. destruct (H1 s eq_refl). }
    rewrite !E; [|exact S|intros s; destruct k; cbn [wd]; try discriminate; [destruct (least z); discriminate|destruct (S s0 eq_refl)]].
    rewrite isInt_wd. assert (V1 := valByKey_wd a k n). assert (V2 := valByKey_wd a k false).
    destruct a; try reflexivity; [cbn [wd]; destruct (least z); reflexivity| |]; cbn [wd] in *.
    + destruct (isInt k); [|reflexivity]. rewrite V1, O. reflexivity.
    + rewrite V2, O. reflexivity.
Qed.
Lemma valsWild_wd : forall t g v, valsWild W t (wdg g) (wd v) = (wdg (fst (valsWild W t g v)), snd (valsWild W t g v)).
Proof.
  intros t g v. byval v; cbn [wd valsWild fst snd].
  - rewrite g_appends_wd. reflexivity.
  - rewrite map_length, !reorder_map, map_map. cbn [snd]. rewrite <- (map_map snd wd), <- reorder_map, g_appends_wd. reflexivity.
Qed.
Lemma unionVals_wd : forall sels g v, unionVals W (wdg g) (wd v) (map wd sels) = on wdg (unionVals W g v sels).
Proof.
  induction sels as [|s sels IH]; intros g v; cbn [map unionVals]; [reflexivity|]. rewrite isNothing_wd. destruct (isNothing s).
  - cbn [obind]. apply IH.
  - rewrite valsByKey_wd. destruct (valsByKey W g v s true); try reflexivity. cbn [on obind]. apply IH.
Qed.
Definition wdt (x : gslice * nat) : gslice * nat := (wdg (fst x), snd x).
Lemma apply_loop_wd : forall f f', (forall t v g, f' t (wd v) (wdg g) = on wdt (f t v g)) -> forall l t g,
  applySelection_loop f' t (map wd l) (wdg g) = on wdt (applySelection_loop f t l g).
Proof.
  intros f f' H. induction l as [|v l IH]; intros t g; cbn [map applySelection_loop]; [reflexivity|].
  rewrite H. destruct (f t v g) as [[g' t']|e| |]; try reflexivity. cbn [on obind wdt fst snd]. apply IH.
Qed.
Lemma applySelection_wd : forall f f', (forall t v g, f' t (wd v) (wdg g) = on wdt (f t v g)) -> forall t g,
  applySelection t (wdg g) f' = on wdt (applySelection t g f).
Proof. intros f f' H t g. unfold applySelection. rewrite g_list_wd. exact (apply_loop_wd f f' H (g_list g) t (Some [])). Qed.
Definition wdl (x : list val * nat) : list val * nat := (map wd (fst x), snd x).
Lemma stepping_wd : forall l t, stepping W t (map wd l) = wdl (stepping W t l).
Proof.
  induction l as [|v l IH]; intros t; cbn [map stepping]; [reflexivity|].
  destruct v; cbn [wd]; try apply IH.
  - destruct (least z); apply IH.
  - rewrite IH. unfold wdl. destruct (stepping W t l). cbn [fst snd]. rewrite map_app. reflexivity.
  - rewrite IH. unfold wdl. destruct (stepping W (S t) l). cbn [fst snd]. rewrite map_app, map_length.
    f_equal. f_equal. rewrite !reorder_map, !map_map. reflexivity.
Qed.
Lemma walkdown_wd : forall v t, walkdown W t (wd v) = wdl (walkdown W t v).
Proof.
  intros v. induction v as [|x0|z|x0|x0|s0|s0|l IH|m IH|s0|s0|s0|k0] using val_tree_ind; intros t; try reflexivity.
  - unfold wdl. cbn [wd walkdown fst snd map]. destruct (least z) eqn:E; cbn [walkdown]; reflexivity.
  - cbn [wd walkdown].
    match goal with |- (let (_, _) := ?F t (map wd l) in _) = wdl (let (_, _) := _ t l in _) =>
      assert (G : forall l, Forall (fun v => forall t, walkdown W t (wd v) = wdl (walkdown W t v)) l ->
        forall t, F t (map wd l) = (map (map wd) (fst (F t l)), snd (F t l))) end.
    { clear. induction l as [|x l IHl]; intros H t; [reflexivity|]. inversion H as [|? ? H1 H2]. cbn [map]. rewrite IsStructure_wd.
      destruct (IsStructure x).
      - rewrite H1. unfold wdl. destruct (walkdown W t x) as [s t1]. cbn [fst snd]. rewrite (IHl H2).
        match goal with |- context [fst ?q] => destruct q end. reflexivity.
      - rewrite (IHl H2). match goal with |- context [fst ?q] => destruct q end. reflexivity. }
    rewrite (G l IH). match goal with |- context [fst ?q] => destruct q end. unfold wdl. cbn [fst snd map wd]. rewrite concat_map. reflexivity.
  - cbn [wd walkdown]. rewrite map_length.
    match goal with |- (let (_, _) := ?F (S t) (map ?w m) in _) = wdl (let (_, _) := _ (S t) m in _) =>
      assert (G : forall m, Forall (fun kv => forall t, walkdown W t (wd (snd kv)) = wdl (walkdown W t (snd kv))) m ->
        forall t, F t (map w m) = (map (map wd) (fst (F t m)), snd (F t m))) end.
    { clear. induction m as [|[k x] m IHm]; intros H t; [reflexivity|]. inversion H as [|? ? H1 H2]. cbn [map fst snd] in *. rewrite IsStructure_wd.
      destruct (IsStructure x).
      - rewrite H1. unfold wdl. destruct (walkdown W t x) as [s t1]. cbn [fst snd]. rewrite (IHm H2).
        match goal with |- context [fst ?q] => destruct q end. reflexivity.
      - rewrite (IHm H2). match goal with |- context [fst ?q] => destruct q end. reflexivity. }
    rewrite (G m IH). match goal with |- context [fst ?q] => destruct q end. unfold wdl. cbn [fst snd map wd].
    rewrite <- reorder_map, concat_map. reflexivity.
Qed.
Lemma walker_wd : forall l t, walker W t (map wd l) = wdl (walker W t l).
Proof.
  induction l as [|v l IH]; intros t; cbn [map walker]; [reflexivity|]. rewrite IsStructure_wd. destruct (IsStructure v); [|apply IH].
  rewrite walkdown_wd. unfold wdl at 1. destruct (walkdown W t v) as [s t1]. cbn [fst snd]. rewrite IH. unfold wdl.
  destruct (walker W t1 l). cbn [fst snd]. rewrite map_app. reflexivity.
Qed.

(** operators *)
Definition wdv (r : M val) : M val := on wd r.
Lemma arith_wd : forall a b f g, arith W (wd a) (wd b) f g = wd (arith W a b f g).
Proof.
  intros a b f g. unfold arith. rewrite !isNothing_wd, !isArith_wd, !isFloat_wd, !cvf_wd, !cvi_wd.
  destruct (_ || _); [reflexivity|]. destruct (negb _); [reflexivity|]. destruct (_ || _); reflexivity.
Qed.
Lemma divide_wd : forall a b f g, divide W (wd a) (wd b) f g = wd (divide W a b f g).
Proof.
  intros a b f g. unfold divide. rewrite !isNothing_wd, !isArith_wd, !isFloat_wd, !cvf_wd, !cvi_wd.
  destruct (_ || _); [reflexivity|]. destruct (negb _); [reflexivity|]. destruct (_ || _).
  - destruct (f_eqb _ _); reflexivity.
  - destruct (_ =? _); reflexivity.
Qed.
Lemma relation_wd : forall a b f g h, relation W (wd a) (wd b) f g h = wd (relation W a b f g h).
Proof.
  intros a b f g h. unfold relation. rewrite !isNothing_wd, !isSimple_wd, !isString_wd, !isFloat_wd, !cvf_wd, !cvi_wd, !cvs_wd.
  destruct (_ || _); [reflexivity|]. destruct (negb _); [reflexivity|]. destruct (_ || _).
  - destruct (negb _); reflexivity.
  - destruct (_ || _); reflexivity.
Qed.
Lemma or_nothing_wd : forall o : option val, match wdo o with Some v => v | None => nothing end = wd (match o with Some v => v | None => nothing end).
Proof. intros [v|]; reflexivity. Qed.
Lemma op_dot_wd : forall a b, op_dot W (wd a) (wd b) = on wd (op_dot W a b).
Proof.
  intros a b. unfold op_dot. rewrite !isNothing_wd. destruct (_ || _); [reflexivity|].
  assert (S : (exists k, b = VName k) \/ forall k, b <> VName k) by (destruct b; try (right; discriminate); left; eauto).
  destruct S as [[k ->]|S].
  - cbn [wd]. assert (V := valByKey_wd a (VName k) false). cbn [wd] in V. destruct (beqb k _).
    + byval a; cbn [wd on]; rewrite map_length; reflexivity.
    + destruct a; try reflexivity; [cbn [wd]; destruct (least z); reflexivity|]. cbn [wd] in *. rewrite V. cbn [on]. rewrite or_nothing_wd. reflexivity.
  - destruct b; cbn [wd]; try reflexivity; [destruct (least z); reflexivity|destruct (S s eq_refl)].
Qed.
Lemma op_index_wd : forall a b, op_index W (wd a) (wd b) = on wd (op_index W a b).
Proof.
  intros a b. unfold op_index. rewrite !isNothing_wd. destruct (_ || _); [reflexivity|].
  assert (V := valByKey_wd a b true).
  destruct a; try reflexivity; cbn [wd] in *.
  - destruct (least z); reflexivity.
  - rewrite map_length, cvi_wd. cbv zeta. match goal with |- (if ?c then _ else _) = _ => destruct c end; [reflexivity|].
    rewrite index_wd. match goal with |- context [wdo ?x] => destruct x end; reflexivity.
  - rewrite V. cbn [on]. rewrite or_nothing_wd. reflexivity.
Qed.
Lemma op_slice_wd : forall a b, op_slice (wd a) (wd b) = on wd (op_slice a b).
Proof.
  intros a b. unfold op_slice. rewrite !isNothing_wd. destruct (_ || _); [reflexivity|].
  destruct b; cbn [wd]; try reflexivity; [destruct (least z); reflexivity|].
  destruct a; cbn [wd]; try reflexivity; [destruct (least z); reflexivity|]. rewrite slicing_wd.
  destruct (slicing l s); reflexivity.
Qed.
Lemma op_or_wd : forall a b, op_or W (wd a) (wd b) = wd (op_or W a b).
Proof. intros a b. unfold op_or. rewrite !isNothing_wd, cvb_wd. destruct (_ && _); [reflexivity|]. destruct (_ && _); reflexivity. Qed.
Lemma op_and_wd : forall a b, op_and W (wd a) (wd b) = wd (op_and W a b).
Proof. intros a b. unfold op_and. rewrite !isNothing_wd, cvb_wd. destruct (_ || _); reflexivity. Qed.
Lemma op_neg_wd : forall a, op_neg W (wd a) = wd (op_neg W a).
Proof.
  intros a. unfold op_neg. rewrite isNothing_wd. destruct (isNothing a); [reflexivity|]. assert (C := cvi_wd a).
  byv a; rewrite C; byv a; cbn [wd]; destruct (least z); reflexivity.
Qed.
Lemma op_match_wd : forall a b, op_match W (wd a) (wd b) = on wd (op_match W a b).
Proof.
  intros a b. unfold op_match. rewrite !isNothing_wd. destruct (_ || _); [reflexivity|].
  assert (L : forall p, match wd a with VStr s => OK (VBool (w_re_match W p s)) | _ => Fail (RMatchLeft (wd a)) end =
    on wd (match a with VStr s => OK (VBool (w_re_match W p s)) | _ => Fail (RMatchLeft a) end)).
  { intros p. destruct a; try reflexivity. cbn [on wde wd]. destruct (least z); reflexivity. }
  destruct b; cbn [wd obind]; try reflexivity; [cbn [on wde wd]; destruct (least z); reflexivity| |apply L].
  destruct (re_ok W s); [apply L|reflexivity].
Qed.
Lemma search_wd : forall l v f, searchJSON W (map wd l) (wd v) f = searchJSON W l v f.
Proof. intros l v f. induction l as [|x l IH]; cbn [map searchJSON]; [reflexivity|]. rewrite eqVal_wd, IH. reflexivity. Qed.
Lemma op_in_wd : forall i a b, op_in W i (wd a) (wd b) = on wd (op_in W i a b).
Proof.
  intros i a b. unfold op_in. rewrite !isNothing_wd. destruct (_ || _); [reflexivity|].
  destruct b; try reflexivity; cbn [wd].
  - cbn [on wde wd]. destruct (least z); reflexivity.
  - rewrite search_wd. reflexivity.
Qed.
Lemma binop_wd : forall o a b, binop W o (wd a) (wd b) = option_map (on wd) (binop W o a b).
Proof.
  intros o a b. destruct o; cbn [binop option_map]; rewrite ?op_dot_wd, ?op_index_wd, ?op_slice_wd, ?op_or_wd, ?op_and_wd, ?isNothing_wd, ?arith_wd, ?divide_wd,
    ?eqVal_wd, ?relation_wd, ?op_match_wd, ?op_in_wd; try reflexivity; destruct (_ || _); reflexivity.
Qed.
Lemma unop_wd : forall o a, unop W o (wd a) = option_map wd (unop W o a).
Proof.
  intros o a. destruct o; cbn [unop option_map]; rewrite ?op_neg_wd, ?cvb_wd, ?isNothing_wd, ?isString_wd, ?isInt_wd, ?cvi_wd; try reflexivity.
  destruct (isNothing a); [reflexivity|]. destruct (_ || _); reflexivity.
Qed.

(** the machine *)
Definition mw (m : mstate) : mstate :=
  mkM (wdg (m_out m)) (wd (m_dot m)) (map wd (m_stack m)) (m_sp m) (m_pc m) (map (map wd) (m_values m)) (m_tick m).
Lemma set_nth_wd : forall i v l, set_nth i (wd v) (map wd l) = map wd (set_nth i v l).
Proof. induction i as [|i IH]; intros v [|x l]; cbn [map set_nth]; try reflexivity. rewrite IH. reflexivity. Qed.
Lemma set_nil_wd : forall i l, set_nth i VNil (map wd l) = map wd (set_nth i VNil l).
Proof. intros i l. exact (set_nth_wd i VNil l). Qed.
Lemma clear_wd : forall n i l, clear_from i n (map wd l) = map wd (clear_from i n l).
Proof. induction n as [|n IH]; intros i l; cbn [clear_from]; [reflexivity|]. rewrite set_nil_wd. apply IH. Qed.
Lemma push_wd : forall v m, push (wd v) (mw m) = mw (push v m).
Proof.
  intros v m. unfold push. cbn [mw m_stack m_sp]. rewrite map_length. destruct (_ <=? _)%nat.
  - unfold set_stack, mw. cbn. rewrite map_app, !app_length, map_length. reflexivity.
  - unfold set_stack, mw. cbn. rewrite set_nth_wd. reflexivity.
Qed.
Definition wds {A} (f : A -> A) (x : A * mstate) : A * mstate := (f (fst x), mw (snd x)).
Lemma pop_wd : forall m, pop (mw m) = on (wds wd) (pop m).
Proof.
  intros m. unfold pop. cbn [mw m_sp m_stack]. destruct (m_sp m) as [|sp]; [reflexivity|].
  rewrite nth_error_map. destruct (nth_error (m_stack m) sp); [|reflexivity]. cbn [option_map on wds fst snd].
  unfold wds, set_stack, mw. cbn. rewrite set_nil_wd. reflexivity.
Qed.
Lemma popN_wd : forall n m, popN n (mw m) = on (wds (map wd)) (popN n m).
Proof.
  intros n m. unfold popN. cbn [mw m_sp m_stack]. destruct (_ <? n); [reflexivity|]. destruct (n <? 0); [reflexivity|].
  cbv zeta. cbn [on]. unfold wds, set_stack, mw. cbn. rewrite skipn_map, firstn_map, clear_wd. reflexivity.
Qed.
Lemma branch_wd : forall p pc m, branch p pc (mw m) = on mw (branch p pc m).
Proof. intros p pc m. unfold branch. destruct (_ || _); reflexivity. Qed.
Lemma looptop_wd : forall p f epc m, (forall t l, f t (map wd l) = wdl (f t l)) -> looptop p f epc (mw m) = on mw (looptop p f epc m).
Proof.
  intros p f epc m H. unfold looptop. cbn [mw m_out m_tick]. rewrite g_list_wd. destruct (g_list (m_out m)) as [|x l]; [apply branch_wd|].
  cbn [map]. change (wd x :: map wd l) with (map wd (x :: l)). rewrite H. unfold wdl. destruct (f (m_tick m) (x :: l)) as [vs t]. cbn [fst snd].
  destruct vs as [|v vs]; reflexivity.
Qed.
Lemma rep_wd : forall p pc m, rep p pc (mw m) = on mw (rep p pc m).
Proof.
  intros p pc m. unfold rep. cbn [mw m_values]. destruct (m_values m) as [|vs vss]; [reflexivity|]. cbn [map].
  destruct vs as [|v vs]; cbn [map recv negb]; [reflexivity|]. destruct pc as [pc|]; [|reflexivity].
  exact (branch_wd p pc (set_dot (set_values m (vs :: vss)) v)).
Qed.
Lemma const_wd : forall p ord m, (let! c := const_of p ord in OK (push (cval_value c) (mw m))) = on mw (let! c := const_of p ord in OK (push (cval_value c) m)).
Proof.
  intros p ord m. destruct (const_of p ord) as [c|e| |] eqn:E; try reflexivity.
  - cbn [obind on]. rewrite <- push_wd. destruct c; reflexivity.
  - unfold const_of in E. destruct (order_index ord) as [i|]; [|discriminate E]. destruct (prog_value p i); discriminate E.
Qed.
Lemma select_wd : forall m f f', (forall t v g, f' t (wd v) (wdg g) = on wdt (f t v g)) ->
  (let! (out, t) := applySelection (m_tick (mw m)) (m_out (mw m)) f' in OK (set_tick (set_out (mw m) out) t)) =
  on mw (let! (out, t) := applySelection (m_tick m) (m_out m) f in OK (set_tick (set_out m out) t)).
Proof.
  intros m f f' H. cbn [mw m_tick m_out]. rewrite (applySelection_wd f f' H).
  destruct (applySelection (m_tick m) (m_out m) f) as [[out t]|e| |]; reflexivity.
Qed.
Lemma by_key_wd : forall sel n t v g, (let! g := valsByKey W (wdg g) (wd v) (wd sel) n in OK (g, t)) = on wdt (let! g := valsByKey W g v sel n in OK (g, t)).
Proof. intros sel n t v g. rewrite valsByKey_wd. destruct (valsByKey W g v sel n); reflexivity. Qed.
Lemma by_union_wd : forall sels t v g, (let! g := unionVals W (wdg g) (wd v) (map wd sels) in OK (g, t)) = on wdt (let! g := unionVals W g v sels in OK (g, t)).
Proof. intros sels t v g. rewrite unionVals_wd. destruct (unionVals W g v sels); reflexivity. Qed.
Lemma nest_key_wd : forall m sel n, (let! out := valsByKey W (m_out (mw m)) (m_dot (mw m)) (wd sel) n in OK (set_out (mw m) out)) =
  on mw (let! out := valsByKey W (m_out m) (m_dot m) sel n in OK (set_out m out)).
Proof. intros m sel n. cbn [mw m_out m_dot]. rewrite valsByKey_wd. destruct (valsByKey W (m_out m) (m_dot m) sel n); reflexivity. Qed.
Lemma filter_wd : forall v m, (if negb (isNothing (wd v)) && cvb W (wd v) then OK (set_out (mw m) (g_append (m_out (mw m)) (m_dot (mw m)))) else OK (mw m)) =
  on mw (if negb (isNothing v) && cvb W v then OK (set_out m (g_append (m_out m) (m_dot m))) else OK m).
Proof.
  intros v m. rewrite isNothing_wd, cvb_wd. cbn [mw m_out m_dot]. rewrite g_append_wd. destruct (_ && _); reflexivity.
Qed.
Lemma exec_wd : forall p root ord m, exec W p (wd root) ord (mw m) = on mw (exec W p root ord m).
Proof.
  intros p root ord m. unfold exec. destruct (op_of_num (order_op ord)) as [o|]; [|reflexivity].
  destruct o.
  all: try apply const_wd.
  all: try (exact (eq_refl _)).
  all: try (rewrite pop_wd; destruct (pop m) as [[v m1]|e| |]; try reflexivity; cbn [on obind wds fst snd]).
  all: try (rewrite pop_wd; destruct (pop m1) as [[v1 m2]|e| |]; try reflexivity; cbn [on obind wds fst snd];
    rewrite binop_wd; match goal with |- context [option_map (on wd) ?x] => destruct x as [[v2|e| |]|] end; try reflexivity;
    cbn [option_map on obind]; rewrite push_wd; reflexivity).
  all: try (rewrite unop_wd; match goal with |- context [option_map wd ?x] => destruct x end; try reflexivity; cbn [option_map on]; rewrite push_wd; reflexivity).
  all: try (destruct (order_pc ord); [apply looptop_wd; intros; first [apply stepping_wd|apply walker_wd]|reflexivity]).
  all: try apply rep_wd.
  all: try apply filter_wd.
  all: try (cbv zeta; rewrite isNothing_wd; destruct (isNothing v); [reflexivity|]; first [apply select_wd; intros; apply by_key_wd|apply nest_key_wd]).
  all: try (rewrite popN_wd; destruct (popN (order_small_int ord) m) as [[vs m1]|e| |]; try reflexivity; cbn [on obind wds fst snd]).
  all: try (apply select_wd; intros; apply by_union_wd).
  all: try (destruct (order_is_small ord); [cbn [on]; rewrite <- push_wd; reflexivity|first [apply const_wd|reflexivity]]).
  all: try (cbn [on]; rewrite <- push_wd; reflexivity).
  - apply select_wd. intros t v g. rewrite valsWild_wd. reflexivity.
  - cbn [mw m_out m_dot]. rewrite unionVals_wd. destruct (unionVals W (m_out m1) (m_dot m1) vs); reflexivity.
  - cbn [mw m_out m_dot m_tick]. rewrite valsWild_wd. destruct (valsWild W (m_tick m) (m_out m) (m_dot m)). reflexivity.
  - destruct vs as [|id vs]; [reflexivity|]. destruct id; try reflexivity; cbn [map wd]; [destruct (least z); reflexivity|].
    cbn [mw m_tick]. rewrite call_wd. destruct (call W (m_tick m1) s vs) as [[r t]|e| |]; try reflexivity.
    cbn [on obind wdp fst snd]. exact (f_equal OK (push_wd r (set_tick m1 t))).
Qed.
Lemma run_wd : forall fuel p root m, run_loop fuel W p (wd root) (mw m) = on mw (run_loop fuel W p root m).
Proof.
  induction fuel as [|n IH]; intros p root m; cbn [run_loop]; cbn [mw m_pc]; (destruct (m_pc m <? prog_size p); [|reflexivity]); [reflexivity|].
  destruct (index_Z (p_orders p) (m_pc m)) as [ord|]; [|reflexivity].
  change (set_pc (mw m) (m_pc m + 1)) with (mw (set_pc m (m_pc m + 1))). rewrite exec_wd.
  destruct (exec W p root ord (set_pc m (m_pc m + 1))); try reflexivity. cbn [on obind]. apply IH.
Qed.
Lemma Run_wd : forall fuel t p root, Run fuel W t p (wd root) = on (map wd) (Run fuel W t p root).
Proof.
  intros fuel t p root. unfold Run. change (m_init t (wd root)) with (mw (m_init t root)). rewrite run_wd.
  destruct (run_loop fuel W p root (m_init t root)) as [m|e| |]; try reflexivity. cbn [on obind mw m_out]. destruct (m_out m); reflexivity.
Qed.
End width.

(** [alike] is having the same [wd] *)
Lemma alike_wd : forall v v', alike v v' -> wd v = wd v'.
Proof.
  intros v. induction v as [|x0|z|z|x0|s0|s0|l IH|m IH|s0|s0|s0|k0] using val_tree_ind; intros v' H; inversion H as [v0 H1 H2|z0 H1|z0 H1|l0 l' H1|m0 m' H1]; subst; try reflexivity.
  - cbn [wd]. destruct (least z) eqn:E; [unfold least in E; lia|reflexivity].
  - cbn [wd]. destruct (least z) eqn:E; [unfold least in E; lia|reflexivity].
  - cbn [wd]. f_equal. clear H. revert IH. induction H1 as [|x y l l' Hx Hl IHl]; intros IH; [reflexivity|].
    inversion IH as [|? ? I1 I2]; subst. cbn [map]. f_equal; auto.
  - cbn [wd]. f_equal. clear H. revert IH. induction H1 as [|[k x] [k' y] m m' [Hk Hx] Hl IHl]; intros IH; [reflexivity|].
    inversion IH as [|? ? I1 I2]; subst. cbn [map fst snd] in *. f_equal; [|auto]. f_equal; auto.
Qed.
Lemma wd_same : forall v v', wd v = wd v' -> alike v v'.
Proof.
  intros v. induction v as [|x0|z|z|x0|s0|s0|l IH|m IH|s0|s0|s0|k0] using val_tree_ind; intros v' H;
    destruct v' as [|y|y|y|y|t|t|l'|m'|t|t|t|k]; cbn [wd] in H; try discriminate H; try (destruct (least _); discriminate H);
    try (injection H as <-; apply AlSame; discriminate); try (apply AlSame; discriminate).
  - destruct (least z) eqn:E, (least y) eqn:E'; try discriminate H; injection H as <-; apply AlSame; discriminate.
  - destruct (least z) eqn:E; [discriminate H|]. injection H as <-. apply AlNarrow. unfold least in E. lia.
  - destruct (least y) eqn:E; [discriminate H|]. injection H as <-. apply AlWiden. unfold least in E. lia.
  - injection H as H. apply AlArr. revert l' H. induction l as [|x l IHl]; intros [|y l'] H; try discriminate H; constructor.
    + inversion IH as [|? ? I1 I2]; subst. injection H as H _. auto.
    + inversion IH as [|? ? I1 I2]; subst. injection H as _ H. auto.
  - injection H as H. apply AlObj. revert m' H. induction m as [|[k x] m IHm]; intros [|[k' y] m'] H; try discriminate H; constructor.
    + inversion IH as [|? ? I1 I2]; subst. injection H as H1 H2 _. cbn [fst snd] in *. auto.
    + inversion IH as [|? ? I1 I2]; subst. injection H as _ _ H. auto.
Qed.
Lemma wd_lists : forall l l', map wd l = map wd l' -> Forall2 alike l l'.
Proof.
  induction l as [|x l IH]; intros [|y l'] H; try discriminate H; constructor; injection H as H1 H2; [apply wd_same, H1|apply IH, H2].
Qed.
Lemma wd_errors : forall e e', wde e = wde e' -> alike_error e e'.
Proof.
  intros e e' H. destruct e; destruct e'; cbn [wde] in H; try discriminate H; try (injection H as ->; constructor; fail); try (rewrite H; constructor);
  try (injection H as -> H; constructor; apply wd_same; exact H); injection H as H; constructor; apply wd_same; exact H.
Qed.
Lemma run_alike : forall W fuel t p root root', prints_alike W -> alike root root' ->
  Run fuel W t p root <> OutOfFuel -> alike_outcome (Run fuel W t p root) (Run fuel W t p root').
Proof.
  intros W fuel t p root root' Hp H. assert (A := Run_wd W Hp fuel t p root). assert (B := Run_wd W Hp fuel t p root').
  rewrite (alike_wd _ _ H), B in A. destruct (Run fuel W t p root) as [l|e| |]; destruct (Run fuel W t p root') as [l'|e'| |];
    cbn [on] in A; try discriminate A; intros N; try congruence; constructor.
  - injection A as A. apply wd_lists. symmetry. exact A.
  - injection A as A. apply wd_errors. symmetry. exact A.
Qed.
Lemma eval_alike : forall W t jp root root' r, prints_alike W -> alike root root' -> JP_Eval W t jp root r ->
  exists r', JP_Eval W t jp root' r' /\ alike_outcome r r'.
Proof.
  intros W t jp root root' r Hp H [N [fuel E]]. assert (Q := run_alike W fuel t (jp_prog jp) root root' Hp H).
  rewrite E in Q. specialize (Q N). eexists. split; [split; [|exists fuel; reflexivity]|exact Q]. intros K. rewrite K in Q. inversion Q.
Qed.

Lemma least_differs : forall W, w_text W = x_text -> exists s jp, JP_Compile (w_text W) s = OK jp /\
  JP_Eval W 0 jp (VArr [VInt (-9223372036854775808)]) (OK [VInt (-9223372036854775808)]) /\
  JP_Eval W 0 jp (VArr [VInt64 (-9223372036854775808)]) (OK []).
Proof.
  intros W E. exists (b_of "$[?(abs(@)<0)]"), (jp_of (b_of "$[?(abs(@)<0)]")). rewrite E. split; [vm_compute; reflexivity|].
  split; (split; [discriminate|]; exists 100%nat; vm_compute; reflexivity).
Qed.
