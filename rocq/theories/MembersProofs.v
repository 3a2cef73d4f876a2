(** Proofs about the order in which members are listed (C70).  [nf] sorts the members of every
    object by name; operators commute with it. *)
From Coq Require Import Lia Permutation.
From Verif Require Import SpecSyntax Value SpecDoc Machine Api SpecSelect SpecRun SpecOp SpecExpr SpecText SpecSem SpecMembers.
From Verif Require Import ProgramProofs MachineProofs CoderProofs DocProofs SliceProofs SelectProofs WalkProofs Eval OpProofs UniqueProofs OrderProofs TextProofs SemFinal EveryOrder.
Local Open Scope Z_scope.

(** ** Sorting by name *)
Fixpoint kle (a b : bytes) : bool :=
  match a, b with
  | [], _ => true
  | _ :: _, [] => false
  | x :: a', y :: b' => (x <? y) || ((x =? y) && kle a' b')
  end.
Lemma kle_refl : forall a, kle a a = true.
Proof. induction a as [|x a IH]; cbn [kle]; [reflexivity|]. rewrite Z.eqb_refl, IH. apply orb_true_r. Qed.
Lemma kle_total : forall a b, kle a b = false -> kle b a = true.
Proof.
  induction a as [|x a IH]; intros [|y b]; cbn [kle]; intro H; try reflexivity; try discriminate.
  apply orb_false_iff in H as [H1 H2]. destruct (y <? x) eqn:E; [reflexivity|]. cbn [orb].
  assert (x = y) by lia. subst y. rewrite Z.eqb_refl in *. apply IH. exact H2.
Qed.
Lemma kle_anti : forall a b, kle a b = true -> kle b a = true -> a = b.
Proof.
  induction a as [|x a IH]; intros [|y b]; cbn [kle]; intros H H'; try reflexivity; try discriminate.
  apply orb_true_iff in H. apply orb_true_iff in H'. rewrite andb_true_iff in *.
  destruct H as [H|[H1 H2]], H' as [H'|[H3 H4]]; try lia. assert (x = y) by lia. subst. f_equal. apply IH; assumption.
Qed.
Lemma kle_trans : forall a b c, kle a b = true -> kle b c = true -> kle a c = true.
Proof.
  induction a as [|x a IH]; intros [|y b] [|z c]; cbn [kle]; intros H H'; try reflexivity; try discriminate.
  rewrite orb_true_iff, andb_true_iff in *. destruct H as [H|[H1 H2]], H' as [H'|[H3 H4]]; try (left; lia).
  right. split; [lia|]. eapply IH; eassumption.
Qed.
Notation member := (bytes * val)%type.
Fixpoint ins (x : member) (s : list member) : list member :=
  match s with
  | [] => [x]
  | y :: s' => if kle (fst x) (fst y) then x :: s else y :: ins x s'
  end.
Definition sort (m : list member) : list member := fold_right ins [] m.
Lemma ins_perm : forall x s, Permutation (x :: s) (ins x s).
Proof.
  intros x. induction s as [|y s IH]; cbn [ins]; [reflexivity|]. destruct (kle _ _); [reflexivity|].
  eapply Permutation_trans; [apply perm_swap|]. constructor. exact IH.
Qed.
Lemma sort_perm : forall m, Permutation m (sort m).
Proof.
  induction m as [|x m IH]; [constructor|]. cbn [sort fold_right]. eapply Permutation_trans; [|apply ins_perm]. constructor. exact IH.
Qed.
Lemma ins_swap : forall a b s, fst a <> fst b -> ins a (ins b s) = ins b (ins a s).
Proof.
  intros a b s N. induction s as [|c s IH]; cbn [ins].
  - destruct (kle (fst a) (fst b)) eqn:E1, (kle (fst b) (fst a)) eqn:E2; try reflexivity.
    + destruct N. apply kle_anti; assumption.
    + apply kle_total in E1. congruence.
  - destruct (kle (fst b) (fst c)) eqn:E1, (kle (fst a) (fst c)) eqn:E2; cbn [ins]; rewrite ?E1, ?E2.
    + destruct (kle (fst a) (fst b)) eqn:E3, (kle (fst b) (fst a)) eqn:E4; try reflexivity.
      * destruct N. apply kle_anti; assumption.
      * apply kle_total in E3. congruence.
    + destruct (kle (fst a) (fst b)) eqn:E3; [|reflexivity]. rewrite (kle_trans _ _ _ E3 E1) in E2. discriminate.
    + destruct (kle (fst b) (fst a)) eqn:E3; [|reflexivity]. rewrite (kle_trans _ _ _ E3 E2) in E1. discriminate.
    + rewrite IH. reflexivity.
Qed.
Lemma sort_unique : forall m m', Permutation m m' -> NoDup (map fst m) -> sort m = sort m'.
Proof.
  intros m m' H. induction H; intro N.
  - reflexivity.
  - cbn [sort fold_right]. inversion N. fold (sort l). fold (sort l'). rewrite IHPermutation by assumption. reflexivity.
  - cbn [sort fold_right]. apply ins_swap. inversion N as [|? ? N1 N2]. intro E. apply N1. left. symmetry. exact E.
  - rewrite IHPermutation1 by assumption. apply IHPermutation2. eapply Permutation_NoDup; [apply Permutation_map; exact H|exact N].
Qed.
Lemma sort_lookup : forall k m, lookup k (sort m) = lookup k m.
Proof.
  assert (I : forall k x s, lookup k (ins x s) = if beqb k (fst x) then Some (snd x) else lookup k s).
  { intros k [k0 v0] s. induction s as [|[k1 v1] s IH]; cbn [ins lookup fst snd]; [reflexivity|].
    cbn [fst snd] in IH. destruct (kle k0 k1) eqn:E; cbn [lookup]; [reflexivity|]. rewrite IH.
    destruct (beqb k k1) eqn:E1, (beqb k k0) eqn:E2; try reflexivity. apply beqb_eq in E1, E2. subst. subst. rewrite kle_refl in E. discriminate. }
  intros k m. induction m as [|[k0 v0] m IH]; [reflexivity|]. cbn [sort fold_right]. rewrite I. fold (sort m). rewrite IH. reflexivity.
Qed.
Lemma sort_forallb : forall f m, forallb f (sort m) = forallb f m.
Proof.
  assert (I : forall f x s, forallb f (ins x s) = f x && forallb f s).
  { intros f x s. induction s as [|y s IH]; cbn [ins forallb]; [reflexivity|]. destruct (kle _ _); cbn [forallb]; [reflexivity|].
    rewrite IH. destruct (f x), (f y); reflexivity. }
  intros f m. induction m as [|x m IH]; [reflexivity|]. cbn [sort fold_right forallb]. rewrite I. fold (sort m). rewrite IH. reflexivity.
Qed.
Lemma sort_length : forall m, length (sort m) = length m.
Proof. intros m. symmetry. apply Permutation_length, sort_perm. Qed.

(** ** Sorting all members *)
Fixpoint nf (v : val) : val :=
  match v with
  | VArr l => VArr (map nf l)
  | VObj m => VObj (sort (map (fun kv => (fst kv, nf (snd kv))) m))
  | _ => v
  end.
Definition nfm (m : list member) : list member := map (fun kv => (fst kv, nf (snd kv))) m.
Definition nfo (o : option val) : option val := option_map nf o.
Definition nfe (e : rerr) : rerr :=
  match e with
  | RMatchRight v => RMatchRight (nf v)
  | RMatchLeft v => RMatchLeft (nf v)
  | RInRight n v => RInRight n (nf v)
  | _ => e
  end.
Definition on {A} (f : A -> A) (r : M A) : M A :=
  match r with OK x => OK (f x) | Fail e => Fail (nfe e) | Panics => Panics | OutOfFuel => OutOfFuel end.

Ltac byval v := destruct v as [|?|z0|?|?|s0|?|l0|m0|?|?|?|?]; try reflexivity.

Lemma isNothing_nf : forall v, isNothing (nf v) = isNothing v. Proof. intros v. byval v. Qed.
Lemma isString_nf : forall v, isString (nf v) = isString v. Proof. intros v. byval v. Qed.
Lemma isInt_nf : forall v, isInt (nf v) = isInt v. Proof. intros v. byval v. Qed.
Lemma isFloat_nf : forall v, isFloat (nf v) = isFloat v. Proof. intros v. byval v. Qed.
Lemma isArith_nf : forall v, isArith (nf v) = isArith v. Proof. intros v. byval v. Qed.
Lemma isSimple_nf : forall v, isSimple (nf v) = isSimple v. Proof. intros v. byval v. Qed.
Lemma IsStructure_nf : forall v, IsStructure (nf v) = IsStructure v. Proof. intros v. byval v. Qed.
Lemma IsArray_nf : forall v, IsArray (nf v) = IsArray v. Proof. intros v. byval v. Qed.
Lemma IsObject_nf : forall v, IsObject (nf v) = IsObject v. Proof. intros v. byval v. Qed.
Lemma typeOf_nf : forall v, typeOf (nf v) = typeOf v. Proof. intros v. byval v. Qed.
Section members.
Variable W : world.
Lemma cvs_nf : forall v, cvs W (nf v) = cvs W v. Proof. intros v. byval v. Qed.
Lemma cvi_nf : forall v, cvi W (nf v) = cvi W v. Proof. intros v. byval v. Qed.
Lemma cvf_nf : forall v, cvf W (nf v) = cvf W v. Proof. intros v. byval v. Qed.
Lemma cvb_nf : forall v, cvb W (nf v) = cvb W v. Proof. intros v. byval v. Qed.
Lemma eqNum_nf : forall a b, eqNum W (nf a) (nf b) = eqNum W a b.
Proof. intros a b. unfold eqNum. rewrite !isFloat_nf, !cvf_nf, !cvi_nf. reflexivity. Qed.
Lemma eqArrayS_nf : forall l s, eqArrayS W (map nf l) s = eqArrayS W l s.
Proof. intros [|x [|y l]] s; cbn [map eqArrayS]; rewrite ?cvs_nf; reflexivity. Qed.
Lemma eqArrayN_nf : forall l b, eqArrayN W (map nf l) (nf b) = eqArrayN W l b.
Proof.
  intros [|x [|y l]] b; cbn [map eqArrayN]; rewrite ?eqNum_nf; try reflexivity.
  change (VFloat f_zero) with (nf (VFloat f_zero)) at 1. apply eqNum_nf.
Qed.
Lemma eqArrayB_nf : forall a b, eqArrayB W (nf a) b = eqArrayB W a b.
Proof. intros a b. byval a. destruct l0 as [|x [|y l]]; cbn [nf map eqArrayB]; rewrite ?cvi_nf; reflexivity. Qed.
Definition asArr (v : val) : option (list val) := match v with VArr l => Some l | _ => None end.
Lemma asArr_nf : forall v, asArr (nf v) = option_map (map nf) (asArr v). Proof. intros v. byval v. Qed.
Lemma eq_mixed_alt : forall a b, eq_mixed W a b =
  match typeOf a, typeOf b with
  | Null, Undefined | Undefined, Null => true
  | Number, JString => if badNum W (cvs W b) (isFloat a) then false else eqNum W a b
  | JString, Number => if badNum W (cvs W a) (isFloat b) then false else eqNum W a b
  | Boolean, Number | Number, Boolean => eqNum W a b
  | Boolean, JString => if badNum W (cvs W b) true then false else f_eqb (cvf W a) (cvf W b)
  | JString, Boolean => if badNum W (cvs W a) true then false else f_eqb (cvf W a) (cvf W b)
  | Object, Boolean => eqArrayB W a (cvi W b)
  | Boolean, Object => eqArrayB W b (cvi W a)
  | JString, Object | Object, JString =>
    match asArr a, asArr b with
    | Some l, _ => eqArrayS W l (cvs W b)
    | None, Some l => eqArrayS W l (cvs W a)
    | _, _ => false
    end
  | Number, Object | Object, Number =>
    match asArr a, asArr b with
    | Some l, _ => eqArrayN W l b
    | None, Some l => eqArrayN W l a
    | _, _ => false
    end
  | _, _ => false
  end.
Proof. intros a b. unfold eq_mixed, asArr. destruct a; try reflexivity; destruct b; reflexivity. Qed.
Lemma eq_mixed_nf : forall a b, eq_mixed W (nf a) (nf b) = eq_mixed W a b.
Proof.
  intros a b. rewrite !eq_mixed_alt, !typeOf_nf, !isFloat_nf, !cvs_nf, !cvf_nf, !cvi_nf, !eqNum_nf, !eqArrayB_nf, !asArr_nf.
  destruct (asArr a), (asArr b); cbn [option_map]; rewrite ?eqArrayS_nf, ?eqArrayN_nf; reflexivity.
Qed.
Lemma lookup_nf : forall k m, lookup k (sort (nfm m)) = nfo (lookup k m).
Proof. intros k m. rewrite sort_lookup. induction m as [|[k' v] m IH]; cbn [nfm map lookup fst snd]; [reflexivity|]. destruct (beqb k k'); [reflexivity|exact IH]. Qed.
Lemma eqVal_obj : forall ma mb, eqVal W (VObj ma) (VObj mb) = ((length ma =? length mb)%nat &&
  forallb (fun kv => eqVal W (snd kv) (match lookup (fst kv) mb with Some w => w | None => VNil end)) ma)%bool.
Proof.
  intros ma mb. cbn [eqVal typeOf jsType_beq negb]. f_equal. induction ma as [|[k v] ma IH]; [reflexivity|]. cbn [forallb fst snd].
  rewrite IH. reflexivity.
Qed.
Lemma eqVal_nf : forall a b, eqVal W (nf a) (nf b) = eqVal W a b.
Proof.
  assert (D : forall a b, IsStructure a = false -> eqVal W a b =
    if negb (jsType_beq (typeOf a) (typeOf b)) then eq_mixed W a b else
    match typeOf a with Undefined | Null => true | Number => eqNum W a b
    | JString => match a, b with VStr s, VStr t => beqb s t | _, _ => false end
    | Boolean => match a, b with VBool s, VBool t => Bool.eqb s t | _, _ => false end
    | Object => false end).
  { intros a b A. destruct a; try reflexivity; discriminate. }
  intros a. induction a as [|x0|x0|x0|x0|s0|s0|l IH|m IH|s0|s0|s0|k0] using val_tree_ind; intros b;
    try (rewrite (D (nf _)), D by reflexivity; rewrite eq_mixed_nf, eqNum_nf, !typeOf_nf; destruct b; reflexivity).
  - destruct b as [|y|y|y|y|t|t|l'|m'|t|t|t|k]; try (exact (eq_mixed_nf (VArr l) _)); try reflexivity.
    cbn [nf eqVal typeOf jsType_beq negb]. rewrite !map_length. f_equal. revert l'. induction l as [|x l IHl]; intros [|y l']; try reflexivity.
    cbn [map]. inversion IH as [|? ? IH1 IH2]. rewrite IH1. f_equal. apply IHl, IH2.
  - destruct b as [|y|y|y|y|t|t|l'|m'|t|t|t|k]; try (exact (eq_mixed_nf (VObj m) _)); try reflexivity.
    cbn [nf]. fold (nfm m) (nfm m'). rewrite !eqVal_obj, !sort_length, sort_forallb. unfold nfm at 1 2. rewrite !map_length. f_equal.
    induction m as [|[k v] m IHm]; [reflexivity|]. cbn [nfm map forallb fst snd]. inversion IH as [|? ? IH1 IH2]. cbn [snd] in IH1.
    f_equal; [|apply IHm, IH2]. rewrite lookup_nf. destruct (lookup k m'); [apply IH1|exact (IH1 VNil)].
Qed.

(** functions *)
Lemma arith_loop_nf : forall f l i acc, arith_loop W f i acc (map nf l) = arith_loop W f i acc l.
Proof. intros f. induction l as [|v l IH]; intros i acc; cbn [map arith_loop]; [reflexivity|]. rewrite isArith_nf, cvf_nf, IH. reflexivity. Qed.
Lemma arith_loop_fix : forall f l i acc, nf (arith_loop W f i acc l) = arith_loop W f i acc l.
Proof. intros f. induction l as [|v l IH]; intros i acc; cbn [arith_loop]; [reflexivity|]. destruct (negb _); [reflexivity|apply IH]. Qed.
Lemma arithArrayOp_nf : forall l f, arithArrayOp W (map nf l) f = arithArrayOp W l f.
Proof. intros [|v l] f; [reflexivity|]. exact (arith_loop_nf f (v :: l) _ _). Qed.
Lemma arithArrayOp_fix : forall l f, nf (arithArrayOp W l f) = arithArrayOp W l f.
Proof. intros [|v l] f; [reflexivity|]. apply arith_loop_fix. Qed.
Lemma string_loop_nf : forall f l i acc, string_loop f i acc (map nf l) = string_loop f i acc l.
Proof. intros f. induction l as [|v l IH]; intros i acc; cbn [map string_loop]; [reflexivity|]. byval v. cbn [nf]. apply IH. Qed.
Lemma string_loop_fix : forall f l i acc, nf (string_loop f i acc l) = string_loop f i acc l.
Proof. intros f. induction l as [|v l IH]; intros i acc; cbn [string_loop]; [reflexivity|]. byval v. apply IH. Qed.
Lemma minMaxArray_nf : forall l f g, minMaxArray W (map nf l) f g = nf (minMaxArray W l f g).
Proof.
  intros [|v l] f g; [reflexivity|].
  assert (A := arithArrayOp_nf (v :: l) f). assert (B := arithArrayOp_fix (v :: l) f).
  assert (C := string_loop_nf g (v :: l) 0%nat []). assert (C' := string_loop_fix g (v :: l) 0%nat []).
  cbn [map] in *. destruct v; try reflexivity; cbn [minMaxArray]; cbn [nf] in *; try congruence.
  unfold stringArrayOp. congruence.
Qed.
Lemma fn_abs_nf : forall v, fn_abs (nf v) = nf (fn_abs v).
Proof.
  intros v. destruct v; try reflexivity; cbn [nf fn_abs].
  - destruct (z <? 0); reflexivity.
  - destruct (z <? 0); [|reflexivity]. cbv zeta. destruct (neg64 z <? 0); reflexivity.
  - destruct (f_ltb f f_zero); reflexivity.
Qed.
Lemma fn_ceil_nf : forall v, fn_ceil (nf v) = nf (fn_ceil v). Proof. intros v. byval v. Qed.
Lemma fn_floor_nf : forall v, fn_floor (nf v) = nf (fn_floor v). Proof. intros v. byval v. Qed.
Lemma fn_to_number_nf : forall v, fn_to_number W (nf v) = nf (fn_to_number W v).
Proof. intros v. byval v. cbn [nf fn_to_number]. destruct (parse_float W s0); reflexivity. Qed.
Lemma fn_length_nf : forall v, fn_length (nf v) = nf (fn_length v).
Proof. intros v. byval v; cbn [nf fn_length]; rewrite ?sort_length, map_length; reflexivity. Qed.
Lemma avg_loop_nf : forall l s, avg_loop W s (map nf l) = avg_loop W s l.
Proof. induction l as [|v l IH]; intros s; cbn [map avg_loop]; [reflexivity|]. rewrite isArith_nf, cvf_nf, IH. reflexivity. Qed.
Lemma fn_avg_nf : forall v, fn_avg W (nf v) = nf (fn_avg W v).
Proof. intros v. byval v. cbn [nf fn_avg]. rewrite avg_loop_nf, map_length. destruct (avg_loop W f_zero l0); reflexivity. Qed.
Lemma existsb_nf : forall b l, existsb (fun v => eqVal W v (nf b)) (map nf l) = existsb (fun v => eqVal W v b) l.
Proof. intros b. induction l as [|v l IH]; cbn [map existsb]; [reflexivity|]. rewrite eqVal_nf, IH. reflexivity. Qed.
Lemma fn_contains_nf : forall a b, fn_contains W (nf a) (nf b) = nf (fn_contains W a b).
Proof.
  intros a b. byval a.
  - cbn [nf fn_contains]. destruct b; reflexivity.
  - cbn [nf fn_contains]. rewrite existsb_nf. reflexivity.
Qed.
Lemma fn_minmax_nf : forall f g l, fn_minmax W f g (map nf l) = nf (fn_minmax W f g l).
Proof.
  intros f g [|v [|v' l]]; [reflexivity| |exact (minMaxArray_nf (v :: v' :: l) f g)].
  cbn [map fn_minmax]. byval v. apply minMaxArray_nf.
Qed.
Lemma fn_prod_nf : forall v, fn_prod W (nf v) = nf (fn_prod W v).
Proof.
  intros v. byval v. destruct l0 as [|x l]; [reflexivity|]. cbn [nf fn_prod]. rewrite arithArrayOp_fix, <- (arithArrayOp_nf (x :: l)). reflexivity.
Qed.
Lemma fn_sum_nf : forall v, fn_sum W (nf v) = nf (fn_sum W v).
Proof.
  intros v. byval v. destruct l0 as [|x l]; [reflexivity|]. cbn [nf fn_sum]. rewrite arithArrayOp_fix, <- (arithArrayOp_nf (x :: l)). reflexivity.
Qed.
Lemma stringArgs_nf : forall l, stringArgs (map nf l) = stringArgs l.
Proof.
  intros [|a [|b [|c l]]]; try reflexivity; byval a; try (destruct b; reflexivity).
Qed.
Lemma strs_nf : forall l, map nf (map VStr l) = map VStr l.
Proof. intros l. rewrite map_map. reflexivity. Qed.
Definition nfp (x : val * nat) : val * nat := (nf (fst x), snd x).
Lemma call_nf : forall t id args, id <> b_of "keys" -> call W t id (map nf args) = on nfp (call W t id args).
Proof.
  intros t id args N. unfold call. destruct (lookup id functions) as [fn|] eqn:E; [|reflexivity].
  rewrite map_length. assert (H : fn_body fn W t (map nf args) = on nfp (fn_body fn W t args)).
  { unfold functions in E. cbn [lookup] in E.
    repeat match type of E with
    | (if ?b then _ else _) = _ => let Q := fresh in destruct b eqn:Q; [injection E as <-; cbn [fn_body fn1]; unfold with_arg, arg; rewrite ?nth_error_map|]
    end; [..|discriminate E].
    all: try (destruct (nth_error args 0) as [v|]; cbn [option_map]; [|reflexivity]).
    all: try (destruct (nth_error args 1) as [v'|]; cbn [option_map]; [|reflexivity]).
    all: rewrite ?fn_abs_nf, ?fn_avg_nf, ?fn_ceil_nf, ?fn_floor_nf, ?fn_contains_nf, ?fn_length_nf, ?fn_minmax_nf, ?fn_prod_nf,
      ?fn_sum_nf, ?fn_to_number_nf, ?stringArgs_nf; try reflexivity.
    - destruct (stringArgs args) as [[a b]|]; reflexivity.
    - destruct N. apply beqb_eq. assumption.
    - destruct (stringArgs args) as [[a b]|]; reflexivity.
    - unfold fn_tokenize. rewrite stringArgs_nf. destruct (stringArgs args) as [[a b]|]; [|reflexivity].
      destruct (re_ok W b); [|reflexivity]. cbn [on]. unfold nfp. cbn [fst snd nf]. rewrite strs_nf. reflexivity. }
  destruct (fn_na fn) as [na|]; [|exact H]. destruct (negb _); [reflexivity|exact H].
Qed.

(** ** Operators *)
Definition nfg (g : gslice) : gslice := option_map (map nf) g.
Lemma g_list_nf : forall g, g_list (nfg g) = map nf (g_list g). Proof. intros [l|]; reflexivity. Qed.
Lemma g_append_nf : forall g v, g_append (nfg g) (nf v) = nfg (g_append g v).
Proof. intros g v. unfold g_append. rewrite g_list_nf. cbn [nfg option_map]. rewrite map_app. reflexivity. Qed.
Lemma index_nf : forall l i, index_Z (map nf l) i = nfo (index_Z l i).
Proof. intros l i. unfold index_Z, nfo. destruct (i <? 0); [reflexivity|apply nth_error_map]. Qed.
Hypothesis Hp : prints_same W.
Lemma nf_same : forall v, same_doc v (nf v).
Proof.
  intros v. induction v as [|x0|z|x0|x0|s0|s0|l IH|m IH|s0|s0|s0|k0] using val_tree_ind; try (apply SdFlat; reflexivity).
  - cbn [nf]. apply SdArr. induction IH; constructor; assumption.
  - cbn [nf]. fold (nfm m). assert (F : Forall2 (fun a b : member => fst a = fst b /\ same_doc (snd a) (snd b)) m (nfm m)).
    { induction IH; constructor; [split; [reflexivity|assumption]|assumption]. }
    assert (F' : Forall2 (fun b a : member => fst a = fst b /\ same_doc (snd a) (snd b)) (nfm m) m) by (clear - F; induction F; constructor; assumption).
    destruct (F2_perm _ _ _ _ _ _ (sort_perm (nfm m)) F') as (p & P & Q). apply SdObj with (p := p); [exact P|].
    clear - Q. induction Q; constructor; assumption.
Qed.
Lemma mapKey_nf : forall v, mapKey W (nf v) = mapKey W v.
Proof. intros v. assert (H := Hp v (nf v) (nf_same v)). byval v; cbn [nf mapKey] in *; symmetry; exact H. Qed.
Lemma valByKey_nf : forall a k n, valByKey W (nf a) (nf k) n = nfo (valByKey W a k n).
Proof.
  intros a k n. byval a; cbn [nf valByKey].
  - rewrite map_length, cvi_nf. cbv zeta. match goal with |- (if ?c then _ else _) = _ => destruct c end; [apply index_nf|reflexivity].
  - rewrite mapKey_nf. apply lookup_nf.
Qed.
Lemma slice_loop_nf : forall n up l i e st g, slice_loop n up (map nf l) i e st (nfg g) = on nfg (slice_loop n up l i e st g).
Proof.
  induction n as [|n IH]; intros up l i e st g; cbn [slice_loop]; (destruct (if up then i <? e else i >? e); [|reflexivity]); [reflexivity|].
  rewrite index_nf. destruct (index_Z l i) as [v|]; [|reflexivity]. cbn [nfo option_map]. rewrite g_append_nf. apply IH.
Qed.
Lemma slicing_nf : forall l s, slicing (map nf l) s = on (map nf) (slicing l s).
Proof.
  intros l s. unfold slicing. rewrite map_length. destruct (sliceEval s _) as [[st e] d].
  destruct (d =? 1).
  - destruct (_ && _); [|reflexivity]. cbn [on]. rewrite skipn_map, firstn_map. reflexivity.
  - assert (L : forall up, (let! g := slice_loop (S (length l)) up (map nf l) st e d (Some []) in OK (g_list g)) =
      on (map nf) (let! g := slice_loop (S (length l)) up l st e d (Some []) in OK (g_list g))).
    { intros up. change (Some []) with (nfg (Some [])) at 1. rewrite slice_loop_nf.
      destruct (slice_loop _ up l st e d (Some [])) as [g|x| |]; try reflexivity. cbn [on obind]. rewrite g_list_nf. reflexivity. }
    destruct (d >? 0); [apply L|]. destruct (d <? 0); [apply L|reflexivity].
Qed.
Lemma arith_nf : forall a b f g, arith W (nf a) (nf b) f g = nf (arith W a b f g).
Proof.
  intros a b f g. unfold arith. rewrite !isNothing_nf, !isArith_nf, !isFloat_nf, !cvf_nf, !cvi_nf.
  destruct (_ || _); [reflexivity|]. destruct (negb _); [reflexivity|]. destruct (_ || _); reflexivity.
Qed.
Lemma divide_nf : forall a b f g, divide W (nf a) (nf b) f g = nf (divide W a b f g).
Proof.
  intros a b f g. unfold divide. rewrite !isNothing_nf, !isArith_nf, !isFloat_nf, !cvf_nf, !cvi_nf.
  destruct (_ || _); [reflexivity|]. destruct (negb _); [reflexivity|]. destruct (_ || _).
  - destruct (f_eqb _ _); reflexivity.
  - destruct (_ =? _); reflexivity.
Qed.
Lemma relation_nf : forall a b f g h, relation W (nf a) (nf b) f g h = nf (relation W a b f g h).
Proof.
  intros a b f g h. unfold relation. rewrite !isNothing_nf, !isSimple_nf, !isString_nf, !isFloat_nf, !cvf_nf, !cvi_nf, !cvs_nf.
  destruct (_ || _); [reflexivity|]. destruct (negb _); [reflexivity|]. destruct (_ || _).
  - destruct (negb _); reflexivity.
  - destruct (_ || _); reflexivity.
Qed.
Lemma or_nothing_nf : forall o : option val, match nfo o with Some v => v | None => nothing end = nf (match o with Some v => v | None => nothing end).
Proof. intros [v|]; reflexivity. Qed.
Lemma op_dot_nf : forall a b, op_dot W (nf a) (nf b) = on nf (op_dot W a b).
Proof.
  intros a b. unfold op_dot. rewrite !isNothing_nf. destruct (_ || _); [reflexivity|].
  destruct b as [| | | | | | | | |k| | |]; try reflexivity. cbn [nf]. assert (V := valByKey_nf a (VName k) false). cbn [nf] in V. destruct (beqb k _).
  - byval a; cbn [nf on]; rewrite ?sort_length, map_length; reflexivity.
  - destruct a; try reflexivity. cbn [nf] in *. rewrite V. cbn [on]. rewrite or_nothing_nf. reflexivity.
Qed.
Lemma op_index_nf : forall a b, op_index W (nf a) (nf b) = on nf (op_index W a b).
Proof.
  intros a b. unfold op_index. rewrite !isNothing_nf. destruct (_ || _); [reflexivity|].
  assert (V := valByKey_nf a b true).
  destruct a; try reflexivity; cbn [nf] in *.
  - rewrite map_length, cvi_nf. cbv zeta. match goal with |- (if ?c then _ else _) = _ => destruct c end; [reflexivity|].
    rewrite index_nf. match goal with |- context [nfo ?x] => destruct x end; reflexivity.
  - rewrite V. cbn [on]. rewrite or_nothing_nf. reflexivity.
Qed.
Lemma op_slice_nf : forall a b, op_slice (nf a) (nf b) = on nf (op_slice a b).
Proof.
  intros a b. unfold op_slice. rewrite !isNothing_nf. destruct (_ || _); [reflexivity|].
  destruct b; try reflexivity. destruct a; try reflexivity. cbn [nf]. rewrite slicing_nf. destruct (slicing l s); reflexivity.
Qed.
Lemma op_or_nf : forall a b, op_or W (nf a) (nf b) = nf (op_or W a b).
Proof. intros a b. unfold op_or. rewrite !isNothing_nf, cvb_nf. destruct (_ && _); [reflexivity|]. destruct (_ && _); reflexivity. Qed.
Lemma op_and_nf : forall a b, op_and W (nf a) (nf b) = nf (op_and W a b).
Proof. intros a b. unfold op_and. rewrite !isNothing_nf, cvb_nf. destruct (_ || _); reflexivity. Qed.
Lemma op_neg_nf : forall a, op_neg W (nf a) = nf (op_neg W a).
Proof. intros a. unfold op_neg. rewrite isNothing_nf. destruct (isNothing a); [reflexivity|]. byval a. Qed.
Lemma op_match_nf : forall a b, op_match W (nf a) (nf b) = on nf (op_match W a b).
Proof.
  intros a b. unfold op_match. rewrite !isNothing_nf. destruct (_ || _); [reflexivity|].
  assert (L : forall p, match nf a with VStr s => OK (VBool (w_re_match W p s)) | _ => Fail (RMatchLeft (nf a)) end =
    on nf (match a with VStr s => OK (VBool (w_re_match W p s)) | _ => Fail (RMatchLeft a) end)).
  { intros p. destruct a; reflexivity. }
  destruct b; cbn [nf obind]; try reflexivity; [|apply L]. destruct (re_ok W s); [apply L|reflexivity].
Qed.
Lemma search_nf : forall l v f, searchJSON W (map nf l) (nf v) f = searchJSON W l v f.
Proof. intros l v f. induction l as [|x l IH]; cbn [map searchJSON]; [reflexivity|]. rewrite eqVal_nf, IH. reflexivity. Qed.
Lemma op_in_nf : forall i a b, op_in W i (nf a) (nf b) = on nf (op_in W i a b).
Proof.
  intros i a b. unfold op_in. rewrite !isNothing_nf. destruct (_ || _); [reflexivity|].
  destruct b; try reflexivity; cbn [nf]. rewrite search_nf. reflexivity.
Qed.
Lemma binop_nf : forall o a b, binop W o (nf a) (nf b) = option_map (on nf) (binop W o a b).
Proof.
  intros o a b. destruct o; cbn [binop option_map]; rewrite ?op_dot_nf, ?op_index_nf, ?op_slice_nf, ?op_or_nf, ?op_and_nf, ?isNothing_nf, ?arith_nf, ?divide_nf,
    ?eqVal_nf, ?relation_nf, ?op_match_nf, ?op_in_nf; try reflexivity; destruct (_ || _); reflexivity.
Qed.
Lemma unop_nf : forall o a, unop W o (nf a) = option_map nf (unop W o a).
Proof.
  intros o a. destruct o; cbn [unop option_map]; rewrite ?op_neg_nf, ?cvb_nf, ?isNothing_nf, ?isString_nf, ?isInt_nf, ?cvi_nf; try reflexivity.
  destruct (isNothing a); [reflexivity|]. destruct (_ || _); reflexivity.
Qed.
Lemma apply_nf : forall t o vs, (forall args, o = OpCall -> vs <> VName (b_of "keys") :: args) ->
  apply_op W t o (map nf vs) = on nfp (apply_op W t o vs).
Proof.
  intros t o vs N. assert (B : match map nf vs with
    | [v] => match unop W o v with Some r => OK (r, t) | None => Panics end
    | [a; b] => match binop W o a b with Some r => let! v := r in OK (v, t) | None => Panics end
    | _ => Panics end = on nfp match vs with
    | [v] => match unop W o v with Some r => OK (r, t) | None => Panics end
    | [a; b] => match binop W o a b with Some r => let! v := r in OK (v, t) | None => Panics end
    | _ => Panics end).
  { destruct vs as [|a [|b [|c vs]]]; cbn [map]; try reflexivity.
    - rewrite unop_nf. destruct (unop W o a); reflexivity.
    - rewrite binop_nf. destruct (binop W o a b) as [[x|x| |]|]; reflexivity. }
  destruct o; try exact B; try reflexivity. clear B. cbn [apply_op].
  destruct vs as [|v vs]; [reflexivity|]. cbn [map]. destruct v; try reflexivity. apply call_nf. intros ->. exact (N vs eq_refl eq_refl).
Qed.
End members.

(** ** Values with the same sorted form *)
Notation "v ~ v'" := (nf v = nf v') (at level 70, no associativity).
Notation "l ~~ l'" := (map nf l = map nf l') (at level 70, no associativity).
Lemma flat_eq : forall v v', IsStructure v = false -> v ~ v' -> v = v'.
Proof. intros v v' H E. destruct v; try discriminate H; destruct v'; try discriminate E; exact E. Qed.
Lemma arr_inv : forall l v', VArr l ~ v' -> exists l', v' = VArr l' /\ l ~~ l'.
Proof. intros l v' E. destruct v'; try discriminate E. injection E as E. eauto. Qed.
Lemma obj_inv : forall m v', VObj m ~ v' -> exists m', v' = VObj m' /\ Permutation (nfm m) (nfm m').
Proof.
  intros m v' E. destruct v'; try discriminate E. cbn [nf] in E. injection E as E. fold (nfm m) (nfm m0) in E. exists m0. split; [reflexivity|].
  eapply Permutation_trans; [apply sort_perm|]. rewrite E. apply Permutation_sym, sort_perm.
Qed.
Lemma nfm_keys : forall m, map fst (nfm m) = map fst m.
Proof. intros m. unfold nfm. rewrite map_map. reflexivity. Qed.
Lemma nfm_vals : forall m, map snd (nfm m) = map nf (map snd m).
Proof. intros m. unfold nfm. rewrite !map_map. reflexivity. Qed.
Lemma nfm_perm : forall m m' p, Permutation (nfm m) (nfm m') -> Permutation m p -> exists p', Permutation m' p' /\ nfm p = nfm p'.
Proof.
  intros m m' p H P. assert (Q : Permutation (nfm p) (nfm m')) by (eapply Permutation_trans; [apply Permutation_map, Permutation_sym; exact P|exact H]).
  apply Permutation_map_inv in Q as (p' & E & Q). exists p'. auto.
Qed.
Lemma nf_inv : forall v v', v ~ v' -> same_doc v v'.
Proof.
  intros v. induction v as [|x0|z|x0|x0|s0|s0|l IH|m IH|s0|s0|s0|k0] using val_tree_ind; intros v' E;
    try (apply flat_eq in E as <-; [|reflexivity]; apply SdFlat; reflexivity).
  - apply arr_inv in E as (l' & -> & E). apply SdArr. revert l' E. induction IH as [|x l H IH IHl]; intros [|y l'] E; try discriminate E; constructor.
    + injection E as E _. apply H. exact E.
    + injection E as _ E. apply IHl. exact E.
  - apply obj_inv in E as (m' & -> & P). apply Permutation_sym in P. apply Permutation_map_inv in P as (p & E & P). apply SdObj with (p := p); [exact P|].
    assert (IHp : Forall (fun kv => forall v', snd kv ~ v' -> same_doc (snd kv) v') p).
    { apply Forall_forall. intros kv Hin. rewrite Forall_forall in IH. apply IH. eapply Permutation_in; [apply Permutation_sym; exact P|exact Hin]. }
    clear - E IHp. revert m' E. induction IHp as [|[k x] p H IH IHl]; intros [|[k' y] m'] E; try discriminate E; constructor.
    + injection E as E1 E2 _. split; [symmetry; exact E1|]. apply H. symmetry. exact E2.
    + injection E as _ _ E. apply IHl. exact E.
Qed.
Lemma same_nf : forall v, doc v -> forall v', same_doc v v' -> v ~ v'.
Proof.
  intros v. induction v as [|x0|z|x0|x0|s0|s0|l IH|m IH|s0|s0|s0|k0] using val_tree_ind; intros D v' S; try (inversion S; reflexivity).
  - inversion S as [v0 F|l0 l' F|]; subst; [reflexivity|]. cbn [nf]. f_equal.
    assert (D' : Forall doc l) by (apply Forall_forall; intros x Hx; eapply doc_child; [exact D|exact Hx]).
    clear - IH D' F. induction F; [reflexivity|]. inversion IH; subst. inversion D'; subst. cbn [map]. f_equal; auto.
  - inversion S as [v0 F| |m0 p m' P F]; subst; [reflexivity|]. cbn [nf]. f_equal. fold (nfm m) (nfm m').
    assert (E : nfm p = nfm m').
    { assert (IHp : Forall (fun kv => doc (snd kv) /\ forall v', same_doc (snd kv) v' -> snd kv ~ v') p).
      { apply Forall_forall. intros [k x] Hin. apply (Permutation_in _ (Permutation_sym P)) in Hin.
        assert (Dx : doc x) by (eapply doc_child; [exact D|]; apply in_map_iff; exists (k, x); auto).
        split; [exact Dx|]. rewrite Forall_forall in IH. exact (IH _ Hin Dx). }
      clear - F IHp. induction F as [|[k x] [k' y] p m' [E1 E2] F IH]; [reflexivity|]. inversion IHp as [|? ? [_ H1] H2]; subst. cbn [nfm map fst snd] in *.
      rewrite (H1 _ E2), E1. f_equal. apply IH. exact H2. }
    rewrite <- E. apply sort_unique; [apply Permutation_map; exact P|]. rewrite nfm_keys. apply (proj1 (doc_node _ D)).
Qed.
Lemma same_node : forall v v', same_doc v v' -> json_node v -> json_node v'.
Proof.
  intros v v' S N. inversion S as [v0 F|l l' F|m p m' P F]; subst; [exact N| |].
  - cbn [json_node] in *. rewrite <- (F2_length _ _ _ _ _ F). exact N.
  - cbn [json_node] in *. assert (E : map fst p = map fst m') by (clear - F; induction F as [|a b l l' [H _] F IH]; [reflexivity|]; cbn [map]; f_equal; assumption).
    rewrite <- E, <- (F2_length _ _ _ _ _ F), <- (Permutation_length P). destruct N as [N1 N2]. split; [|exact N2].
    eapply Permutation_NoDup; [apply Permutation_map; exact P|exact N1].
Qed.
Lemma same_within : forall x' v', within x' v' -> forall v, same_doc v v' -> exists x, within x v /\ same_doc x x'.
Proof.
  intros x' v' H. induction H as [v'|x e l Hin H IH|x k e m Hin H IH]; intros v S.
  - exists v. split; [constructor|exact S].
  - inversion S as [v0 F|l0 l' F|]; subst; [discriminate F|]. destruct (In_nth_error _ _ Hin) as [i Hi].
    assert (exists e0, In e0 l0 /\ same_doc e0 e).
    { clear - F Hin. induction F as [|a b ? ? Hab F IH]; [destruct Hin|]. destruct Hin as [<-|Hin]; [exists a; split; [left; reflexivity|exact Hab]|].
      destruct (IH Hin) as (e0 & A & B). exists e0. split; [right; exact A|exact B]. }
    destruct H0 as (e0 & A & B). destruct (IH _ B) as (y & Y1 & Y2). exists y. split; [eapply WElem; eassumption|exact Y2].
  - inversion S as [v0 F| |m0 p m' P F]; subst; [discriminate F|].
    assert (exists k0 e0, In (k0, e0) p /\ same_doc e0 e).
    { clear - F Hin. induction F as [|[a1 a2] b ? ? [_ Hab] F IH]; [destruct Hin|]. destruct Hin as [->|Hin]; [exists a1, a2; split; [left; reflexivity|exact Hab]|].
      destruct (IH Hin) as (k0 & e0 & A & B). exists k0, e0. split; [right; exact A|exact B]. }
    destruct H0 as (k0 & e0 & A & B). destruct (IH _ B) as (y & Y1 & Y2). exists y. split; [|exact Y2].
    eapply WMember; [|exact Y1]. eapply Permutation_in; [apply Permutation_sym; exact P|exact A].
Qed.
Lemma same_is_doc : forall v v', same_doc v v' -> doc v -> doc v'.
Proof. intros v v' S D x' Hx. destruct (same_within _ _ Hx _ S) as (x & A & B). eapply same_node; [exact B|]. apply D. exact A. Qed.

(** ** Selection *)
Lemma F2_tr : forall B (R : val -> B -> Prop) (S : B -> B -> Prop) l bs, Forall2 R l bs -> forall l', l ~~ l' ->
  (forall v b v', In v l -> R v b -> v ~ v' -> exists b', R v' b' /\ S b b') -> exists bs', Forall2 R l' bs' /\ Forall2 S bs bs'.
Proof.
  intros B R S l bs F. induction F as [|v b l bs Hv F IH]; intros [|v' l'] E H; try discriminate E.
  - exists []. split; constructor.
  - cbn [map] in E. injection E as E1 E2. destruct (H v b v' (or_introl eq_refl) Hv E1) as (b' & H1 & H2).
    destruct (IH l' E2) as (bs' & H3 & H4); [intros; eapply H; eauto; right; assumption|].
    exists (b' :: bs'). split; constructor; assumption.
Qed.
Lemma concat_tr : forall ls ls', Forall2 (fun a b => a ~~ b) ls ls' -> concat ls ~~ concat ls'.
Proof. intros ls ls' F. induction F; [reflexivity|]. cbn [concat]. rewrite !map_app. congruence. Qed.
Lemma tr_length : forall l l', l ~~ l' -> length l = length l'.
Proof. intros l l' E. apply (f_equal (@length val)) in E. rewrite !map_length in E. exact E. Qed.
Lemma elem_tr : forall l l' i x, l ~~ l' -> elem l i x -> exists x', elem l' i x' /\ x ~ x'.
Proof.
  intros l l' i x E [H1 H2]. assert (Q : nth_error (map nf l) (Z.to_nat i) = Some (nf x)) by (rewrite nth_error_map, H2; reflexivity).
  rewrite E, nth_error_map in Q. destruct (nth_error l' (Z.to_nat i)) as [x'|] eqn:N; [|discriminate Q]. injection Q as Q.
  exists x'. split; [split; assumption|symmetry; exact Q].
Qed.
Lemma name_tr : forall k v l v', picks_name k v l -> v ~ v' -> exists l', picks_name k v' l' /\ l ~~ l'.
Proof.
  intros k v l v' H E. destruct H as [m x Hin|m N|v F].
  - apply obj_inv in E as (m' & -> & P). assert (Q : In (k, nf x) (nfm m')).
    { eapply Permutation_in; [exact P|]. apply in_map_iff. exists (k, x). auto. }
    apply in_map_iff in Q as ([k' x'] & Q & Hin'). cbn [fst snd] in Q. injection Q as -> Q. exists [x']. split; [constructor; exact Hin'|]. cbn [map]. congruence.
  - apply obj_inv in E as (m' & -> & P). exists []. split; [|reflexivity]. apply PnMissing. intro Hin. apply N.
    rewrite <- nfm_keys in *. eapply Permutation_in; [apply Permutation_map, Permutation_sym; exact P|exact Hin].
  - exists []. split; [|reflexivity]. apply PnOther. rewrite <- IsObject_nf, <- E, IsObject_nf. exact F.
Qed.
Lemma picks_tr : forall s v l v', picks s v l -> v ~ v' -> exists l', picks s v' l' /\ l ~~ l'.
Proof.
  intros s v l v' H E. destruct H as [k v l H|back n i l x Hi He|back n l Hr|back n v l F H|a b c l ps xs Hs F|a b c v F].
  - destruct (name_tr _ _ _ _ H E) as (l' & H' & E'). exists l'. split; [constructor; exact H'|exact E'].
  - apply arr_inv in E as (l' & -> & E). destruct (elem_tr _ _ _ _ E He) as (x' & He' & Ex). exists [x'].
    split; [|cbn [map]; congruence]. apply PkElem with (i := i); [rewrite <- (tr_length _ _ E); exact Hi|exact He'].
  - apply arr_inv in E as (l' & -> & E). exists []. split; [|reflexivity]. apply PkRange. rewrite <- (tr_length _ _ E). exact Hr.
  - destruct (name_tr _ _ _ _ H E) as (l' & H' & E'). exists l'. split; [|exact E']. apply PkNumber; [|exact H'].
    rewrite <- IsArray_nf, <- E, IsArray_nf. exact F.
  - apply arr_inv in E as (l' & -> & E). assert (Q : exists xs', Forall2 (elem l') ps xs' /\ xs ~~ xs').
    { clear Hs. induction F as [|i x ps xs Hx F IH]; [exists []; split; [constructor|reflexivity]|]. destruct IH as (xs' & Q1 & Q2).
      destruct (elem_tr _ _ _ _ E Hx) as (x' & X1 & X2). exists (x' :: xs'). split; [constructor; assumption|cbn [map]; congruence]. }
    destruct Q as (xs' & Q1 & Q2). exists xs'. split; [|exact Q2]. eapply PkSlice; [rewrite <- (tr_length _ _ E); exact Hs|exact Q1].
  - exists []. split; [|reflexivity]. apply PkSliceOther. rewrite <- IsArray_nf, <- E, IsArray_nf. exact F.
Qed.
Lemma children_tr : forall v l v', children_in_order v l -> v ~ v' -> exists l', children_in_order v' l' /\ l ~~ l'.
Proof.
  intros v l v' H E. destruct H as [l|m p P|v F].
  - apply arr_inv in E as (l' & -> & E). exists l'. split; [constructor|exact E].
  - apply obj_inv in E as (m' & -> & Q). destruct (nfm_perm _ _ _ Q P) as (p' & P' & Ep). exists (map snd p'). split; [constructor; exact P'|].
    rewrite <- !nfm_vals. congruence.
  - exists []. split; [|reflexivity]. apply CiOther. rewrite <- IsStructure_nf, <- E, IsStructure_nf. exact F.
Qed.
Lemma walks_tr : forall v l v', walks v l -> v ~ v' -> exists l', walks v' l' /\ l ~~ l'.
Proof.
  intros v. induction v as [|x0|z|x0|x0|s0|s0|l IH|m IH|s0|s0|s0|k0] using val_tree_ind; intros r v' H E;
    try (apply flat_eq in E as <-; [|reflexivity]; inversion H; subst; exists []; split; [constructor; reflexivity|reflexivity]).
  - apply arr_inv in E as (l' & -> & E). inversion H as [l0 ls F| |v0 F]; subst; [|discriminate F].
    destruct (F2_tr _ _ (fun a b => a ~~ b) _ _ F l' E) as (ls' & F' & S).
    { intros v b v' Hin Hw Ev. rewrite Forall_forall in IH. exact (IH v Hin b v' Hw Ev). }
    exists (VArr l' :: concat ls'). split; [constructor; exact F'|]. cbn [map nf]. rewrite E, (concat_tr _ _ S). reflexivity.
  - inversion H as [|m0 p ls P F|v0 F]; subst; [|discriminate F]. assert (E0 := E).
    apply obj_inv in E as (m' & -> & Q). destruct (nfm_perm _ _ _ Q P) as (p' & P' & Ep).
    assert (Ev : map snd p ~~ map snd p') by (rewrite <- !nfm_vals; congruence).
    destruct (F2_tr _ _ (fun a b => a ~~ b) _ _ F _ Ev) as (ls' & F' & S).
    { intros v b v' Hin Hw Ex. apply in_map_iff in Hin as ([k x] & <- & Hin). rewrite Forall_forall in IH.
      apply (Permutation_in _ (Permutation_sym P)) in Hin. exact (IH _ Hin b v' Hw Ex). }
    exists (VObj m' :: concat ls'). split; [econstructor; eassumption|]. cbn [map]. rewrite (concat_tr _ _ S), E0. reflexivity.
Qed.
Lemma gathers_tr : forall pick : val -> list val -> Prop, (forall v l v', pick v l -> v ~ v' -> exists l', pick v' l' /\ l ~~ l') ->
  forall cands l cands', gathers pick cands l -> cands ~~ cands' -> exists l', gathers pick cands' l' /\ l ~~ l'.
Proof.
  intros pick H cands l cands' (ls & F & ->) E. destruct (F2_tr _ _ (fun a b => a ~~ b) _ _ F _ E) as (ls' & F' & S); [intros; eapply H; eassumption|].
  exists (concat ls'). split; [exists ls'; auto|apply concat_tr; exact S].
Qed.
Lemma tr_nil : forall l, [] ~~ l -> l = [].
Proof. intros [|x l] E; [reflexivity|discriminate E]. Qed.
Lemma rounds_tr : forall pick : val -> list val -> Prop, (forall v l v', pick v l -> v ~ v' -> exists l', pick v' l' /\ l ~~ l') ->
  forall cands l cands', rounds pick cands l -> cands ~~ cands' -> exists l', rounds pick cands' l' /\ l ~~ l'.
Proof.
  intros pick H cands l cands' R E. destruct R as [|cands N G|cands l N G].
  - apply tr_nil in E as ->. exists []. split; [constructor|reflexivity].
  - destruct (gathers_tr pick H _ _ _ G E) as (l' & G' & El). apply tr_nil in El as ->. exists [VNil]. split; [|reflexivity]. apply RdNull; [|exact G'].
    intros ->. symmetry in E. apply tr_nil in E. contradiction.
  - destruct (gathers_tr pick H _ _ _ G E) as (l' & G' & El). exists l'. split; [|exact El]. apply RdAll; [|exact G'].
    intros ->. symmetry in El. apply tr_nil in El. contradiction.
Qed.

(** ** Expressions *)
Section meanings.
Variable W : world.
Hypothesis Hp : prints_same W.
Notation lift := (on (map nf)).

Lemma tr_keys : forall p t args args', args ~~ args' -> orders_ok (reordered W p) ->
  exists p' t', orders_ok (reordered W p') /\
    on nf (value_of (call (reordered W p) t (b_of "keys") args)) = on nf (value_of (call (reordered W p') t' (b_of "keys") args')).
Proof.
  intros p t args args' E O.
  assert (F : forall W0 : world, call W0 t (b_of "keys") args = if negb (Z.of_nat (length args) =? 1) then Fail (RArgCount (b_of "keys") 1 (Z.of_nat (length args)))
    else with_arg args 0 (fun v => OK (fn_keys W0 t v))) by reflexivity.
  assert (F' : forall W0 : world, call W0 t (b_of "keys") args' = if negb (Z.of_nat (length args') =? 1) then Fail (RArgCount (b_of "keys") 1 (Z.of_nat (length args')))
    else with_arg args' 0 (fun v => OK (fn_keys W0 t v))) by reflexivity.
  destruct args as [|v [|w args]], args' as [|v' [|w' args']]; try discriminate E.
  - exists p, t. split; [exact O|reflexivity].
  - cbn [map] in E. injection E as E. destruct v;
      try (apply flat_eq in E as <-; [|reflexivity]; exists p, t; split; [exact O|reflexivity]).
    + apply arr_inv in E as (l' & -> & E). exists p, t. split; [exact O|reflexivity].
    + apply obj_inv in E as (m' & -> & Q).
      assert (P : Permutation m (reorder (p t (length m)) m)) by (apply Permutation_sym, reorder_perm, O).
      destruct (nfm_perm _ _ _ Q P) as (q & Pq & Eq). destruct (reorder_any _ _ _ Pq) as (ns & Pn & En).
      exists (fun _ n => if (n =? length m')%nat then ns else seq 0 n), t. split.
      * intros t0 n. cbn [reordered w_perm]. destruct (Nat.eqb_spec n (length m')) as [->|N]; [exact Pn|apply Permutation_refl].
      * rewrite F, F'. cbn [length Z.of_nat negb with_arg arg nth_error fn_keys reordered w_perm value_of obind on Z.eqb Pos.of_succ_nat Pos.eqb]. rewrite Nat.eqb_refl, En.
        f_equal. f_equal. rewrite <- !(map_map fst VStr), <- (nfm_keys q), <- Eq, nfm_keys. reflexivity.
  - exists p, t. split; [exact O|]. rewrite F, F'. apply tr_length in E. rewrite E.
    assert (N : (Z.of_nat (length (v' :: w' :: args')) =? 1) = false) by (apply Z.eqb_neq; cbn [length]; lia). rewrite N. reflexivity.
Qed.

Lemma yields_tr : forall o vs vs' r, inner_ok o (length vs) -> vs ~~ vs' -> yields W o vs r ->
  exists r', yields W o vs' r' /\ on nf r = on nf r'.
Proof.
  intros o vs vs' r Ho E H. assert (Hn := proj1 H). apply yields_inv in H as (p & t & O & ->); [|exact Ho].
  assert (Q : exists p' t', orders_ok (reordered W p') /\
    on nf (value_of (apply_op (reordered W p) t o vs)) = on nf (value_of (apply_op (reordered W p') t' o vs'))).
  { assert (K : (o = OpCall /\ exists args, vs = VName (b_of "keys") :: args) \/ forall args, o = OpCall -> vs <> VName (b_of "keys") :: args).
    { destruct (op_eq_dec o OpCall) as [->|N]; [|right; intros args A; contradiction]. destruct vs as [|[| | | | | | | | |k| | |] args]; try (right; discriminate).
      destruct (beqb k (b_of "keys")) eqn:B; [apply beqb_eq in B as ->; left; split; [reflexivity|eauto]|].
      right. intros args0 _ A. injection A as -> _. vm_compute in B. discriminate B. }
    destruct K as [[-> [args ->]]|K].
    - destruct vs' as [|v' args']; [discriminate E|]. cbn [map] in E. injection E as E1 E2. apply (flat_eq (VName _)) in E1 as <-; [|reflexivity].
      exact (tr_keys p t args args' E2 O).
    - exists p, t. split; [exact O|]. assert (K' : forall args, o = OpCall -> vs' <> VName (b_of "keys") :: args).
      { intros args A ->. destruct vs as [|v vs]; [discriminate E|]. cbn [map] in E. injection E as E1 E2. symmetry in E1. change (VName (b_of "keys") ~ v) in E1. apply flat_eq in E1 as <-; [|reflexivity].
        exact (K vs A eq_refl). }
      assert (A : prints_same (reordered W p)) by exact Hp.
      assert (B := apply_nf _ A t o vs K). assert (B' := apply_nf _ A t o vs' K'). rewrite E in B. rewrite B in B'.
      destruct (apply_op (reordered W p) t o vs) as [[x t1]|e| |], (apply_op (reordered W p) t o vs') as [[x' t1']|e'| |]; cbn [on nfp fst snd value_of obind] in *;
        try discriminate B'; try reflexivity; [injection B' as B' _|injection B' as B']; rewrite B'; reflexivity. }
  destruct Q as (p' & t' & O' & Q). exists (value_of (apply_op (reordered W p') t' o vs')). split; [|exact Q].
  apply tr_length in E. split; [lia|]. exists p', t', (apply_op (reordered W p') t' o vs'). split; [exact O'|]. split; [|reflexivity].
  rewrite E in Ho. apply operates_apply; [exact Ho|]. apply apply_no_fuel. exact Ho.
Qed.

Variables root root' : val.
Hypothesis Hroot : root ~ root'.

Lemma means_tr : forall e, wf_expr e -> forall dot dot' r, dot ~ dot' -> means W root dot e r ->
  exists r', means W root' dot' e r' /\ on nf r = on nf r'.
Proof.
  intros e. induction e using expr_tree_ind; intros Hw dot dot' r Hd Hm;
    try (inversion Hm as [? ? L| |]; subst; inversion L; subst; eexists; (split; [apply MnLeaf; constructor|cbn [on]; congruence])).
  pose proof (wf_inner _ _ Hw) as (Hk & _ & Ho).
  match goal with K : Forall (fun e => wf_expr e -> _) _ |- _ => rename K into IH end.
  assert (L : forall kids vs, (forall e, In e kids -> forall dot dot' r, dot ~ dot' -> means W root dot e r -> exists r', means W root' dot' e r' /\ on nf r = on nf r') ->
    Forall2 (fun e v => means W root dot e (OK v)) kids vs -> exists vs', Forall2 (fun e v => means W root' dot' e (OK v)) kids vs' /\ vs ~~ vs').
  { intros ks vs I F. induction F as [|e v ks vs Hv F IHF]; [exists []; split; [constructor|reflexivity]|].
    destruct IHF as (vs' & F' & E); [intros; eapply I; eauto; right; assumption|].
    destruct (I e (or_introl eq_refl) _ _ _ Hd Hv) as (r' & M & Er). destruct r' as [v'| | |]; try discriminate Er. cbn [on] in Er. injection Er as Er.
    exists (v' :: vs'). split; [constructor; assumption|cbn [map]; congruence]. }
  assert (I : forall e, In e kids -> forall dot dot' r, dot ~ dot' -> means W root dot e r -> exists r', means W root' dot' e r' /\ on nf r = on nf r').
  { intros e Hin. rewrite Forall_forall in IH, Hk. exact (IH e Hin (Hk e Hin)). }
  inversion Hm as [? ? L0|? ? vs ? F Y|? pre e post vs err F M]; subst; [inversion L0| |].
  - destruct (L kids vs I F) as (vs' & F' & E). destruct (yields_tr _ _ vs' _ ltac:(rewrite <- (F2_length _ _ _ _ _ F); exact Ho) E Y) as (r' & Y' & Er).
    exists r'. split; [econstructor; eassumption|exact Er].
  - destruct (L pre vs) as (vs' & F' & E); [intros; eapply I; eauto; apply in_or_app; left; assumption|exact F|].
    destruct (I e ltac:(apply in_or_app; right; left; reflexivity) _ _ _ Hd M) as (r' & M' & Er). destruct r' as [|err'| |]; try discriminate Er.
    exists (Fail err'). split; [eapply MnError; eassumption|exact Er].
Qed.

Lemma named_tr : forall v v' k, v ~ v' -> named W v k -> named W v' k.
Proof.
  intros v v' k E H. destruct (IsStructure v) eqn:S; [|apply flat_eq in E as <-; [exact H|exact S]].
  assert (Q := Hp _ _ (nf_inv _ _ E)). destruct v; try discriminate S.
  - apply arr_inv in E as (l' & -> & E). inversion H; subst. rewrite Q. constructor.
  - apply obj_inv in E as (m' & -> & E). inversion H; subst. rewrite Q. constructor.
Qed.
Lemma acts_tr : forall back v v' o, v ~ v' -> acts_as W back v o -> acts_as W back v' o.
Proof.
  intros back v v' o E H. destruct H as [v F|z|z|v k I N].
  - constructor. destruct F as [k ->]. apply flat_eq in E as <-; [exists k; reflexivity|reflexivity].
  - apply flat_eq in E as <-; [constructor|reflexivity].
  - apply flat_eq in E as <-; [constructor|reflexivity].
  - apply AaName; [rewrite <- isInt_nf, <- E, isInt_nf; exact I|]. eapply named_tr; eassumption.
Qed.
Definition eqo {A} (r r' : M A) : Prop := match r, r' with Fail e, Fail e' => nfe e = nfe e' | _, _ => r = r' end.
Lemma arg_tr : forall dot dot' back a r, dot ~ dot' -> wf_arg a -> arg_means W root dot back a r ->
  exists r', arg_means W root' dot' back a r' /\ eqo r r'.
Proof.
  intros dot dot' back a r Hd Hw H. destruct H as [k|k|n|sl|e v o M A|e err M]; try solve [eexists; split; [constructor|reflexivity]].
  - destruct (means_tr e Hw _ _ _ Hd M) as (r' & M' & E). destruct r' as [v'| | |]; try discriminate E. cbn [on] in E. injection E as E.
    exists (OK o). split; [|reflexivity]. eapply AmExpr; [exact M'|]. eapply acts_tr; eassumption.
  - destruct (means_tr e Hw _ _ _ Hd M) as (r' & M' & E). destruct r' as [|err'| |]; try discriminate E. cbn [on] in E. injection E as E.
    exists (Fail err'). split; [constructor; exact M'|exact E].
Qed.
Lemma args_tr : forall dot dot' back args r, dot ~ dot' -> Forall wf_arg args -> args_mean W root dot back args r ->
  exists r', args_mean W root' dot' back args r' /\ eqo r r'.
Proof.
  intros dot dot' back args r Hd Hw H.
  assert (L : forall args os, Forall wf_arg args -> Forall2 (fun a o => arg_means W root dot back a (OK o)) args os ->
    Forall2 (fun a o => arg_means W root' dot' back a (OK o)) args os).
  { intros as_ os Wa F. induction F as [|a o as_ os Ha F IH]; [constructor|]. inversion Wa; subst. constructor; [|auto].
    destruct (arg_tr _ _ _ _ _ Hd ltac:(eassumption) Ha) as (r' & H' & E). destruct r'; cbn [eqo] in E; try discriminate E. injection E as <-. exact H'. }
  destruct H as [args os F|pre a post os err F A].
  - eexists. split; [constructor; apply L; eassumption|reflexivity].
  - apply Forall_app in Hw as [W1 W2]. inversion W2 as [|? ? W3 W4]; subst. destruct (arg_tr _ _ _ _ _ Hd W3 A) as (r' & A' & E).
    destruct r' as [|err'| |]; cbn [eqo] in E; try discriminate E. exists (Fail err'). split; [|exact E]. eapply AsError; [apply L; eassumption|exact A'].
Qed.
Lemma falsy_tr : forall v v', v ~ v' -> falsy W v -> falsy W v'.
Proof.
  intros v v' E H. destruct (IsStructure v) eqn:S; [|apply flat_eq in E as <-; [exact H|exact S]].
  destruct v; try discriminate S; inversion H as [|? F| | | | | | | | |]; subst; destruct F as [k F]; discriminate F.
Qed.
Lemma keeps_tr : forall e, wf_expr e -> forall dots dots' r, dots ~~ dots' -> keeps W root e dots r ->
  exists r', keeps W root' e dots' r' /\ lift r = lift r'.
Proof.
  intros e Hw dots dots' r E H. revert dots' E. induction H as [|d v dots r M N K IH|d v dots r M N K IH|d err dots M]; intros [|d' dots'] E; try discriminate E.
  - exists (OK []). split; [constructor|reflexivity].
  - cbn [map] in E. injection E as E1 E2. destruct (IH _ E2) as (r' & K' & Er). destruct (means_tr e Hw _ _ _ E1 M) as (rv & M' & Ev).
    destruct rv as [v'| | |]; try discriminate Ev. cbn [on] in Ev. injection Ev as Ev.
    exists (let! l := r' in OK (d' :: l)). split.
    + eapply KpTrue; [exact M'| |exact K']. intro F. apply N. eapply falsy_tr; [symmetry; exact Ev|exact F].
    + destruct r, r'; cbn [on obind] in *; try discriminate Er; try exact Er. cbn [map]. congruence.
  - cbn [map] in E. injection E as E1 E2. destruct (IH _ E2) as (r' & K' & Er). destruct (means_tr e Hw _ _ _ E1 M) as (rv & M' & Ev).
    destruct rv as [v'| | |]; try discriminate Ev. cbn [on] in Ev. injection Ev as Ev.
    exists r'. split; [|exact Er]. eapply KpFalse; [exact M'| |exact K']. eapply falsy_tr; [exact Ev|exact N].
  - cbn [map] in E. injection E as E1 E2. destruct (means_tr e Hw _ _ _ E1 M) as (rv & M' & Ev). destruct rv as [|err'| |]; try discriminate Ev.
    exists (Fail err'). split; [constructor; exact M'|]. cbn [on] in *. congruence.
Qed.

(** ** Steps *)
Definition eqa (a b : sel * val) : Prop := fst a = fst b /\ snd a ~ snd b.
Lemma apps_tr : forall sels cands cands', cands ~~ cands' -> Forall2 eqa (applications sels cands) (applications sels cands').
Proof.
  intros sels cands. induction cands as [|v cands IH]; intros [|v' cands'] E; try discriminate E; [constructor|]. cbn [map] in E. injection E as E1 E2.
  unfold applications. cbn [flat_map]. apply Forall2_app; [|apply IH; exact E2]. clear - E1. induction sels as [|s sels IHs]; cbn [map]; [constructor|]. constructor; [split; [reflexivity|exact E1]|exact IHs].
Qed.
Lemma overflow_tr : forall a b, eqa a b -> app_overflows a -> app_overflows b.
Proof.
  intros [s v] [s' v'] [E1 E2] H. cbn [fst snd] in *. subst s'. destruct s; try contradiction H. destruct v; try contradiction H.
  apply arr_inv in E2 as (l' & -> & E). cbn [app_overflows] in *. rewrite <- (tr_length _ _ E). exact H.
Qed.
Lemma eqa_sym : forall a b, eqa a b -> eqa b a. Proof. intros a b [H1 H2]. split; symmetry; assumption. Qed.
Lemma no_overflow_tr : forall l l', Forall2 eqa l l' -> Forall (fun a => ~ app_overflows a) l -> Forall (fun a => ~ app_overflows a) l'.
Proof.
  intros l l' F. induction F as [|a b l l' H F IH]; intro G; [constructor|]. inversion G; subst. constructor; [|auto].
  intro O. apply H2. eapply overflow_tr; [apply eqa_sym; exact H|exact O].
Qed.
Lemma some_overflow_tr : forall l l', Forall2 eqa l l' -> Exists app_overflows l -> Exists app_overflows l'.
Proof.
  intros l l' F G. induction F as [|a b l l' H F IH]; [inversion G|]. inversion G; subst; [left; eapply overflow_tr; eassumption|right; auto].
Qed.
Lemma discards_tr : forall a b, eqa a b -> discards a -> discards b.
Proof.
  intros [s v] [s' v'] [E1 E2] H. unfold discards in *. cbn [fst snd] in *. subst s'. destruct s; try contradiction H.
  rewrite <- IsArray_nf, <- E2, IsArray_nf. exact H.
Qed.
Lemma collects_tr : forall apps apps' l, Forall2 eqa apps apps' -> collects apps l -> exists l', collects apps' l' /\ l ~~ l'.
Proof.
  intros apps apps' l F (before & after & -> & Hb & Ha & ls & Hl & ->). apply Forall2_app_inv_l in F as (before' & after' & Fb & Fa & ->).
  assert (Q : exists ls', Forall2 (fun a l => picks (fst a) (snd a) l) after' ls' /\ Forall2 (fun a b => a ~~ b) ls ls').
  { clear Ha. revert ls Hl. induction Fa as [|[s v] [s' v'] after after' [E1 E2] Fa IH]; intros ls Hl; inversion Hl as [|? l0 ? ls0 P Hl']; subst.
    - exists []. split; constructor.
    - destruct (IH _ Hl') as (ls' & Q1 & Q2). cbn [fst snd] in *. subst s'. destruct (picks_tr _ _ _ _ P E2) as (l' & P' & El).
      exists (l' :: ls'). split; constructor; assumption. }
  destruct Q as (ls' & Q1 & Q2). exists (concat ls'). split; [|apply concat_tr; exact Q2].
  exists before', after'. split; [reflexivity|]. split; [|split; [|exists ls'; split; [exact Q1|reflexivity]]].
  - destruct Hb as [->|(b & a & -> & D)]; [left; inversion Fb; reflexivity|right]. apply Forall2_app_inv_l in Fb as (b' & a' & _ & Fa' & ->).
    inversion Fa' as [|? a1 ? l1 Ea Fn]; subst. inversion Fn; subst. exists b', a1. split; [reflexivity|]. eapply discards_tr; eassumption.
  - clear - Fa Ha. induction Fa as [|a b l l' H F IH]; [constructor|]. inversion Ha; subst. constructor; [|auto].
    intro O. apply H2. eapply discards_tr; [apply eqa_sym; exact H|exact O].
Qed.
Inductive eqs : M (list (sel * val)) -> M (list (sel * val)) -> Prop :=
| EqOK : forall l l', Forall2 eqa l l' -> eqs (OK l) (OK l')
| EqFail : forall e e', nfe e = nfe e' -> eqs (Fail e) (Fail e')
| EqPanics : eqs Panics Panics
| EqFuel : eqs OutOfFuel OutOfFuel.
Lemma sweeps_tr : forall back args, Forall wf_arg args -> forall dots dots' r, dots ~~ dots' -> sweeps W root back args dots r ->
  exists r', sweeps W root' back args dots' r' /\ eqs r r'.
Proof.
  intros back args Hw dots dots' r E H. revert dots' E. induction H as [|d dots sels r A N S IH|d dots sels A O|d dots err A]; intros [|d' dots'] E; try discriminate E.
  - exists (OK []). split; [constructor|constructor; constructor].
  - cbn [map] in E. injection E as E1 E2. destruct (IH _ E2) as (r' & S' & Er). destruct (args_tr _ _ _ _ _ E1 Hw A) as (ra & A' & Ea).
    destruct ra; cbn [eqo] in Ea; try discriminate Ea. injection Ea as <-.
    assert (Q : Forall2 eqa (applications sels [d]) (applications sels [d'])) by (apply apps_tr; cbn [map]; congruence).
    exists (let! apps := r' in OK (applications sels [d'] ++ apps)). split.
    + apply SwDot; [exact A'| |exact S']. eapply no_overflow_tr; eassumption.
    + inversion Er; subst; cbn [obind]; constructor; [|assumption]. apply Forall2_app; assumption.
  - cbn [map] in E. injection E as E1 E2. destruct (args_tr _ _ _ _ _ E1 Hw A) as (ra & A' & Ea).
    destruct ra; cbn [eqo] in Ea; try discriminate Ea. injection Ea as <-.
    assert (Q : Forall2 eqa (applications sels [d]) (applications sels [d'])) by (apply apps_tr; cbn [map]; congruence).
    exists Panics. split; [|constructor]. eapply SwOverflow; [exact A'|]. eapply some_overflow_tr; eassumption.
  - cbn [map] in E. injection E as E1 E2. destruct (args_tr _ _ _ _ _ E1 Hw A) as (ra & A' & Ea). destruct ra as [|err'| |]; cbn [eqo] in Ea; try discriminate Ea.
    exists (Fail err'). split; [apply SwError; exact A'|constructor; exact Ea].
Qed.
Lemma step_tr : forall s, wf_step s -> forall cands cands' r, cands ~~ cands' -> step_means W root s cands r ->
  exists r', step_means W root' s cands' r' /\ lift r = lift r'.
Proof.
  intros s Hw cands cands' r E H. assert (Ha := wf_step_args s Hw).
  destruct H as [l O G|sels l O A N C|sels O A X|err O A|e dots r O Ea R K|dots l O R G|e dots r O Ea R K|dots apps l O R S C|dots err O R S|dots O R S].
  - destruct (gathers_tr _ children_tr _ _ _ G E) as (l' & G' & El). exists (OK l'). split; [apply SmWild; assumption|cbn [on]; congruence].
  - destruct (args_tr VNil VNil _ _ _ eq_refl Ha A) as (ra & A' & Ea). destruct ra; cbn [eqo] in Ea; try discriminate Ea. injection Ea as <-.
    assert (Q := apps_tr sels _ _ E). destruct (collects_tr _ _ _ Q C) as (l' & C' & El).
    exists (OK l'). split; [eapply SmSelect; try eassumption; eapply no_overflow_tr; eassumption|cbn [on]; congruence].
  - destruct (args_tr VNil VNil _ _ _ eq_refl Ha A) as (ra & A' & Ea). destruct ra; cbn [eqo] in Ea; try discriminate Ea. injection Ea as <-.
    assert (Q := apps_tr sels _ _ E). exists Panics. split; [eapply SmOverflow; try eassumption; eapply some_overflow_tr; eassumption|reflexivity].
  - destruct (args_tr VNil VNil _ _ _ eq_refl Ha A) as (ra & A' & Ea). destruct ra as [|err'| |]; cbn [eqo] in Ea; try discriminate Ea.
    exists (Fail err'). split; [eapply SmError; eassumption|cbn [on]; congruence].
  - destruct (rounds_tr _ children_tr _ _ _ R E) as (dots' & R' & Ed). rewrite Ea in Ha. inversion Ha as [|? ? We _]; subst.
    destruct (keeps_tr e We _ _ _ Ed K) as (r' & K' & Er). exists r'. split; [eapply SmFilter; eassumption|exact Er].
  - destruct (rounds_tr _ walks_tr _ _ _ R E) as (dots' & R' & Ed). destruct (gathers_tr _ children_tr _ _ _ G Ed) as (l' & G' & El).
    exists (OK l'). split; [eapply SmNestWild; eassumption|cbn [on]; congruence].
  - destruct (rounds_tr _ walks_tr _ _ _ R E) as (dots' & R' & Ed). rewrite Ea in Ha. inversion Ha as [|? ? We _]; subst.
    destruct (keeps_tr e We _ _ _ Ed K) as (r' & K' & Er). exists r'. split; [eapply SmNestFilter; eassumption|exact Er].
  - destruct (rounds_tr _ walks_tr _ _ _ R E) as (dots' & R' & Ed). destruct (sweeps_tr _ _ Ha _ _ _ Ed S) as (r' & S' & Er).
    inversion Er as [? apps' F| | |]; subst. destruct (collects_tr _ _ _ F C) as (l' & C' & El).
    exists (OK l'). split; [eapply SmNest; eassumption|cbn [on]; congruence].
  - destruct (rounds_tr _ walks_tr _ _ _ R E) as (dots' & R' & Ed). destruct (sweeps_tr _ _ Ha _ _ _ Ed S) as (r' & S' & Er).
    inversion Er as [|? err' F| |]; subst. exists (Fail err'). split; [eapply SmNestError; eassumption|cbn [on]; congruence].
  - destruct (rounds_tr _ walks_tr _ _ _ R E) as (dots' & R' & Ed). destruct (sweeps_tr _ _ Ha _ _ _ Ed S) as (r' & S' & Er).
    inversion Er; subst. exists Panics. split; [eapply SmNestOverflow; eassumption|reflexivity].
Qed.
Lemma path_tr : forall ss, wf_path ss -> forall cands cands' r, cands ~~ cands' -> path_means W root ss cands r ->
  exists r', path_means W root' ss cands' r' /\ lift r = lift r'.
Proof.
  intros ss Hw cands cands' r E H. revert cands' E. induction H as [cands|s ss cands l r S P IH|s ss cands err S|s ss cands S]; intros cands' E.
  - exists (OK cands'). split; [constructor|cbn [on]; congruence].
  - inversion Hw; subst. destruct (step_tr s ltac:(assumption) _ _ _ E S) as (r' & S' & Er). destruct r' as [l'| | |]; try discriminate Er.
    cbn [on] in Er. injection Er as Er. destruct (IH ltac:(assumption) _ Er) as (r' & P' & Ep). exists r'. split; [eapply PmStep; eassumption|exact Ep].
  - inversion Hw; subst. destruct (step_tr s ltac:(assumption) _ _ _ E S) as (r' & S' & Er). destruct r' as [|err'| |]; try discriminate Er.
    exists (Fail err'). split; [apply PmError; exact S'|exact Er].
  - inversion Hw; subst. destruct (step_tr s ltac:(assumption) _ _ _ E S) as (r' & S' & Er). destruct r'; try discriminate Er.
    exists Panics. split; [apply PmPanic; exact S'|reflexivity].
Qed.
End meanings.

Lemma error_inv : forall e e', nfe e = nfe e' -> same_error e e'.
Proof.
  intros e e' E. destruct e, e'; cbn [nfe] in E; try discriminate E; try (injection E as E; subst; constructor; try apply nf_inv; assumption);
    try (inversion E; subst; constructor; apply nf_inv; assumption); try (rewrite E; constructor).
Qed.
Lemma eval_members : forall TX s ss jp W t root root' r, accepted TX s ss jp -> fits jp -> orders_ok W -> prints_same W ->
  doc root -> same_doc root root' -> JP_Eval W t jp root r ->
  exists perm r', orders_ok (reordered W perm) /\ JP_Eval (reordered W perm) t jp root' r' /\ same_outcome r r'.
Proof.
  intros TX s ss jp W t root root' r Ha Hf HW Hp D S H.
  assert (M := text_means _ _ _ _ _ _ _ _ Ha Hf HW D H). assert (E := same_nf _ D _ S).
  destruct (path_tr W Hp root root' E ss (text_wf _ _ _ _ Ha) [root] [root'] r ltac:(cbn [map]; congruence) M) as (r' & M' & Er).
  apply (text_every TX s ss jp W t root' r' Ha Hf HW (same_is_doc _ _ S D)) in M' as (perm & O & H').
  exists perm, r'. split; [exact O|]. split; [exact H'|]. destruct H as [H _].
  destruct r as [l|e| |], r' as [l'|e'| |]; try discriminate Er; [| |constructor|contradiction].
  - cbn [on] in Er. injection Er as Er. constructor. clear - Er. revert l' Er. induction l as [|x l IH]; intros [|x' l'] E; try discriminate E; constructor.
    + injection E as E _. apply nf_inv. exact E.
    + injection E as _ E. auto.
  - cbn [on] in Er. injection Er as Er. constructor. apply error_inv. exact Er.
Qed.
