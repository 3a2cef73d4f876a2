(** The machine gives what the short evaluator with filters gives. *)
From Coq Require Import Permutation.
From Verif Require SaneProofs ErrorProofs.
From Verif Require Import Base Syntax SpecSyntax Value Machine Parser Api SpecDoc DocProofs SpecSelect SpecRun SpecOp SpecExpr SpecText SpecSem SpecLaws
  SpecOnce SpecFind SpecTake SpecFetch SpecEq SpecLoose LooseProofs LogicProofs SliceProofs OpProofs UniqueProofs SemProofs EquivProofs EditMore CoderProofs LawProofs SelectProofs Eval TakeProofs.
Local Open Scope Z_scope.

Section keyed.
(** whether no object has two members *)
Variable Lone : Prop.

(** expressions as in every program, where keys is called only if no object has two members; arrays and calls shorter than 2^22, as in every program *)
Fixpoint simple (e : expr) : Prop :=
  match e with
  | EInt _ | EFloat _ | EStr _ | EBool _ | ENull | ECurrent | ERoot | ERegexp _ | EName _ => True
  | EInner OpDot [x; EName _] => simple x
  | EInner OpIndex [x; y] => simple x /\ simple y
  | EInner OpNot [x] | EInner OpNeg [x] => simple x
  | EInner OpCall (EName f :: l) => (f = b_of "keys" -> Lone) /\ Z.of_nat (length l) < 4194303 /\ fold_right and True (map simple l)
  | EInner OpArray l => Z.of_nat (length l) < 4194304 /\ fold_right and True (map simple l)
  | EInner OpIn [x; y] | EInner OpNin [x; y] | EInner OpMatch [x; y] => simple x /\ simple y
  | EInner OpAdd [x; y] | EInner OpSub [x; y] | EInner OpMul [x; y] | EInner OpDiv [x; y] | EInner OpMod [x; y] => simple x /\ simple y
  | EInner OpAnd [x; y] | EInner OpOr [x; y] | EInner OpEQ [x; y] | EInner OpNE [x; y]
  | EInner OpLT [x; y] | EInner OpLE [x; y] | EInner OpGT [x; y] | EInner OpGE [x; y] => simple x /\ simple y
  | _ => False
  end.

(** the step has no expression, or is a filter or script with such an expression *)
Definition plain_step (s : pstep) : Prop := Forall exprless (st_args s) \/ exists e, st_args s = [PExpr e] /\ simple e.

(** ** Truth and order *)
Lemma truth_cvb : forall W v, truth (w_text W) v = cvb W v.
Proof.
  intros W v. destruct v as [| | | |f|s|s| | | | | |]; try reflexivity.
  - destruct f as [[]|[]| |[]]; reflexivity.
  - cbn. destruct (parse_int s); [reflexivity|]. unfold parse_float. destruct (o_parse_float (w_text W) s) as [[[]|[]| |[] m e]|]; try reflexivity. destruct s; reflexivity.
Qed.
Lemma text_order_lt : forall s t, bltb s t = match text_order s t with Lt => true | _ => false end.
Proof.
  intros s. induction s as [|c s IH]; intros [|d t]; try reflexivity. cbn. rewrite IH.
  destruct (Z.compare_spec c d); destruct (Z.ltb_spec c d); destruct (Z.eqb_spec c d); try lia; reflexivity.
Qed.
Lemma text_order_swap : forall s t, text_order t s = CompOpp (text_order s t).
Proof.
  intros s. induction s as [|c s IH]; intros [|d t]; try reflexivity. cbn. rewrite IH, (Z.compare_antisym c d). destruct (c ?= d); reflexivity.
Qed.
Definition rel_f (o : op) : (Z -> Z -> bool) * (f64 -> f64 -> bool) * (bytes -> bytes -> bool) :=
  match o with
  | OpLT => (Z.ltb, f_ltb, bltb)
  | OpLE => (Z.leb, f_leb, bleb)
  | OpGE => (Z.geb, fun x y => f_leb y x, fun s t => bleb t s)
  | _ => (Z.gtb, fun x y => f_ltb y x, fun s t => bltb t s)
  end.
Lemma rel_ints : forall o x y, rel_op o -> fst (fst (rel_f o)) x y = relates o (Some (x ?= y)).
Proof.
  intros o x y H. destruct H as [<-|[<-|[<-|[<-|[]]]]]; cbn [rel_f fst]; unfold Z.ltb, Z.leb, Z.gtb, Z.geb; destruct (x ?= y); reflexivity.
Qed.
Lemma rel_floats : forall o x y, rel_op o -> snd (fst (rel_f o)) x y = relates o (SFcompare x y).
Proof.
  intros o x y H. destruct H as [<-|[<-|[<-|[<-|[]]]]]; cbn [rel_f fst snd]; unfold f_ltb, f_leb, SFltb, SFleb;
    try rewrite (f_swap x y); destruct (SFcompare x y) as [[]|]; reflexivity.
Qed.
Lemma rel_texts : forall o x y, rel_op o -> snd (rel_f o) x y = relates o (Some (text_order x y)).
Proof.
  intros o x y H. destruct H as [<-|[<-|[<-|[<-|[]]]]]; cbn [rel_f fst snd]; unfold bleb; rewrite text_order_lt;
    try rewrite (text_order_swap x y); destruct (text_order x y); reflexivity.
Qed.
Lemma binop_rel : forall W o a b, rel_op o -> binop W o a b = Some (OK (relation W a b (fst (fst (rel_f o))) (snd (fst (rel_f o))) (snd (rel_f o)))).
Proof. intros W o a b H. destruct H as [<-|[<-|[<-|[<-|[]]]]]; reflexivity. Qed.
Lemma relates_none : forall o, relates o None = false.
Proof. intros []; reflexivity. Qed.
Lemma relation_order : forall W o a b, rel_op o ->
  relation W a b (fst (fst (rel_f o))) (snd (fst (rel_f o))) (snd (rel_f o)) =
  if succeeds a && succeeds b then VBool (relates o (order_of a b)) else failed.
Proof.
  intros W o a b H. pose proof (relates_none o) as N.
  destruct a, b; cbn; rewrite ?N; try reflexivity; unfold order_of; cbn [whole real_num option_map]; rewrite ?N; try reflexivity;
    f_equal; first [apply rel_texts; exact H|apply (rel_ints o _ _ H)|idtac]; rewrite <- ?rel_floats by exact H; try reflexivity.
  all: try (destruct b; reflexivity); try (destruct b0; reflexivity).
Qed.

(** ** Arithmetic *)
Lemma arith_worth : forall W o a b, In o [OpAdd; OpSub; OpMul; OpDiv; OpMod] -> binop W o a b = Some (OK (arithmetic o a b)).
Proof.
  intros W o a b H. destruct H as [<-|[<-|[<-|[<-|[<-|[]]]]]]; cbn [binop]; do 2 f_equal; unfold arith, divide.
  all: destruct a as [|ba| | | | | | | | | | |], b as [|bb| | | | | | | | | | |]; try reflexivity;
    unfold arithmetic; cbn [whole real_num option_map int_op float_op isNothing orb negb andb isArith isFloat cvi cvf];
    try destruct ba; try destruct bb; try reflexivity; unfold f_eqb, SFeqb, f_zero;
    try match goal with |- context[nearest ?z] => change (nearest z) with (f_of_Z z) end;
    repeat match goal with |- context[if ?z =? 0 then _ else _] => destruct (z =? 0); try reflexivity end;
    try match goal with |- context[SFcompare ?x (S754_zero false)] => destruct x as [[]|[]| |[]]; reflexivity end.
Qed.
Lemma neg_worth : forall W v, op_neg W v = negative v.
Proof.
  intros W v. unfold op_neg, negative. destruct v as [|[]| | | |[]|[]| | | | | |]; try reflexivity.
Qed.

(** ** Values inside documents *)
Definition nice (v : val) : Prop := forall x, within x v ->
  match x with VArr l => Z.of_nat (length l) <= max_int64 | VObj m => NoDup (map fst m) /\ (Lone -> (length m <= 1)%nat) | VInt z | VInt64 z => min_int64 <= z | VSlice _ => False | _ => True end.
Definition known (v : val) : Prop := doc v /\ (Lone -> lone_members v).
Lemma nice_doc : forall v, known v -> nice v.
Proof. intros v [H L] x Hx. specialize (H x Hx). destruct x; cbn in H; unfold in_int64 in *; try tauto. split; [tauto|]. intro K. exact (L K _ Hx). Qed.
Lemma nice_failed : nice failed.
Proof. intros x H. inversion H; subst; try discriminate. exact I. Qed.
Lemma nice_sub : forall x v, nice v -> within x v -> nice x.
Proof. intros x v H Hx y Hy. apply H. eapply within_trans; eauto. Qed.
Lemma nice_plain : forall v, children v = [] -> (match v with VArr _ | VObj _ | VSlice _ => False | VInt z | VInt64 z => min_int64 <= z | _ => True end) -> nice v.
Proof. intros v Hc Hv x H. inversion H; subst; cbn in *; try contradiction. destruct v; tauto. Qed.
Lemma reduced_low : forall z, min_int64 <= reduced z.
Proof. intro z. unfold reduced, min_int64. pose proof (Z.mod_pos_bound (z + 2 ^ 63) (2 ^ 64) ltac:(lia)). lia. Qed.
Lemma rune_count_low : forall s, min_int64 <= rune_count s.
Proof. intro s. pose proof (SaneProofs.rune_count_nonneg s). unfold min_int64. lia. Qed.
Ltac nice_tac := apply nice_plain; [reflexivity|first [exact I|apply reduced_low|apply rune_count_low|unfold min_int64; cbn; lia]].
Lemma nice_names : forall v, nice v -> forall x, within x v -> distinct_names x.
Proof. intros v H x Hx m ->. exact (proj1 (H _ Hx)). Qed.

Lemma lookup_member : forall k (m : list (bytes * val)), lookup k m = match member k m with v :: _ => Some v | [] => None end.
Proof.
  intros k m. unfold member. induction m as [|[k' v] m IH]; [reflexivity|]. cbn [lookup find fst].
  destruct (list_eq_dec Z.eq_dec k' k) as [->|N].
  - rewrite (proj2 (beqb_eq k k) eq_refl). reflexivity.
  - destruct (beqb k k') eqn:E; [apply beqb_eq in E; congruence|]. exact IH.
Qed.
Lemma found_nice : forall back v a, nice v -> nice (first_of (find_arg back v a)).
Proof.
  intros back v a H. destruct (find_arg back v a) as [|y l] eqn:E; [exact nice_failed|].
  destruct (arg_key_found back v a y) as (k & _ & Hk); [rewrite E; left; reflexivity|].
  eapply nice_sub; [exact H|]. eapply AddressProofs.value_at_within. exact Hk.
Qed.

(** ** Operators *)
Lemma dot_worth : forall W v k, nice v ->
  op_dot W v (VName k) = OK (if list_eq_dec Z.eq_dec k (b_of "length") then size_of v else first_of (find_arg false v (PName k))).
Proof.
  intros W v k H. unfold op_dot. cbn [isNothing orb]. destruct (list_eq_dec Z.eq_dec k (b_of "length")) as [->|N].
  - destruct v; try reflexivity.
  - assert (E : beqb k (b_of "length") = false) by (destruct (beqb k (b_of "length")) eqn:E; [apply beqb_eq in E; congruence|reflexivity]).
    rewrite E. destruct v; try reflexivity. cbn [isNothing find_arg valByKey mapKey]. rewrite lookup_member. destruct (member k m); reflexivity.
Qed.
Lemma index_worth : forall W v i n, nice v -> isNothing i = false -> cvi W i = n -> min_int64 <= n ->
  op_index W v i = OK (match v with VArr _ => element_of v n | VObj m => first_of (member (mapKey W i) m) | _ => failed end).
Proof.
  intros W v i n H Hi Hn Hr. unfold op_index. rewrite Hi, orb_false_r. destruct v as [| | | | | | |l|m| | | |]; try reflexivity; cbn [isNothing].
  - rewrite Hn. pose proof (H _ (WSelf _)) as L. cbn in L. unfold element_of. cbn [find_arg andb].
    set (len := Z.of_nat (length l)) in *. assert (L0 : 0 <= len) by (unfold len; lia). unfold min_int64, max_int64 in *.
    assert (E : (if n <? 0 then wrap64 (n + len) else n) = if n <? 0 then n + len else n).
    { destruct (Z.ltb_spec n 0); [|reflexivity]. apply wrap64_id. unfold in_int64, min_int64, max_int64. lia. }
    rewrite E. set (j := if n <? 0 then n + len else n). unfold index_Z.
    destruct (Z.ltb_spec j 0) as [J|J]; [reflexivity|]. cbn [orb]. rewrite Z.geb_leb. destruct (Z.leb_spec len j) as [K|K].
    + destruct (nth_error l (Z.to_nat j)) eqn:Q; [|reflexivity]. exfalso. assert (Z.to_nat j < length l)%nat by (apply nth_error_Some; congruence). unfold len in K. lia.
    + destruct (nth_error l (Z.to_nat j)) eqn:Q; [reflexivity|]. exfalso. apply nth_error_None in Q. unfold len in K. lia.
  - cbn [valByKey]. rewrite lookup_member. destruct (member (mapKey W i) m); reflexivity.
Qed.
Lemma parse_range : forall s, in_int64 (match parse_int s with Some n => n | None => 0 end).
Proof.
  intro s. destruct (parse_int s) as [n|] eqn:E; [|unfold in_int64, min_int64, max_int64; lia].
  apply IndexProofs.parse_int_spec in E. apply IndexProofs.int_text_range in E. exact E.
Qed.

(** ** Expressions *)
Section meaning.
Variable W : world.
Hypothesis HW : orders_ok W.
Hypothesis HS : splits_ok W.
Variable same : val -> val -> bool.
Hypothesis Hsame : forall a b, (forall x, within x b -> distinct_names x) -> (same a b = true <-> loose W a b).
Variable name : val -> bytes.
Hypothesis Hname : forall v k, named W v k -> name v = k.
Variable root : val.
Hypothesis Hroot : known root.
Notation worth := (worth W same name root).
Notation fault := (fault W same name root).

Lemma same_eq : forall a b, nice b -> same a b = eqVal W a b.
Proof.
  intros a b H. pose proof (Hsame a b (nice_names b H)) as S. pose proof (eq_loose W a b (nice_names b H)) as E.
  destruct (same a b), (eqVal W a b); try reflexivity; [symmetry|]; tauto.
Qed.
Lemma yields_is : forall o vs r0, MachineProofs.inner_ok o (length vs) -> Z.of_nat (length vs) < 4194304 -> (forall args, o = OpCall -> vs <> VName (b_of "keys") :: args) ->
  r0 <> OutOfFuel -> value_of (apply_op W 0 o vs) = r0 -> forall r, yields W o vs r <-> r = r0.
Proof.
  intros o vs r0 Ho L K N E r. destruct (LawProofs.apply_fixed W o vs K) as [q E']. pose proof (E' (w_perm W) 0%nat) as E0. rewrite reordered_self in E0. split.
  - intro H. apply (yields_inv W) in H as (perm & t & _ & ->); [|exact Ho]. rewrite E', <- E, E0. destruct q; reflexivity.
  - intros ->. split; [exact L|]. exists (w_perm W), 0%nat, (apply_op W 0 o vs). rewrite reordered_self.
    split; [exact HW|]. split; [|symmetry; exact E]. apply operates_apply; [exact Ho|]. intro Q. apply N. rewrite <- E, Q. reflexivity.
Qed.
Lemma meant : forall dot o kids v, Forall (fun e => forall r, means W root dot e r <-> r = unless (fault dot e) (worth dot e)) kids ->
  (forall r, yields W o (map (worth dot) kids) r <-> r = unless (own_fault W o (map (worth dot) kids)) v) ->
  forall r, means W root dot (EInner o kids) r <-> r = unless (fault dot (EInner o kids)) v.
Proof.
  intros dot o kids v F Y r. cbn [SpecFetch.fault]. set (own := own_fault W o (map (worth dot) kids)) in *.
  assert (A : first_some (map (fault dot) kids) = None -> Forall2 (fun e v => means W root dot e (OK v)) kids (map (worth dot) kids)).
  { clear - F. induction F as [|e kids He F IH]; [constructor|]. cbn [map first_some]. destruct (fault dot e) eqn:E; [discriminate|]. intro H.
    constructor; [apply He; reflexivity|apply IH; exact H]. }
  assert (A' : forall vs, Forall2 (fun e v => means W root dot e (OK v)) kids vs -> first_some (map (fault dot) kids) = None /\ vs = map (worth dot) kids).
  { clear - F. induction F as [|e kids He F IH]; intros vs H; inversion H as [|? w ? ws Hw H']; subst; [split; reflexivity|].
    apply He in Hw. cbn [map first_some]. destruct (fault dot e) eqn:E; [discriminate Hw|]. injection Hw as ->. destruct (IH _ H') as [-> ->]. split; reflexivity. }
  assert (B : forall pre x post vs err, kids = pre ++ x :: post -> Forall2 (fun e v => means W root dot e (OK v)) pre vs -> means W root dot x (Fail err) ->
    first_some (map (fault dot) kids) = Some err).
  { clear - F. intros pre x post vs err -> H Hx. apply Forall_app in F as [F1 F2]. apply Forall_inv in F2. apply F2 in Hx.
    induction H as [|e w pre ws Hw H IH]; cbn [app map first_some].
    - destruct (fault dot x) as [f|]; [injection Hx as ->; reflexivity|discriminate Hx].
    - pose proof (Forall_inv F1) as He. apply He in Hw. destruct (fault dot e); [discriminate Hw|]. apply IH. exact (Forall_inv_tail F1). }
  assert (B' : forall err, first_some (map (fault dot) kids) = Some err -> exists pre x post, kids = pre ++ x :: post /\
    Forall2 (fun e v => means W root dot e (OK v)) pre (map (worth dot) pre) /\ means W root dot x (Fail err)).
  { clear - F. induction F as [|e kids He F IH]; intros err H; [discriminate H|]. cbn [map first_some] in H. destruct (fault dot e) as [f|] eqn:E.
    - injection H as ->. exists [], e, kids. split; [reflexivity|]. split; [constructor|]. apply He. reflexivity.
    - destruct (IH err H) as (pre & x & post & -> & P & Hx). exists (e :: pre), x, post. split; [reflexivity|]. split; [|exact Hx].
      constructor; [apply He; reflexivity|exact P]. }
  split.
  - intro H. inversion H as [? ? Hl|? ? vs ? F' Y'|? pre x post vs err F' E]; subst; [inversion Hl| |].
    + destruct (A' vs F') as [-> ->]. apply Y. exact Y'.
    + rewrite (B pre x post vs err eq_refl F' E). reflexivity.
  - intros ->. destruct (first_some (map (fault dot) kids)) as [err|] eqn:E.
    + destruct (B' err eq_refl) as (pre & x & post & -> & P & Hx). cbn [unless]. eapply MnError; eassumption.
    + apply MnInner with (vs := map (worth dot) kids); [apply A; reflexivity|]. apply Y. reflexivity.
Qed.
Lemma yields_dot : forall a b v r, binop W OpDot a b = Some (OK v) -> (yields W OpDot [a; b] r <-> r = OK v).
Proof.
  intros a b v r E. apply yields_is; [split; reflexivity|cbn; lia|discriminate|discriminate|]. cbn [apply_op]. rewrite E. reflexivity.
Qed.
Lemma two_meant : forall dot o x y v, (forall r, means W root dot x r <-> r = unless (fault dot x) (worth dot x)) ->
  (forall r, means W root dot y r <-> r = unless (fault dot y) (worth dot y)) ->
  (forall r, yields W o [worth dot x; worth dot y] r <-> r = unless (own_fault W o [worth dot x; worth dot y]) v) ->
  forall r, means W root dot (EInner o [x; y]) r <-> r = unless (fault dot (EInner o [x; y])) v.
Proof. intros dot o x y v Hx Hy Y. apply meant; [repeat (constructor; auto)|exact Y]. Qed.
Lemma leaf_meant : forall dot e v, leaf_means root dot e v -> (forall w, leaf_means root dot e w -> w = v) -> (forall o kids, e <> EInner o kids) ->
  forall r, means W root dot e r <-> r = OK v.
Proof.
  intros dot e v Hv U N r. split.
  - intro H. inversion H as [? w Hl|? ? ? ? F Y E|? pre ? post vs err F E]; subst; [f_equal; apply U; exact Hl|exfalso; eapply N; reflexivity|exfalso; eapply N; reflexivity].
  - intros ->. apply MnLeaf. exact Hv.
Qed.

Lemma pair_meant : forall dot o x y v, is_binary o = true -> (forall r, means W root dot x r <-> r = unless (fault dot x) (worth dot x)) ->
  (forall r, means W root dot y r <-> r = unless (fault dot y) (worth dot y)) -> binop W o (worth dot x) (worth dot y) = Some (OK v) ->
  own_fault W o [worth dot x; worth dot y] = None -> forall r, means W root dot (EInner o [x; y]) r <-> r = unless (fault dot (EInner o [x; y])) v.
Proof. intros dot o x y v Ho Hx Hy E N. eapply two_meant; [exact Hx|exact Hy|]. intro r. rewrite N. apply yields_bin; assumption. Qed.
Lemma nice_bool : forall b, nice (VBool b).
Proof. intro b. nice_tac. Qed.
Lemma nice_size : forall v, nice (size_of v).
Proof. intros v. destruct v; try exact nice_failed; nice_tac. Qed.

Lemma rem_low : forall x y, y <> 0 -> min_int64 <= x -> min_int64 <= Z.rem x y.
Proof.
  intros x y Hy Hx. unfold min_int64 in *. assert (P : forall a b, 0 <= a -> b <> 0 -> Z.rem a b <= a).
  { intros a b Ha Hb. destruct (Z.lt_trichotomy b 0) as [L|[L|L]]; [|lia|apply Z.rem_le; lia].
    rewrite <- (Z.opp_involutive b), Z.rem_opp_r'. apply Z.rem_le; lia. }
  destruct (Z.le_gt_cases 0 x) as [L|L]; [pose proof (Z.rem_nonneg x y Hy L); lia|].
  rewrite <- (Z.opp_involutive x), Z.rem_opp_l'. specialize (P (- x) y). lia.
Qed.
Lemma whole_low : forall a x, nice a -> whole a = Some x -> min_int64 <= x.
Proof.
  intros a x Na Ha. pose proof (Na _ (WSelf _)) as L. cbn in L.
  destruct a as [|[]| | | | | | | | | | |]; cbn in Ha; try discriminate Ha; injection Ha as <-; unfold min_int64 in *; lia.
Qed.
Lemma nice_sum : forall o a b, nice a -> nice (arithmetic o a b).
Proof.
  intros o a b Na. unfold arithmetic. destruct (whole a) as [x|] eqn:Ea.
  - destruct (whole b) as [y|].
    + destruct (int_op o x y) as [z|] eqn:E; [|exact nice_failed]. apply nice_plain; [reflexivity|]. unfold int_op in E.
      destruct o; try (injection E as <-; apply reduced_low); destruct (Z.eqb_spec y 0); try discriminate E; injection E as <-; try apply reduced_low.
      apply rem_low; [assumption|exact (whole_low a x Na Ea)].
    + repeat match goal with |- nice (match ?x with _ => _ end) => destruct x end; first [exact nice_failed|nice_tac].
  - repeat match goal with |- nice (match ?x with _ => _ end) => destruct x end; first [exact nice_failed|nice_tac].
Qed.
Lemma nice_negative : forall v, nice (negative v).
Proof. intros v. destruct v; try exact nice_failed; nice_tac. Qed.
Lemma nice_element : forall v i, nice v -> nice (element_at name v i).
Proof. intros v i H. unfold element_at, element_of. destruct i, v; try exact nice_failed; apply found_nice; exact H. Qed.
Lemma name_key : forall v, succeeds v = true -> (forall s, v <> VSlice s) -> name v = mapKey W v.
Proof. intros v H Hs. apply Hname. apply IndexProofs.mapKey_named; [intros [k ->]; discriminate H|exact Hs]. Qed.
Lemma f2i_range : forall f, in_int64 (f2i W f).
Proof.
  intro f. unfold f2i. destruct (f_trunc f) as [z|]; [destruct (in_int64b z) eqn:E; [apply in_int64b_spec in E; exact E|]|]; exact (proj1 (ArithProofs.wrap_reduces _)).
Qed.
Lemma element_worth : forall v i, nice v -> nice i -> op_index W v i = OK (element_at name v i).
Proof.
  intros v i Nv Ni. pose proof (Ni _ (WSelf _)) as Hi. cbn in Hi.
  assert (L0 : min_int64 <= 0) by (unfold min_int64; lia). assert (L1 : min_int64 <= 1) by (unfold min_int64; lia).
  assert (LP : forall s, min_int64 <= match parse_int s with Some n => n | None => 0 end) by (intro s; apply parse_range).
  destruct i as [|b|z|z|f|s|s| | | | | |]; try (exfalso; exact Hi).
  all: try (destruct v; reflexivity).
  all: match goal with |- op_index _ _ ?i = _ => pose proof (name_key i eq_refl ltac:(discriminate)) as K; rewrite (index_worth W v i (cvi W i)) end;
    [|exact Nv|reflexivity|reflexivity|cbn [cvi]; try exact Hi; try exact L0; try (destruct b; assumption); try apply f2i_range; first [apply LP|destruct s; [exact L0|apply LP]|idtac]]; f_equal;
    unfold element_at; try rewrite K; unfold index_for; try rewrite K; cbn [mapKey cvi whole];
    try (destruct v; reflexivity).
  - destruct v; try reflexivity. unfold element_of. rewrite sprint_int_decimal. reflexivity.
  - destruct v; try reflexivity. unfold element_of. rewrite sprint_int_decimal. reflexivity.
  - rewrite sprint_int_decimal, (EqProofs.parse_decimal _ (f2i_range f)). destruct v; reflexivity.
  - destruct v; try reflexivity. destruct s; reflexivity.
Qed.
Lemma search_same : forall f a l, nice a -> searchJSON W l a f = (if f then existsb (fun v => same v a) l else negb (existsb (fun v => same v a) l)).
Proof.
  intros f a l H. induction l as [|v l IH]; [destruct f; reflexivity|]. cbn [searchJSON existsb]. rewrite (same_eq v a H), IH.
  destruct (eqVal W v a), f; reflexivity.
Qed.
Lemma yields_in : forall (f : bool) a b, nice a -> forall r,
  yields W (if f then OpIn else OpNin) [a; b] r <->
  r = unless (own_fault W (if f then OpIn else OpNin) [a; b])
        (if succeeds a && succeeds b then VBool (if f then existsb (fun v => same v a) (elements b) else negb (existsb (fun v => same v a) (elements b))) else failed).
Proof.
  intros f a b N r. apply yields_is; [destruct f; split; reflexivity|cbn; lia|destruct f; discriminate|destruct (own_fault _ _ _); discriminate|].
  destruct f; cbn [apply_op binop]; unfold op_in; destruct a; try reflexivity; destruct b; try reflexivity; rewrite search_same by exact N; reflexivity.
Qed.
Lemma yields_match : forall a b r,
  yields W OpMatch [a; b] r <-> r = unless (own_fault W OpMatch [a; b]) (match a, b with VStr t, VRegexp p | VStr t, VStr p => VBool (w_re_match W p t) | _, _ => failed end).
Proof.
  intros a b. apply yields_is; [split; reflexivity|cbn; lia|discriminate|destruct (own_fault _ _ _); discriminate|].
  cbn [apply_op binop]. unfold op_match, re_ok. destruct b; destruct a; cbn; try reflexivity; destruct (o_re_ok (w_text W) _); reflexivity.
Qed.
Lemma yields_neg : forall a r, yields W OpNeg [a] r <-> r = OK (op_neg W a).
Proof.
  intros a r. split.
  - intro H. apply (yields_inv W) in H as (perm & t & _ & ->); reflexivity.
  - intros ->. split; [cbn; lia|]. exists (w_perm W), 0%nat, (OK (op_neg W a, 0%nat)). rewrite reordered_self.
    split; [exact HW|]. split; [|reflexivity]. apply computes1; [left; reflexivity|reflexivity].
Qed.

(** ** Functions *)
Lemma reals_loop : forall f l i acc, arith_loop W f i acc l =
  match reals l with Some xs => VFloat (snd (fold_left (fun a x => (S (fst a), f (fst a) (snd a) x)) xs (i, acc))) | None => wrong end.
Proof.
  intros f l. induction l as [|v l IH]; intros i acc; [reflexivity|]. cbn [arith_loop reals].
  assert (E : isArith v = match real_num v with Some _ => true | None => false end) by (destruct v as [|[]| | | | | | | | | | |]; reflexivity).
  assert (C : forall x, real_num v = Some x -> cvf W v = x) by (intros x; destruct v as [|[]| | | | | | | | | | |]; cbn; intro Q; try discriminate Q; injection Q as <-; reflexivity).
  rewrite E. destruct (real_num v) as [x|]; [|reflexivity]. cbn [negb]. rewrite (C x eq_refl), IH. destruct (reals l); reflexivity.
Qed.
Lemma fold_sum : forall xs i acc, snd (fold_left (fun a x => (S (fst a), f_add (snd a) x)) xs (i, acc)) = fold_left (SFadd 53 1024) xs acc.
Proof. intros xs. induction xs as [|x xs IH]; intros i acc; [reflexivity|]. cbn [fold_left fst snd]. apply IH. Qed.
Lemma fold_prod : forall xs i acc,
  snd (fold_left (fun a x => (S (fst a), if (0 <? fst a)%nat then f_mul (snd a) x else x)) xs (S i, acc)) = fold_left (SFmul 53 1024) xs acc.
Proof. intros xs. induction xs as [|x xs IH]; intros i acc; [reflexivity|]. cbn [fold_left fst snd]. apply IH. Qed.
Lemma avg_reals : forall l acc, avg_loop W acc l = match reals l with Some xs => Some (fold_left (SFadd 53 1024) xs acc) | None => None end.
Proof.
  intros l. induction l as [|v l IH]; intros acc; [reflexivity|]. cbn [avg_loop reals].
  assert (E : isArith v = match real_num v with Some _ => true | None => false end) by (destruct v as [|[]| | | | | | | | | | |]; reflexivity).
  assert (C : forall x, real_num v = Some x -> cvf W v = x) by (intros x; destruct v as [|[]| | | | | | | | | | |]; cbn; intro Q; try discriminate Q; injection Q as <-; reflexivity).
  rewrite E. destruct (real_num v) as [x|]; [|reflexivity]. cbn [negb]. rewrite (C x eq_refl), IH. destruct (reals l); reflexivity.
Qed.
Lemma reals_length : forall l xs, reals l = Some xs -> length xs = length l.
Proof.
  intros l. induction l as [|v l IH]; intros xs H; [injection H as <-; reflexivity|]. cbn [reals] in H.
  destruct (real_num v); [|discriminate]. destruct (reals l) as [ys|]; [|discriminate]. injection H as <-. cbn. f_equal. apply IH. reflexivity.
Qed.
Lemma begins_prefix : forall p s, begins p s = has_prefix s p.
Proof.
  intros p s. apply Bool.eq_true_iff_eq. rewrite FnProofs.has_prefix_spec. unfold begins. destruct (list_eq_dec Z.eq_dec (firstn (length p) s) p) as [E|N].
  - split; [intros _|reflexivity]. exists (skipn (length p) s). rewrite <- E at 1. symmetry. apply firstn_skipn.
  - split; [discriminate|]. intros (r & ->). exfalso. apply N. rewrite firstn_app, Nat.sub_diag, firstn_all, firstn_O, app_nil_r. reflexivity.
Qed.
Lemma occurs_in : forall p s, existsb (fun i => begins p (skipn i s)) (seq 0 (S (length s))) = contains_sub s p.
Proof.
  intros p s. apply Bool.eq_true_iff_eq. rewrite existsb_exists, FnProofs.contains_spec. split.
  - intros (i & _ & H). rewrite begins_prefix, FnProofs.has_prefix_spec in H. destruct H as (r & E). exists (firstn i s), r. rewrite <- E. symmetry. apply firstn_skipn.
  - intros (a & b & E). exists (length a). split; [apply in_seq; rewrite E, app_length; lia|]. rewrite begins_prefix, FnProofs.has_prefix_spec. exists b.
    rewrite E, skipn_app, Nat.sub_diag, skipn_all. reflexivity.
Qed.
Lemma nice_folded : forall f v, (forall xs, nice (f xs)) -> nice (folded f v).
Proof. intros f v H. unfold folded. destruct v; try nice_tac. destruct (reals l); [apply H|nice_tac]. Qed.
Lemma nice_texts : forall f bad a b, nice bad -> nice (texts f bad a b).
Proof. intros f bad a b H. unfold texts. destruct a; try exact H. destruct b; try exact H. apply nice_bool. Qed.

Lemma texts_loop : forall l i acc,
  string_loop minString (S i) acc l = match all_texts l with Some ts => VStr (fold_left (fun m t => match text_order t m with Lt => t | _ => m end) ts acc) | None => wrong end.
Proof.
  intros l. induction l as [|v l IH]; intros i acc; [reflexivity|]. destruct v; try reflexivity. cbn [string_loop all_texts]. rewrite IH.
  destruct (all_texts l); [|reflexivity]. cbn [option_map fold_left]. do 2 f_equal. unfold minString. cbn [Nat.eqb orb]. rewrite text_order_lt. destruct (text_order s acc); reflexivity.
Qed.
Lemma fold_best : forall (f : nat -> f64 -> f64 -> f64) (better : f64 -> f64 -> bool) xs i acc, (forall i m x, f (S i) m x = if better x m then x else m) ->
  snd (fold_left (fun a x => (S (fst a), f (fst a) (snd a) x)) xs (S i, acc)) = fold_left (fun m y => if better y m then y else m) xs acc.
Proof. intros f better xs. induction xs as [|x xs IH]; intros i acc H; [reflexivity|]. cbn [fold_left fst snd]. rewrite H. apply IH. exact H. Qed.
Lemma best_array : forall (f : nat -> f64 -> f64 -> f64) (better : f64 -> f64 -> bool) l, (forall m x, f 0%nat m x = x) -> (forall i m x, f (S i) m x = if better x m then x else m) ->
  minMaxArray W l f minString = best better l.
Proof.
  intros f better l H0 H. destruct l as [|v l]; [reflexivity|].
  assert (N : arithArrayOp W (v :: l) f = match reals (v :: l) with Some (x :: xs) => VFloat (fold_left (fun m y => if better y m then y else m) xs x) | _ => wrong end).
  { unfold arithArrayOp. rewrite reals_loop. destruct (reals (v :: l)) as [[|x xs]|] eqn:E; [apply reals_length in E; discriminate E| |reflexivity].
    cbn [fold_left fst snd]. rewrite H0, (fold_best f better) by exact H. reflexivity. }
  destruct v; try reflexivity; try exact N. cbn [minMaxArray stringArrayOp string_loop best]. rewrite texts_loop. reflexivity.
Qed.
Lemma nice_best : forall better l, nice (best better l).
Proof.
  intros better l. unfold best. destruct l as [|v l]; [nice_tac|].
  destruct v; try nice_tac; repeat match goal with |- nice (match ?x with _ => _ end) => destruct x end; nice_tac.
Qed.
Lemma min_best : forall l, minMaxArray W l minArith minString = best less l.
Proof. intro l. apply best_array; reflexivity. Qed.
Lemma max_best : forall l, minMaxArray W l maxArith maxString = best (fun x y => less y x) l.
Proof. intro l. apply (best_array maxArith); reflexivity. Qed.

Lemma unary_call : forall f v, In f (map b_of ["length"; "sum"; "prod"; "avg"; "min"; "max"; "abs"; "ceil"; "floor"; "to_number"]%string) -> nice v ->
  exists g, function_in (unary (w_text W)) f = Some g /\ f <> b_of "keys" /\ nice (g v) /\ forall t, call W t f [v] = OK (g v, t).
Proof.
  intros f v H Nv. destruct H as [<-|[<-|[<-|[<-|[<-|[<-|[<-|[<-|[<-|[<-|[]]]]]]]]]]]; (eexists; split; [reflexivity|]; split; [discriminate|]; split);
    try (apply nice_folded; intros xs; try destruct xs; nice_tac).
  - destruct v; nice_tac.
  - intro t. change (call W t (b_of "length") [v]) with (OK (E := rerr) (fn_length v, t)). do 2 f_equal. destruct v; reflexivity.
  - intro t. change (call W t (b_of "sum") [v]) with (OK (E := rerr) (fn_sum W v, t)). do 2 f_equal. destruct v as [| | | | | | |l| | | | |]; try reflexivity.
    cbn [snd fn_sum folded]. destruct l as [|x l]; [reflexivity|]. unfold arithArrayOp. rewrite reals_loop. destruct (reals (x :: l)); [|reflexivity].
    rewrite fold_sum. reflexivity.
  - intro t. change (call W t (b_of "prod") [v]) with (OK (E := rerr) (fn_prod W v, t)). do 2 f_equal. destruct v as [| | | | | | |l| | | | |]; try reflexivity.
    cbn [snd fn_prod folded]. destruct l as [|x l]; [reflexivity|]. unfold arithArrayOp. rewrite reals_loop. destruct (reals (x :: l)) as [[|y ys]|] eqn:E; [|cbn [fold_left fst snd Nat.ltb Nat.leb]; rewrite fold_prod; reflexivity|reflexivity].
    apply reals_length in E. discriminate E.
  - intro t. change (call W t (b_of "avg") [v]) with (OK (E := rerr) (fn_avg W v, t)). do 2 f_equal. destruct v as [| | | | | | |l| | | | |]; try reflexivity.
    cbn [snd fn_avg folded]. rewrite avg_reals. destruct (reals l) as [xs|] eqn:E; [|reflexivity]. rewrite <- (reals_length l xs E). reflexivity.
  - cbn [snd]. unfold best_in. destruct v; try nice_tac. apply nice_best.
  - intro t. change (call W t (b_of "min") [v]) with (OK (E := rerr) (fn_minmax W minArith minString [v], t)). do 2 f_equal.
    destruct v; try reflexivity. exact (min_best l).
  - cbn [snd]. unfold best_in. destruct v; try nice_tac. apply nice_best.
  - intro t. change (call W t (b_of "max") [v]) with (OK (E := rerr) (fn_minmax W maxArith maxString [v], t)). do 2 f_equal.
    destruct v; try reflexivity. exact (max_best l).
  - cbn [snd]. destruct v; try nice_tac; repeat match goal with |- context[if ?x <? 0 then _ else _] => destruct (Z.ltb_spec x 0) end; nice_tac.
  - intro t. change (call W t (b_of "abs") [v]) with (OK (E := rerr) (fn_abs v, t)). do 2 f_equal. destruct v as [| |z|z|f| | | | | | | |]; try reflexivity; cbn [snd fn_abs].
    + destruct (z <? 0); reflexivity.
    + destruct f as [[]|[]| |[]]; reflexivity.
  - cbn [snd]. destruct v; first [exact Nv|nice_tac].
  - intro t. change (call W t (b_of "ceil") [v]) with (OK (E := rerr) (fn_ceil v, t)). reflexivity.
  - cbn [snd]. destruct v; first [exact Nv|nice_tac].
  - intro t. change (call W t (b_of "floor") [v]) with (OK (E := rerr) (fn_floor v, t)). reflexivity.
  - cbn [snd]. destruct v as [| | | | |s| | | | | | |]; try exact Nv; try nice_tac. destruct (o_parse_float (w_text W) s); nice_tac.
  - intro t. change (call W t (b_of "to_number") [v]) with (OK (E := rerr) (fn_to_number W v, t)). reflexivity.
Qed.
Lemma binary_call : forall f a b, In f (map b_of ["starts_with"; "ends_with"; "contains"; "min"; "max"; "tokenize"]%string) -> nice b ->
  exists g, function_in (binary W same) f = Some g /\ f <> b_of "keys" /\ nice (g a b) /\ forall t, call W t f [a; b] = OK (g a b, t).
Proof.
  intros f a b H Nb. destruct H as [<-|[<-|[<-|[<-|[<-|[<-|[]]]]]]]; (eexists; split; [reflexivity|]; split; [discriminate|]; split);
    try (apply nice_texts; exact nice_failed).
  - intro t. change (call W t (b_of "starts_with") [a; b]) with (OK (E := rerr) (match stringArgs [a; b] with None => VErr KFailure | Some (a, b) => VBool (has_prefix a b) end, t)).
    do 2 f_equal. destruct a; try reflexivity. destruct b; try reflexivity. cbn [snd stringArgs texts]. rewrite begins_prefix. reflexivity.
  - intro t. change (call W t (b_of "ends_with") [a; b]) with (OK (E := rerr) (match stringArgs [a; b] with None => VErr KFailure | Some (a, b) => VBool (has_suffix a b) end, t)).
    do 2 f_equal. destruct a; try reflexivity. destruct b; try reflexivity. cbn [snd stringArgs texts]. rewrite begins_prefix. reflexivity.
  - assert (nice wrong) by nice_tac. cbn [snd]. destruct a; try (apply nice_texts; assumption). apply nice_bool.
  - intro t. change (call W t (b_of "contains") [a; b]) with (OK (E := rerr) (fn_contains W a b, t)). do 2 f_equal. destruct a; try reflexivity.
    + destruct b; try reflexivity. cbn [snd fn_contains texts]. rewrite occurs_in. reflexivity.
    + cbn [snd fn_contains]. f_equal. induction l as [|x l IH]; [reflexivity|]. cbn [existsb]. rewrite IH, (same_eq x b Nb). reflexivity.
  - apply nice_best.
  - intro t. change (call W t (b_of "min") [a; b]) with (OK (E := rerr) (minMaxArray W [a; b] minArith minString, t)). rewrite min_best. reflexivity.
  - apply nice_best.
  - intro t. change (call W t (b_of "max") [a; b]) with (OK (E := rerr) (minMaxArray W [a; b] maxArith maxString, t)). rewrite max_best. reflexivity.
  - assert (nice wrong) by nice_tac. cbn [snd]. destruct a; try assumption. destruct b; try assumption. destruct (o_re_ok (w_text W) s0); [|nice_tac].
    intros x Hx. inversion Hx as [|? c ? Hc Hin|]; subst; [rewrite map_length; apply HS|].
    apply in_map_iff in Hc as (z & <- & _). inversion Hin; subst. exact I.
  - intro t. change (call W t (b_of "tokenize") [a; b]) with (OK (E := rerr) (fn_tokenize W [a; b], t)). do 2 f_equal.
    destruct a; try reflexivity. destruct b; reflexivity.
Qed.
Lemma function_find : forall A (table : list (string * A)) f a, function_in table f = Some a -> exists n, In (n, a) table /\ f = b_of n.
Proof.
  intros A table f a H. unfold function_in in H. destruct (find _ table) as [[n a']|] eqn:E; [|discriminate H]. injection H as <-.
  apply find_some in E as [Hi E]. exists n. split; [exact Hi|]. cbn [fst] in E. destruct (list_eq_dec Z.eq_dec f (b_of n)); [assumption|discriminate E].
Qed.
Lemma function_none : forall A (table : list (string * A)) f n a, function_in table f = None -> In (n, a) table -> f <> b_of n.
Proof.
  intros A table f n a H Hi ->. unfold function_in in H. destruct (find _ table) eqn:E; [discriminate H|].
  pose proof (find_none _ _ E _ Hi) as N. cbn [fst] in N. destruct (list_eq_dec Z.eq_dec (b_of n) (b_of n)); [discriminate N|contradiction].
Qed.
Lemma call_known : forall f a, In (f, a) function_table -> exists fn, lookup (b_of f) functions = Some fn /\
  fn_na fn = match a with Some n => Some (Z.of_nat n) | None => None end.
Proof.
  intros f a H. unfold function_table in H. repeat (destruct H as [H|H]; [injection H as <- <-; eexists; split; reflexivity|]). destruct H.
Qed.
Lemma nice_called : forall f vs, (f = b_of "keys" -> Lone) -> Forall nice vs -> nice (called W same f vs).
Proof.
  intros f vs Hk H. destruct vs as [|a [|b [|c vs]]]; cbn [called]; try apply nice_best.
  - destruct (function_in (unary (w_text W)) f) as [g|] eqn:E; [|exact nice_failed]. destruct (function_find _ _ _ _ E) as (n & Hn & ->).
    destruct (string_dec n "keys") as [->|Nn].
    { injection E as <-. apply Forall_inv in H. destruct a; try nice_tac. destruct (H _ (WSelf _)) as [_ Hl]. specialize (Hl (Hk eq_refl)).
      intros x Hx. inversion Hx as [|? c ? Hc Hin|]; subst; [rewrite map_length; unfold max_int64; lia|].
      apply in_map_iff in Hc as (z & <- & _). inversion Hin; subst. exact I. }
    destruct (unary_call (b_of n) a) as (g' & E' & _ & N & _); [|apply (Forall_inv H)|rewrite E in E'; injection E' as <-; exact N].
    unfold unary in Hn. repeat (destruct Hn as [Hn|Hn]; [injection Hn as <- _; cbn; try contradiction; tauto|]). destruct Hn.
  - destruct (function_in (binary W same) f) as [g|] eqn:E; [|exact nice_failed]. destruct (function_find _ _ _ _ E) as (n & Hn & ->).
    destruct (binary_call (b_of n) a b) as (g' & E' & _ & N & _); [|apply (Forall_inv (Forall_inv_tail H))|rewrite E in E'; injection E' as <-; exact N].
    unfold binary in Hn. repeat (destruct Hn as [Hn|Hn]; [injection Hn as <- _; cbn; tauto|]). destruct Hn.
Qed.
Lemma call_worth : forall f vs, f <> b_of "keys" -> Forall nice vs ->
  forall t, call W t f vs = (let! v := unless (own_fault W OpCall (VName f :: vs)) (called W same f vs) in OK (v, t)).
Proof.
  intros f vs Nk H t. cbn [own_fault]. destruct (function_in function_table f) as [[n|]|] eqn:E.
  - destruct (function_find _ _ _ _ E) as (x & Hx & ->). destruct (Nat.eqb_spec (length vs) n) as [L|L].
    + cbn [unless obind]. assert (U : n = 1%nat -> exists a, vs = [a]) by (intros ->; destruct vs as [|a [|]]; try discriminate L; eauto).
      assert (B : n = 2%nat -> exists a b, vs = [a; b]) by (intros ->; destruct vs as [|a [|b [|]]]; try discriminate L; eauto).
      unfold function_table in Hx. repeat (destruct Hx as [Hx|Hx]; [first [discriminate Hx|injection Hx as <- <-]; try contradiction;
        first [destruct (U eq_refl) as (a & ->); cbn [called]; match goal with |- call _ _ ?f _ = _ => destruct (unary_call f a) as (g & -> & _ & _ & C) end; [cbn; tauto|apply (Forall_inv H)|apply C]
              |destruct (B eq_refl) as (a & b & ->); cbn [called]; match goal with |- call _ _ ?f _ = _ => destruct (binary_call f a b) as (g & -> & _ & _ & C) end; [cbn; tauto|apply (Forall_inv (Forall_inv_tail H))|apply C]]|]).
      destruct Hx.
    + cbn [unless obind]. destruct (call_known x _ Hx) as (fn & Ef & En). unfold call. rewrite Ef, En.
      destruct (Z.eqb_spec (Z.of_nat (length vs)) (Z.of_nat n)); [lia|reflexivity].
  - cbn [unless obind]. destruct (function_find _ _ _ _ E) as (x & Hx & ->). unfold function_table in Hx.
    repeat (destruct Hx as [Hx|Hx]; [first [discriminate Hx|injection Hx as <-]|]). 3: destruct Hx.
    all: destruct vs as [|a [|b [|c vs]]]; cbn [called]; try reflexivity;
      try (match goal with |- call _ _ ?f [a] = _ => destruct (unary_call f a) as (g & -> & _ & _ & C) end; [cbn; tauto|apply (Forall_inv H)|apply C]);
      try (match goal with |- call _ _ ?f [a; b] = _ => destruct (binary_call f a b) as (g & -> & _ & _ & C) end; [cbn; tauto|apply (Forall_inv (Forall_inv_tail H))|apply C]).
    + rewrite <- max_best. reflexivity.
    + rewrite <- min_best. reflexivity.
  - cbn [unless obind]. unfold call. destruct (lookup f functions) as [fn|] eqn:Ef; [|reflexivity]. exfalso.
    apply ErrorProofs.lookup_bytes in Ef. destruct (ErrorProofs.functions_table f fn Ef) as (x & a & Hx & -> & _). exact (function_none _ _ _ _ _ E Hx eq_refl).
Qed.
Lemma reorder_few : forall (W' : world) t (m : list (bytes * val)), orders_ok W' -> (length m <= 1)%nat -> reorder (w_perm W' t (length m)) m = m.
Proof.
  intros W' t m H L. specialize (H t (length m)). apply Permutation_sym in H. destruct m as [|x [|y m]]; [|apply Permutation_length_1_inv in H; rewrite H; reflexivity|cbn in L; lia].
  apply Permutation_nil in H. rewrite H. reflexivity.
Qed.
Lemma keys_worth : forall W' t vs, orders_ok W' -> Lone -> Forall nice vs ->
  value_of (call W' t (b_of "keys") vs) = unless (own_fault W OpCall (VName (b_of "keys") :: vs)) (called W same (b_of "keys") vs).
Proof.
  intros W' t vs HW' HL H. destruct vs as [|v [|b vs]].
  - reflexivity.
  - change (value_of (call W' t (b_of "keys") [v])) with (value_of (OK (E := rerr) (fn_keys W' t v))).
    change (unless _ _) with (OK (E := rerr) (match v with VObj m => VArr (map (fun kv => VStr (fst kv)) m) | _ => wrong end)).
    destruct v; try reflexivity. cbn [fn_keys value_of obind]. rewrite reorder_few; [reflexivity|exact HW'|].
    apply Forall_inv in H. exact (proj2 (H _ (WSelf _)) HL).
  - cbn [own_fault]. replace (function_in function_table (b_of "keys")) with (Some (Some 1%nat)) by reflexivity. cbn [length Nat.eqb unless].
    unfold call. replace (lookup (b_of "keys") functions) with (Some (mkFunc (Some 1) (fun W t args => with_arg args 0 (fun v => OK (fn_keys W t v))))) by reflexivity.
    cbn [fn_na length]. destruct (Z.eqb_spec (Z.of_nat (S (S (length vs)))) 1); [lia|reflexivity].
Qed.
Lemma yields_keys : forall vs, Lone -> Forall nice vs -> Z.of_nat (length vs) < 4194303 -> forall r, yields W OpCall (VName (b_of "keys") :: vs) r <->
  r = unless (own_fault W OpCall (VName (b_of "keys") :: vs)) (called W same (b_of "keys") vs).
Proof.
  intros vs HL H L r. split.
  - intro Y. apply (yields_inv W) in Y as (perm & t & Hp & ->); [|cbn; lia]. cbn [apply_op]. apply keys_worth; assumption.
  - intros ->. split; [cbn [length]; lia|]. exists (w_perm W), 0%nat, (apply_op W 0 OpCall (VName (b_of "keys") :: vs)). rewrite reordered_self.
    split; [exact HW|]. pose proof (keys_worth W 0%nat vs HW HL H) as E. split; [|symmetry; exact E].
    apply operates_apply; [cbn; lia|]. cbn [apply_op]. intro Q. rewrite Q in E. destruct (own_fault W OpCall _); discriminate E.
Qed.
Lemma simple_call : forall kids, simple (EInner OpCall kids) -> exists f l, kids = EName f :: l /\
  (f = b_of "keys" -> Lone) /\ Z.of_nat (length l) < 4194303 /\ fold_right and True (map simple l).
Proof. intros kids H. destruct kids as [|[] l]; try (destruct H; fail). eexists _, l. split; [reflexivity|exact H]. Qed.

Lemma nice_array : forall l, Z.of_nat (length l) < 4194304 -> Forall nice l -> nice (VArr l).
Proof.
  intros l L H x Hx. inversion Hx as [|? c ? Hc Hin|]; subst.
  - unfold max_int64. lia.
  - rewrite Forall_forall in H. exact (H c Hc x Hin).
Qed.
Lemma yields_array : forall vs r, Z.of_nat (length vs) < 4194304 -> (yields W OpArray vs r <-> r = OK (VArr vs)).
Proof.
  intros vs r L. split.
  - intro Y. apply (yields_inv W) in Y as (perm & t & _ & ->); [reflexivity|exact I].
  - intros ->. split; [exact L|]. exists (w_perm W), 0%nat, (OK (VArr vs, 0%nat)). rewrite reordered_self. split; [exact HW|]. split; [|reflexivity].
    change (OK (VArr vs, 0%nat)) with (apply_op W 0 OpArray vs). apply operates_apply; [exact I|discriminate].
Qed.
Lemma all_simple : forall l, fold_right and True (map simple l) -> Forall simple l.
Proof. intros l. induction l as [|e l IH]; intro H; constructor; [apply H|apply IH; apply H]. Qed.

Lemma worth_meant : forall e, simple e -> wf_expr e -> forall dot, known dot ->
  nice (worth dot e) /\ forall r, means W root dot e r <-> r = unless (fault dot e) (worth dot e).
Proof.
  induction e using expr_tree_ind; intros Hs Hw dot Hd.
  all: try (destruct Hs; fail).
  all: try (split; [try nice_tac; try (apply nice_doc; assumption); try (apply nice_plain; [reflexivity|inversion Hw; subst; match goal with K : in_int64 _ |- _ => exact (proj1 K) end])
    |apply leaf_meant; [constructor|intros w L; inversion L; reflexivity|discriminate]]; fail).
  destruct (op_eq_dec o OpCall) as [->|Nc].
  { assert (Hk : forall f kids, EInner OpCall (EName f :: kids) = EInner OpCall (EName f :: kids) -> wf_expr (EInner OpCall (EName f :: kids)) -> Forall wf_expr kids).
    { intros f ks _ Q. inversion Q; subst; try discriminate; try assumption; match goal with K : _ \/ _ |- _ => destruct K; discriminate end. }
    assert (Lf : forall f r, means W root dot (EName f) r <-> r = unless (fault dot (EName f)) (worth dot (EName f))).
    { intro f. apply leaf_meant; [constructor|intros w L; inversion L; reflexivity|discriminate]. }
    destruct (simple_call _ Hs) as (f & l & -> & Nk & L & Hl). specialize (Hk f _ eq_refl Hw). apply Forall_inv_tail in H. apply all_simple in Hl.
    assert (K : Forall (fun e => nice (worth dot e) /\ forall r, means W root dot e r <-> r = unless (fault dot e) (worth dot e)) l).
    { clear Hw L Hs. induction l as [|e l IH]; constructor.
      - apply (Forall_inv H); [apply (Forall_inv Hl)|apply (Forall_inv Hk)|exact Hd].
      - apply IH; [apply (Forall_inv_tail H)|apply (Forall_inv_tail Hk)|apply (Forall_inv_tail Hl)]. }
    assert (Nl : Forall nice (map (worth dot) l)) by (clear - K; induction K as [|? ? [? ?]]; constructor; auto).
    change (worth dot (EInner OpCall (EName f :: l))) with (called W same f (map (worth dot) l)). split; [apply nice_called; [exact Nk|exact Nl]|].
    apply meant; [constructor; [apply Lf|clear - K; induction K as [|? ? [? ?]]; constructor; auto]|].
    change (map (worth dot) (EName f :: l)) with (VName f :: map (worth dot) l).
    destruct (list_eq_dec Z.eq_dec f (b_of "keys")) as [->|Nk'].
    { apply yields_keys; [exact (Nk eq_refl)|exact Nl|rewrite map_length; exact L]. }
    apply yields_is; [cbn; lia|cbn [length]; rewrite map_length; lia|intros args _ Q; injection Q as -> _; contradiction|destruct (own_fault _ _ _); discriminate|].
    cbn [apply_op]. rewrite (call_worth f _ Nk' Nl 0%nat). destruct (own_fault _ _ _); reflexivity. }
  destruct (op_eq_dec o OpArray) as [->|Na].
  { destruct Hs as [L Hs]. apply all_simple in Hs. assert (Hk : Forall wf_expr kids).
    { inversion Hw; subst; try discriminate; try assumption; match goal with K : _ \/ _ |- _ => destruct K; discriminate end. }
    assert (K : Forall (fun e => nice (worth dot e) /\ forall r, means W root dot e r <-> r = unless (fault dot e) (worth dot e)) kids).
    { clear Hw L. induction kids as [|e kids IH]; constructor.
      - apply (Forall_inv H); [apply (Forall_inv Hs)|apply (Forall_inv Hk)|exact Hd].
      - apply IH; [apply (Forall_inv_tail H)|apply (Forall_inv_tail Hs)|apply (Forall_inv_tail Hk)]. }
    assert (L' : Z.of_nat (length (map (worth dot) kids)) < 4194304) by (rewrite map_length; exact L).
    change (SpecFetch.worth W same name root dot (EInner OpArray kids)) with (VArr (map (worth dot) kids)).
    split; [apply nice_array; [exact L'|]; clear - K; induction K as [|? ? [? ?]]; constructor; auto|].
    apply meant; [clear - K; induction K as [|? ? [? ?]]; constructor; auto|intro r; apply yields_array; exact L']. }
  destruct kids as [|x [|y [|z kids]]]; try (destruct o; try congruence; destruct Hs; fail).
  - assert (E : o = OpNot \/ o = OpNeg) by (destruct o; try congruence; try destruct Hs; auto). apply Forall_inv in H. destruct E as [-> | ->].
    2:{ (* - *) inversion Hw; subst; try discriminate. destruct (H Hs ltac:(assumption) dot Hd) as [Nx Mx]. cbn [SpecFetch.worth].
        split; [apply nice_negative|]. apply meant; [repeat (constructor; auto)|]. intro r. rewrite <- (neg_worth W). apply yields_neg. }
    (* ! *)
    inversion Hw; subst; try discriminate. destruct (H Hs ltac:(assumption) dot Hd) as [Nx Mx]. cbn [SpecFetch.worth].
    split; [apply nice_bool|]. apply meant; [repeat (constructor; auto)|]. intro r. rewrite truth_cvb. apply yields_not. exact HW.
  - inversion H as [|? ? IHx H']; subst. inversion H' as [|? ? IHy _]; subst. clear H H'.
    destruct (op_eq_dec o OpDot) as [->|Nd].
    { destruct y; try (destruct Hs; fail). assert (Hwx : wf_expr x) by (inversion Hw; subst; [discriminate|assumption]).
      destruct (IHx Hs Hwx dot Hd) as [Nx Mx]. cbn [SpecFetch.worth].
      split; [destruct (list_eq_dec _ _ _); [apply nice_size|apply found_nice; exact Nx]|].
      apply two_meant; [exact Mx|apply leaf_meant; [constructor|intros w L; inversion L; reflexivity|discriminate]|].
      intro r. apply yields_dot. cbn [binop SpecFetch.worth]. rewrite dot_worth by exact Nx. reflexivity. }
    assert (Hwxy : wf_expr x /\ wf_expr y) by (inversion Hw; subst; try congruence; try (destruct Hs; fail); auto).
    destruct Hwxy as [Hwx Hwy].
    destruct (op_eq_dec o OpIndex) as [->|Ni].
    { destruct Hs as [Hx Hy]. destruct (IHx Hx Hwx dot Hd) as [Nx Mx]. destruct (IHy Hy Hwy dot Hd) as [Ny My].
      change (worth dot (EInner OpIndex [x; y])) with (element_at name (worth dot x) (worth dot y)). split; [apply nice_element; exact Nx|].
      apply two_meant; [exact Mx|exact My|]. intro r. apply yields_bin; [exact HW|reflexivity|]. cbn [binop]. rewrite element_worth by assumption. reflexivity. }
    assert (Hsxy : simple x /\ simple y) by (destruct o; try destruct Hs; try congruence; auto).
    destruct (IHx (proj1 Hsxy) Hwx dot Hd) as [Nx Mx]. destruct (IHy (proj2 Hsxy) Hwy dot Hd) as [Ny My].
    destruct o; try (destruct Hs; fail); try congruence; cbn [SpecFetch.worth].
    all: try (split; [destruct (_ && _); [apply nice_bool|exact nice_failed]|];
      eapply pair_meant; [reflexivity|exact Mx|exact My| |reflexivity]; rewrite binop_rel by (cbn; tauto); rewrite relation_order by (cbn; tauto); reflexivity).
    all: try (split; [apply nice_bool|]; eapply pair_meant; [reflexivity|exact Mx|exact My| |reflexivity]; rewrite same_eq by exact Ny; reflexivity).
    all: try (split; [apply nice_sum; exact Nx|]; eapply pair_meant; [reflexivity|exact Mx|exact My| |reflexivity]; apply arith_worth; cbn; tauto).
    all: try (split; [destruct (_ && _); [apply nice_bool|exact nice_failed]|]; apply two_meant; [exact Mx|exact My|]; first [exact (yields_in true _ _ Nx)|exact (yields_in false _ _ Nx)]).
    + (* && *) split; [destruct (truth _ _); assumption|]. eapply pair_meant; [reflexivity|exact Mx|exact My| |reflexivity]. cbn [binop]. do 2 f_equal.
      rewrite op_and_eq, truth_cvb. reflexivity.
    + (* || *) split; [destruct (truth _ _); [assumption|]; destruct (_ || _); [assumption|exact nice_failed]|].
      eapply pair_meant; [reflexivity|exact Mx|exact My| |reflexivity]. cbn [binop]. do 2 f_equal.
      rewrite op_or_eq, truth_cvb. destruct (cvb W (worth dot x)); [reflexivity|]. destruct (worth dot x), (worth dot y); reflexivity.
    + (* ~ *) split; [destruct (worth dot x); try exact nice_failed; destruct (worth dot y); first [exact nice_failed|apply nice_bool]|].
      apply two_meant; [exact Mx|exact My|]. apply yields_match.
  - exfalso. destruct o; try congruence; try (destruct Hs; fail); destruct y as [| | | | | | | | |oy l]; try (destruct Hs; fail); destruct oy; destruct Hs.
Qed.

(** ** Scripts *)

Lemma acts_script : forall back v o, nice v -> (acts_as W back v o <-> o = match script name v with a :: _ => Some (sel_for back a) | [] => None end).
Proof.
  intros back v o H. pose proof (H _ (WSelf _)) as Hv. cbn in Hv. split.
  - intro A. destruct A as [v [k ->]|z|z|v k Hi Hk]; try reflexivity.
    pose proof (Hname v k Hk) as E. destruct Hk; try discriminate Hi; cbn; rewrite E; reflexivity.
  - intros ->. destruct v; try (exfalso; exact Hv); cbn [script sel_for]; try (apply AaInt || apply AaInt64); try (apply AaFailure; eexists; reflexivity);
      (apply AaName; [reflexivity|]);
      match goal with |- named _ ?x _ => pose proof (IndexProofs.mapKey_named W x) as K end;
      (lapply K; [clear K; intro K|intros [? Q]; discriminate Q]); (lapply K; [clear K; intro K|intros ? Q; discriminate Q]);
      rewrite (Hname _ _ K); exact K.
Qed.
Lemma script_args : forall dot back e r, simple e -> wf_expr e -> known dot ->
  (args_mean W root dot back [PExpr e] r <-> r = unless (fault dot e) (map (sel_for back) (script name (worth dot e)))).
Proof.
  intros dot back e r Hs Hw Hd. destruct (worth_meant e Hs Hw dot Hd) as [N M].
  assert (L : map (sel_for back) (script name (worth dot e)) =
    flat_map (fun o => match o with Some s => [s] | None => [] end) [match script name (worth dot e) with a :: _ => Some (sel_for back a) | [] => None end]).
  { destruct (worth dot e); reflexivity. }
  split.
  - intro H. inversion H as [args os F|pre a post os err F Ha]; subst.
    + inversion F as [|? o ? ? Ho F']; subst. inversion F'; subst. inversion Ho as [| | | |? v ? Hm A|]; subst. apply M in Hm. destruct (fault dot e); [discriminate Hm|]. injection Hm as ->.
      apply (acts_script back _ o N) in A. subst o. rewrite L. reflexivity.
    + destruct pre as [|x pre]; [|destruct pre; discriminate]. match goal with K : [] ++ _ = _ |- _ => injection K as -> -> end.
      inversion Ha; subst. match goal with K : means _ _ _ _ _ |- _ => apply M in K; destruct (fault dot e) as [f|]; [injection K as ->; reflexivity|discriminate K] end.
  - intros ->. destruct (fault dot e) as [f|] eqn:Ef; cbn [unless] in *.
    { apply (AsError W root dot back [] (PExpr e) [] [] f); [constructor|]. apply AmError. apply M. reflexivity. }
    rewrite L. apply AsOK. constructor; [|constructor]. eapply AmExpr; [apply M; reflexivity|]. apply acts_script; [exact N|reflexivity].
Qed.
End meaning.
End keyed.
