(** Proofs about == for all values (C68). *)
From Coq Require Import Lia.
From Verif Require Import Syntax Value SpecTokens SpecGrammar SpecDoc SpecSelect SpecExpr SpecSem SpecIndex SpecOp SpecEq SpecLoose.
From Verif Require Import SelectProofs IndexProofs LogicProofs DocProofs SelectProofs EqProofs.
Local Open Scope Z_scope.

Lemma real_cvf : forall W v f, real W v f -> cvf W v = f.
Proof.
  intros W v f H. destruct H as [v f H| |v s f [[-> Hs] | ->] H].
  - destruct H as [f|v z H]; [reflexivity|]. destruct H; reflexivity.
  - reflexivity.
  - cbn [cvf]. unfold parse_float. rewrite H. destruct s; [congruence|reflexivity].
  - cbn [cvf]. unfold parse_float. rewrite H. reflexivity.
Qed.
Lemma cvf_real : forall W v, real W v (cvf W v) \/ cvf W v = S754_nan.
Proof.
  intros W v. destruct v as [|b|z|z|f|s|s|l|m|s|s|p|k]; try (right; reflexivity); try (left; apply RlNumber; constructor; fail).
  - left. apply RlNumber. destruct b; [exact (FoInt _ _ IoTrue)|exact (FoInt _ _ IoFalse)].
  - left. apply RlNumber. exact (FoInt _ _ (IoInt z)).
  - left. apply RlNumber. exact (FoInt _ _ (IoInt64 z)).
  - destruct s as [|c s]; [left; exact (RlEmpty W)|]. cbn [cvf]. unfold parse_float.
    destruct (o_parse_float (w_text W) (c :: s)) as [f|] eqn:E; [left|right; reflexivity].
    eapply RlText; [left; split; [reflexivity|discriminate]|exact E].
  - cbn [cvf]. unfold parse_float.
    destruct (o_parse_float (w_text W) s) as [f|] eqn:E; [left|right; reflexivity].
    eapply RlText; [right; reflexivity|exact E].
Qed.
Lemma float_dec : forall v, isFloat v = true <-> is_float v.
Proof. intros v. unfold is_float. destruct v; cbn; split; intro H; try discriminate H; try (destruct H; discriminate); eauto. Qed.
Lemma eqNum_amount : forall W a b, eqNum W a b = true <-> same_amount W a b.
Proof.
  intros W a b. destruct (isFloat a || isFloat b) eqn:F.
  - rewrite (eqNum_float W a b F), f_eqb_eq. apply orb_true_iff in F. rewrite !float_dec in F. split.
    + intro H. destruct (cvf_real W a) as [Ra|Ra]; [|rewrite Ra in H; apply f_eq_nan in H; destruct H].
      destruct (cvf_real W b) as [Rb|Rb]; [|rewrite Rb in H; apply f_eq_nan in H; destruct H].
      exact (SaReal W a b _ _ F Ra Rb H).
    + intros [x y _ Ra Rb H|n Na Nb _ _]; [|tauto]. apply real_cvf in Ra, Rb. congruence.
  - unfold eqNum. rewrite F, Z.eqb_eq. apply orb_false_iff in F as [Fa Fb].
    assert (Na : ~ is_float a) by (rewrite <- float_dec; congruence).
    assert (Nb : ~ is_float b) by (rewrite <- float_dec; congruence). split.
    + intro H. apply (SaWhole W a b (cvi W a) Na Nb); [apply cvi_integral|rewrite H; apply cvi_integral].
    + intros [x y [H|H] _ _ _|n _ _ Ia Ib]; [tauto|tauto|].
      transitivity n; [|symmetry]; eapply integral_fun; eauto using cvi_integral.
Qed.
Lemma cvs_worded : forall W v s, cvs W v = s <-> worded W v s.
Proof.
  intros W v s. split.
  - intros <-. destruct v; cbn [cvs]; try constructor; unfold structure; eauto.
    1: destruct b; constructor.
    all: rewrite sprint_int_decimal; apply WdInt; auto.
  - intros H. destruct H as [| | | | | |v z [-> | ->]| |v [[[l ->]|[m ->]]|[[s ->]|[[s ->]|[p ->]]]]]; cbn [cvs]; try reflexivity;
    apply sprint_int_decimal.
Qed.

(** texts *)
Lemma int_text_parse : forall s n, int_text s n <-> parse_int s = Some n.
Proof. intros s n. symmetry. apply parse_int_spec. Qed.
Lemma badNum_numeral : forall W s, badNum W s false = false <-> numeral W s.
Proof.
  intros W s. unfold numeral. destruct s as [|c s]; [split; [auto|reflexivity]|].
  unfold badNum, parse_float. cbn [negb andb]. destruct (parse_int (c :: s)) as [n|] eqn:E.
  - split; [intros _|reflexivity]. right; left. exists n. apply int_text_parse, E.
  - destruct (o_parse_float (w_text W) (c :: s)) as [f|]; split; intro H; try reflexivity; try discriminate H.
    + right; right. eauto.
    + destruct H as [H|[[n H]|[f H]]]; [discriminate H| |discriminate H]. apply int_text_parse in H. congruence.
Qed.
Lemma badNum_float : forall W s f, badNum W s true = true -> ~ real W (VStr s) f.
Proof.
  intros W s f H R. unfold badNum, parse_float in H. inversion R; subst.
  - match goal with H : float_of _ _ |- _ => inversion H; subst end. match goal with H : int_of _ _ |- _ => inversion H end.
  - discriminate H.
  - match goal with H : _ \/ _ |- _ => destruct H as [[E Hs]|E]; [injection E as <-|discriminate E] end.
    destruct s; [discriminate H|]. cbn [negb andb] in H.
    match goal with H : o_parse_float _ _ = _ |- _ => rewrite H in * end. discriminate.
Qed.
Lemma good_real : forall W s, badNum W s true = false -> real W (VStr s) (cvf W (VStr s)).
Proof.
  intros W s H. destruct s as [|c s]; [exact (RlEmpty W)|]. unfold badNum, parse_float in H. cbn [negb andb] in H. cbn [cvf]. unfold parse_float.
  destruct (o_parse_float (w_text W) (c :: s)) as [f|] eqn:E; [|discriminate H]. eapply RlText; [left; split; [reflexivity|discriminate]|exact E].
Qed.
Lemma amount_sym : forall W a b, same_amount W a b -> same_amount W b a.
Proof.
  intros W a b [x y F A B E|n A B C D]; [apply (SaReal W b a y x); [tauto|exact B|exact A|apply f_eq_sym, E]|apply (SaWhole W b a n); assumption].
Qed.
Definition num_text (W : world) (a : val) (s : bytes) : bool := if badNum W s (isFloat a) then false else eqNum W a (VStr s).
Lemma num_text_ok : forall W a s, is_number a -> (num_text W a s = true <-> numeral W s /\ same_amount W a (VStr s)).
Proof.
  intros W a s N. unfold num_text. destruct (isFloat a) eqn:F.
  - assert (Fa : is_float a) by (apply float_dec; exact F). destruct (badNum W s true) eqn:B.
    + split; [discriminate|]. intros [_ [x y _ _ R _|n Na _ _ _]]; [|tauto]. destruct (badNum_float W s y B R).
    + rewrite eqNum_amount. split; [|tauto]. intros H. split; [|exact H].
      pose proof (good_real W s B) as R. inversion R; subst; unfold numeral; auto.
      * match goal with H : float_of _ _ |- _ => inversion H; subst end. match goal with H : int_of _ _ |- _ => inversion H end.
      * match goal with H : _ \/ _ |- _ => destruct H as [[E Hs]|E]; [injection E as <-|discriminate E] end. right; right; eauto.
  - destruct (badNum W s false) eqn:B.
    + split; [discriminate|]. intros [H _]. apply badNum_numeral in H. congruence.
    + rewrite eqNum_amount. apply badNum_numeral in B. tauto.
Qed.
Definition bool_text (W : world) (x : bool) (s : bytes) : bool := if badNum W s true then false else f_eqb (cvf W (VBool x)) (cvf W (VStr s)).
Lemma nearest_bits : forall W x, cvf W (VBool x) = nearest (one_or_zero x).
Proof. intros W [|]; reflexivity. Qed.
Lemma bool_text_ok : forall W x s, bool_text W x s = true <-> exists f, real W (VStr s) f /\ f_eq f (nearest (one_or_zero x)).
Proof.
  intros W x s. unfold bool_text. destruct (badNum W s true) eqn:B.
  - split; [discriminate|]. intros (f & R & _). destruct (badNum_float W s f B R).
  - rewrite f_eqb_eq, nearest_bits. split.
    + intros H. exists (cvf W (VStr s)). split; [apply good_real, B|apply f_eq_sym, H].
    + intros (f & R & E). rewrite (real_cvf W _ f R). apply f_eq_sym, E.
Qed.
Lemma whole_bit : forall W v x, cvi W v = one_or_zero x <-> integral W v (one_or_zero x).
Proof.
  intros W v x. split; [intros <-; apply cvi_integral|]. intros H. eapply integral_fun; [apply cvi_integral|exact H].
Qed.

(** a value of one kind beside one of another, in the order of [mixed] *)
Lemma mixed_array : forall W l b, mixed W (VArr l) b <->
  match b with
  | VBool x => eqArrayB W (VArr l) (one_or_zero x) = true
  | VStr s => eqArrayS W l s = true
  | VInt _ | VInt64 _ | VFloat _ => eqArrayN W l b = true
  | _ => False
  end.
Proof.
  intros W l b. split.
  - intros H. inversion H; subst;
      try match goal with H : is_number (VArr _) |- _ => destruct H end.
    + reflexivity.
    + cbn [eqArrayB]. apply Z.eqb_eq, whole_bit. assumption.
    + reflexivity.
    + cbn [eqArrayS]. apply beqb_eq, cvs_worded. assumption.
    + assert (R : eqArrayN W [] b = true).
      { cbn [eqArrayN]. apply eqNum_amount. eapply SaReal; [right; exists f_zero; reflexivity|apply RlNumber; eassumption|apply RlNumber; constructor|assumption]. }
      destruct b; try match goal with H : is_number _ |- _ => destruct H end; exact R.
    + assert (R : eqArrayN W [v] b = true) by (cbn [eqArrayN]; apply eqNum_amount; assumption).
      destruct b; try match goal with H : is_number _ |- _ => destruct H end; exact R.
  - assert (N : is_number b -> eqArrayN W l b = true -> mixed W (VArr l) b).
    { intros Nb H. destruct l as [|v [|w l]]; cbn [eqArrayN] in H; [|apply MxOneNum; [exact Nb|apply eqNum_amount, H]|discriminate H].
      apply eqNum_amount in H. destruct H as [x y _ A B E|n _ F _ _]; [|destruct F; eexists; reflexivity].
      apply real_cvf in B. cbn [cvf] in B. subst y.
      assert (Hx : float_of b x).
      { apply real_cvf in A. destruct b; try destruct Nb; cbn [cvf] in A; subst x; [exact (FoInt _ _ (IoInt z))|exact (FoInt _ _ (IoInt64 z))|constructor]. }
      eapply MxEmptyNum; eassumption. }
    destruct b; intros H; try contradiction; try (apply N; [exact I|exact H]).
    + destruct l as [|v [|w l]]; cbn [eqArrayB] in H; [|apply MxOneBool; apply Z.eqb_eq in H; apply whole_bit, H|discriminate H].
      destruct b; [discriminate H|apply MxEmptyBool].
    + destruct l as [|v [|w l]]; cbn [eqArrayS] in H; [|apply MxOneText; apply beqb_eq in H; apply cvs_worded, H|discriminate H].
      apply beqb_eq in H. subst s. apply MxEmptyText.
Qed.
Lemma mixed_bool : forall W x b, mixed W (VBool x) b <->
  match b with
  | VStr s => bool_text W x s = true
  | VInt _ | VInt64 _ | VFloat _ => eqNum W (VBool x) b = true
  | _ => False
  end.
Proof.
  intros W x b. split.
  - intros H. inversion H; subst; try match goal with H : is_number (VBool _) |- _ => destruct H end.
    + destruct b; try match goal with H : is_number _ |- _ => destruct H end; apply eqNum_amount; assumption.
    + apply bool_text_ok. eauto.
  - intros H. destruct b; try contradiction; try (apply MxBoolNum; [exact I|apply eqNum_amount, H]).
    apply bool_text_ok in H as (f & R & E). eapply MxBoolText; eassumption.
Qed.
Lemma mixed_num : forall W a b, is_number a -> (mixed W a b <-> match b with VStr s => num_text W a s = true | _ => False end).
Proof.
  intros W a b N. split.
  - intros H. inversion H; subst; try (destruct N; fail). apply num_text_ok; auto.
  - intros H. destruct b; try contradiction. apply num_text_ok in H as [H H']; [|exact N]. apply MxNumText; assumption.
Qed.
Lemma mixed_left : forall W a b, mixed W a b -> is_number a \/ (exists x, a = VBool x) \/ exists l, a = VArr l.
Proof. intros W a b H. inversion H; subst; eauto. Qed.

(** values that are not both structures *)
Lemma eqNum_bool : forall W x b, is_number b -> eqNum W b (VBool x) = eqNum W (VBool x) b.
Proof. intros W x b _. apply eqNum_sym. Qed.
Lemma loose_flat : forall W a b, ~ (structure a /\ structure b) -> (loose W a b <->
  (nullish a /\ nullish b) \/ (is_number a /\ is_number b /\ same_amount W a b) \/ (exists s, a = VStr s /\ b = VStr s) \/
  (exists x, a = VBool x /\ b = VBool x) \/ mixed W a b \/ mixed W b a).
Proof.
  intros W a b N. split.
  - intros H. destruct H; auto 6; [right; right; left; eauto|right; right; right; left; eauto| |]; destruct N; split; unfold structure; eauto.
  - intros [[H H']|[(H & H' & E)|[(s & -> & ->)|[(x & -> & ->)|[H|H]]]]];
    [apply LsNullish|apply LsNumbers|apply LsStrings|apply LsBools|apply LsMixed|apply LsMixedBack]; assumption.
Qed.
Definition plain_eq (W : world) (a b : val) : bool :=
  match a, b with
  | (VNil | VErr _), (VNil | VErr _) => true
  | VStr s, VStr t => beqb s t
  | VBool x, VBool y => Bool.eqb x y
  | (VInt _ | VInt64 _ | VFloat _), (VInt _ | VInt64 _ | VFloat _) => eqNum W a b
  | (VInt _ | VInt64 _ | VFloat _), VStr s => num_text W a s
  | VStr s, (VInt _ | VInt64 _ | VFloat _) => num_text W b s
  | (VInt _ | VInt64 _ | VFloat _), VBool _ => eqNum W b a
  | VBool _, (VInt _ | VInt64 _ | VFloat _) => eqNum W a b
  | VBool x, VStr s => bool_text W x s
  | VStr s, VBool x => bool_text W x s
  | VArr l, VBool x => eqArrayB W a (one_or_zero x)
  | VBool x, VArr l => eqArrayB W b (one_or_zero x)
  | VArr l, VStr s => eqArrayS W l s
  | VStr s, VArr l => eqArrayS W l s
  | VArr l, (VInt _ | VInt64 _ | VFloat _) => eqArrayN W l b
  | (VInt _ | VInt64 _ | VFloat _), VArr l => eqArrayN W l a
  | _, _ => false
  end.
Lemma eqVal_plain : forall W a b, ~ (structure a /\ structure b) -> eqVal W a b = plain_eq W a b.
Proof.
  intros W a b N. destruct a; destruct b; try reflexivity;
    try (exfalso; apply N; split; unfold structure; eauto; fail);
    cbn -[eqNum num_text bool_text]; unfold num_text, bool_text; cbn [isFloat]; try reflexivity.
  all: try (rewrite (eqNum_sym W _ (VStr _)); reflexivity).
  all: try (apply eqNum_sym).
  all: try (destruct (badNum _ _ _); [reflexivity|]; first [apply f_eqb_sym|apply eqNum_sym]).
Qed.
Lemma nullish_kind : forall v, nullish v <-> match v with VNil | VErr _ => True | _ => False end.
Proof.
  intros v. unfold nullish, failure. destruct v; split; intros H; try contradiction; try (destruct H as [H|[? H]]; discriminate H); auto.
  right. eexists. reflexivity.
Qed.
Lemma mixed_plain : forall W a b, mixed W a b -> plain_eq W a b = true /\ plain_eq W b a = true.
Proof.
  intros W a b H. destruct (mixed_left W a b H) as [N|[[x ->]|[l ->]]].
  - apply (mixed_num W a b N) in H. destruct b; try contradiction. destruct a; try destruct N; split; exact H.
  - apply mixed_bool in H. destruct b; try contradiction; split; exact H.
  - apply mixed_array in H. destruct b; try contradiction; split; exact H.
Qed.
Lemma plain_loose : forall W a b, ~ (structure a /\ structure b) -> (eqVal W a b = true <-> loose W a b).
Proof.
  intros W a b N. rewrite (eqVal_plain W a b N). split.
  - destruct a; destruct b; cbn [plain_eq]; intros H; try discriminate H;
      try (apply LsNullish; apply nullish_kind; exact I);
      try (apply LsNumbers; [exact I|exact I|apply eqNum_amount, H]);
      try (apply LsMixed; apply mixed_array; exact H);
      try (apply LsMixedBack; apply mixed_array; exact H);
      try (apply LsMixed; apply mixed_bool; exact H);
      try (apply LsMixedBack; apply mixed_bool; exact H);
      try (apply LsMixed; apply mixed_num; [exact I|exact H]);
      try (apply LsMixedBack; apply mixed_num; [exact I|exact H]).
    + apply Bool.eqb_prop in H. subst. apply LsBools.
    + apply beqb_eq in H. subst. apply LsStrings.
  - intros H. apply (loose_flat W a b N) in H as [[H H']|[(H & H' & E)|[(s & -> & ->)|[(x & -> & ->)|[H|H]]]]].
    + apply nullish_kind in H, H'. destruct a; try contradiction; destruct b; try contradiction; reflexivity.
    + apply eqNum_amount in E. destruct a; try contradiction; destruct b; try contradiction; exact E.
    + cbn [plain_eq]. apply beqb_eq. reflexivity.
    + apply Bool.eqb_reflx.
    + exact (proj1 (mixed_plain W a b H)).
    + exact (proj2 (mixed_plain W b a H)).
Qed.

Lemma loose_arrays : forall W l l', loose W (VArr l) (VArr l') <-> Forall2 (loose W) l l'.
Proof.
  intros W l l'. split; [|apply LsArrays]. intros H. inversion H; subst; try assumption;
    repeat match goal with
    | H : nullish (VArr _) |- _ => apply nullish_kind in H; destruct H
    | H : is_number (VArr _) |- _ => destruct H
    | H : mixed _ (VArr _) (VArr _) |- _ => apply mixed_array in H; destruct H
    end.
Qed.
Lemma loose_objects : forall W m m', loose W (VObj m) (VObj m') <-> length m = length m' /\
  (forall k v, In (k, v) m -> (forall w, In (k, w) m' -> loose W v w) /\ (~ In k (map fst m') -> nullish v)).
Proof.
  intros W m m'. split; [|intros [? ?]; apply LsObjects; assumption]. intros H. inversion H; subst; auto;
    repeat match goal with
    | H : nullish (VObj _) |- _ => apply nullish_kind in H; destruct H
    | H : is_number (VObj _) |- _ => destruct H
    | H : mixed _ (VObj _) (VObj _) |- _ => apply mixed_left in H as [[]|[[? H]|[? H]]]; discriminate H
    end.
Qed.
Lemma loose_array_object : forall W l m, ~ loose W (VArr l) (VObj m) /\ ~ loose W (VObj m) (VArr l).
Proof.
  intros W l m. split; intros H; inversion H; subst;
    repeat match goal with
    | H : nullish (VObj _) |- _ => apply nullish_kind in H; destruct H
    | H : is_number (VObj _) |- _ => destruct H
    | H : mixed _ (VObj _) _ |- _ => apply mixed_left in H as [[]|[[? H]|[? H]]]; discriminate H
    | H : mixed _ (VArr _) (VObj _) |- _ => apply mixed_array in H; destruct H
    end.
Qed.

Theorem eq_loose : forall W a b, (forall x, within x b -> distinct_names x) -> (eqVal W a b = true <-> loose W a b).
Proof.
  intros W a.
  induction a as [|x0|x0|x0|x0|s0|s0|l IH|m IH|s0|s0|s0|k0] using val_tree_ind; intros b D;
    try (apply plain_loose; intros [[[? S]|[? S]] _]; discriminate S).
  - destruct b as [|y|y|y|y|t|t|l'|m'|t|t|t|k];
      try (apply plain_loose; intros [_ [[? S]|[? S]]]; discriminate S).
    + rewrite eqVal_arr, loose_arrays. apply Forall2_iff. intros i x y Hx Hy.
      rewrite Forall_forall in IH. apply IH; [eapply nth_error_In; exact Hx|].
      intros z Hz. apply D. eapply WElem; [eapply nth_error_In; exact Hy|exact Hz].
    + split; [discriminate|]. intros K. destruct (proj1 (loose_array_object W l m') K).
  - destruct b as [|y|y|y|y|t|t|l'|m'|t|t|t|k];
      try (apply plain_loose; intros [_ [[? S]|[? S]]]; discriminate S).
    + split; [discriminate|]. intros K. destruct (proj2 (loose_array_object W l' m) K).
    + rewrite Forall_forall in IH. assert (N : NoDup (map fst m')) by (exact (D (VObj m') (WSelf _) m' eq_refl)).
      rewrite eqVal_obj, loose_objects. split; intros [L H]; (split; [exact L|]); intros k v Hv.
      * specialize (H k v Hv). split.
        -- intros w Hw. rewrite (in_lookup _ k m' w N Hw) in H. apply (IH (k, v) Hv); [|exact H].
           intros z Hz. apply D. eapply WMember; [exact Hw|exact Hz].
        -- intros Hk. destruct (lookup k m') as [w|] eqn:El; [|apply (eqVal_nil W), H]. exfalso. apply Hk.
           apply SelectProofs.lookup_some in El. apply in_map_iff. exists (k, w). auto.
      * destruct (H k v Hv) as [H1 H2]. destruct (lookup k m') as [w|] eqn:El.
        -- apply SelectProofs.lookup_some in El. apply (IH (k, v) Hv); [|apply H1, El].
           intros z Hz. apply D. eapply WMember; [exact El|exact Hz].
        -- assert (Q : nullish v).
           { apply H2. intros Hk. apply in_map_iff in Hk as ([k' w] & E & Hw). cbn in E. subst k'.
             rewrite (in_lookup _ k m' w N Hw) in El. discriminate El. }
           apply nullish_kind in Q. destruct v; try contradiction; reflexivity.
Qed.
Lemma loose_computes : forall W a b, (forall x, within x b -> distinct_names x) ->
  exists r, computes W OpEQ [a; b] (VBool r) /\ computes W OpNE [a; b] (VBool (negb r)) /\ (r = true <-> loose W a b).
Proof.
  intros W a b D. exists (eqVal W a b). split; [apply eq_computes|]. split; [apply ne_negates, eq_computes|]. apply eq_loose, D.
Qed.
