(** Every value an expression computes is one a Go value can be: integers do not fall below
    the int64 range, floats are binary64 numbers, and no value is a slice. *)
From Verif Require Import SpecSyntax Machine Eval ProgramProofs CoderProofs SpecDoc DocProofs SpecExpr FloatProofs
  ArithProofs SpecCode MachineProofs ExprProofs.
Local Open Scope Z_scope.

(** ** Valid doubles *)
Lemma fx_mono : forall a b, a <= b -> fexp 53 1024 a <= fexp 53 1024 b.
Proof. intros. rewrite !fx_eq. lia. Qed.

Lemma opp_good : forall x, double x -> double (SFopp x).
Proof. intros [s|s| |s m e] H; exact H. Qed.

Lemma opp_good_inv : forall x, double (SFopp x) -> double x.
Proof. intros [s|s| |s m e] H; exact H. Qed.

Lemma add_good : forall x y, double x -> double y -> double (f_add x y).
Proof.
  intros x y Hx Hy. unfold f_add, f_prec, f_emax. destruct x as [s|s| |s m e], y as [s'|s'| |s' m' e']; cbn [SFadd];
    try exact Hx; try exact Hy; try reflexivity; try (destruct (Bool.eqb s s'); reflexivity).
  apply normalize_good.
Qed.

Lemma sub_good : forall x y, double x -> double y -> double (f_sub x y).
Proof.
  intros x y Hx Hy. unfold f_sub, f_prec, f_emax. destruct x as [s|s| |s m e], y as [s'|s'| |s' m' e']; cbn [SFsub];
    try exact Hx; try exact Hy; try reflexivity; try (destruct (Bool.eqb s (negb s')); reflexivity).
  apply normalize_good.
Qed.

Lemma digits_mul : forall p q, Z.pos (digits2_pos p) + Z.pos (digits2_pos q) - 1 <= Z.pos (digits2_pos (p * q)).
Proof.
  intros p q. pose proof (digits_bounds p) as [A _]. pose proof (digits_bounds q) as [B _].
  pose proof (digits_bounds (p * q)) as [_ C]. rewrite Pos2Z.inj_mul in C.
  apply Z.nlt_ge. intro H.
  assert (2 ^ Z.pos (digits2_pos (p * q)) <= 2 ^ (Z.pos (digits2_pos p) - 1 + (Z.pos (digits2_pos q) - 1))).
  { apply Z.pow_le_mono_r; lia. }
  rewrite Z.pow_add_r in H0 by lia.
  assert (2 ^ (Z.pos (digits2_pos p) - 1) * 2 ^ (Z.pos (digits2_pos q) - 1) <= Z.pos p * Z.pos q).
  { apply Z.mul_le_mono_nonneg; auto; apply Z.pow_nonneg; lia. }
  lia.
Qed.

Lemma mul_good : forall x y, double x -> double y -> double (f_mul x y).
Proof.
  intros x y Hx Hy. unfold f_mul, f_prec, f_emax. destruct x as [s|s| |s m e], y as [s'|s'| |s' m' e']; cbn [SFmul];
    try reflexivity.
  apply good_finite in Hx as [Hx1 Hx2]. apply good_finite in Hy as [Hy1 Hy2].
  apply round_aux_good; [|lia]. cbn [Zdigits2]. rewrite fx_eq in *.
  pose proof (digits_mul m m'). lia.
Qed.

Lemma digits_div : forall a b, 0 < b -> 0 <= a ->
  Zdigits2 a - Zdigits2 b <= Zdigits2 (a / b).
Proof.
  intros a b Hb Ha. destruct (Z.ltb_spec a b) as [Hab|Hab].
  - rewrite Z.div_small by lia. cbn [Zdigits2].
    destruct a as [|p|p]; destruct b as [|q|q]; try lia; cbn [Zdigits2]; try lia.
    pose proof (digits_mono p q). lia.
  - destruct a as [|p|p]; destruct b as [|q|q]; try lia.
    assert (0 < Z.pos p / Z.pos q) as Hq by (apply Z.div_str_pos; lia).
    destruct (Z.pos p / Z.pos q) as [|r|r] eqn:E; try lia. cbn [Zdigits2].
    pose proof (digits_bounds p) as [A _]. pose proof (digits_bounds q) as [_ B]. pose proof (digits_bounds r) as [_ C].
    apply Z.nlt_ge. intro H.
    assert (Z.pos p < Z.pos q * (Z.pos r + 1)).
    { rewrite <- E. pose proof (Z.mul_succ_div_gt (Z.pos p) (Z.pos q)). lia. }
    assert (Z.pos q * (Z.pos r + 1) <= 2 ^ Z.pos (digits2_pos q) * 2 ^ Z.pos (digits2_pos r)).
    { apply Z.mul_le_mono_nonneg; lia. }
    rewrite <- Z.pow_add_r in H1 by lia.
    assert (2 ^ (Z.pos (digits2_pos q) + Z.pos (digits2_pos r)) <= 2 ^ (Z.pos (digits2_pos p) - 1)).
    { apply Z.pow_le_mono_r; lia. }
    lia.
Qed.

Lemma digits_shiftl : forall p d, 0 <= d -> Zdigits2 (Z.shiftl (Z.pos p) d) = Z.pos (digits2_pos p) + d.
Proof.
  intros p d Hd. destruct d as [|d|d]; try lia.
  - rewrite Z.shiftl_0_r. cbn [Zdigits2]. lia.
  - assert (E : Z.shiftl (Z.pos p) (Z.pos d) = Z.pos (shift_pos d p)).
    { rewrite Z.shiftl_mul_pow2 by lia. rewrite shift_pos_pow. reflexivity. }
    rewrite E. cbn [Zdigits2]. apply digits_shift.
Qed.

Lemma div_good : forall x y, double x -> double y -> double (f_div x y).
Proof.
  intros x y Hx Hy. unfold f_div, f_prec, f_emax. destruct x as [s|s| |s m e], y as [s'|s'| |s' m' e']; cbn [SFdiv];
    try reflexivity.
  unfold SFdiv_core_binary. cbn [Zdigits2].
  set (d1 := Z.pos (digits2_pos m)). set (d2 := Z.pos (digits2_pos m')).
  set (e0 := Z.min (fexp 53 1024 (d1 + e - (d2 + e'))) (e - e')).
  assert (Hm : match e - e' - e0 with 0 => Z.pos m | Z.pos _ => Z.shiftl (Z.pos m) (e - e' - e0) | Z.neg _ => 0 end
    = Z.shiftl (Z.pos m) (e - e' - e0)).
  { destruct (e - e' - e0) eqn:E; try reflexivity. exfalso. lia. }
  rewrite Hm.
  assert (Hnn : 0 <= Z.shiftl (Z.pos m) (e - e' - e0)) by (apply Z.shiftl_nonneg; lia).
  assert (Hdg : Zdigits2 (Z.shiftl (Z.pos m) (e - e' - e0)) = d1 + (e - e' - e0)) by (apply digits_shiftl; lia).
  set (n := Z.shiftl (Z.pos m) (e - e' - e0)) in *.
  pose proof (Z.div_eucl_eq n (Z.pos m') ltac:(lia)) as He.
  assert (Hq : fst (Z.div_eucl n (Z.pos m')) = n / Z.pos m') by (unfold Z.div; destruct (Z.div_eucl n (Z.pos m')); reflexivity).
  destruct (Z.div_eucl n (Z.pos m')) as [q r]. cbn [fst] in Hq. subst q.
  apply round_aux_good.
  - pose proof (digits_div n (Z.pos m') ltac:(lia) Hnn) as Hd. rewrite Hdg in Hd. cbn [Zdigits2] in Hd. fold d2 in Hd.
    transitivity (fexp 53 1024 (d1 + e - (d2 + e'))); [unfold e0; lia|]. apply fx_mono. lia.
  - apply Z.div_pos; lia.
Qed.

Lemma mod_good : forall x y, double x -> double y -> double (f_mod x y).
Proof.
  intros x y Hx Hy. destruct x as [s|s| |s m e], y as [s'|s'| |s' m' e']; try reflexivity; try exact Hx.
  destruct (mod_exact s m e s' m' e' Hx Hy) as [H _]. exact H.
Qed.

Lemma floor_good : forall x, double x -> double (f_floor x).
Proof. intros [s|s| |s m e] H; try exact H. cbn [f_floor]. destruct (0 <=? e); [exact H|]. apply normalize_good. Qed.

Lemma ceil_good : forall x, double x -> double (f_ceil x).
Proof. intros x H. apply opp_good, floor_good, opp_good. exact H. Qed.

Lemma of_Z_good : forall z, double (f_of_Z z).
Proof. intro z. apply normalize_good. Qed.

(** ** Sane values *)
Section sane.
(** whether doubles are to be valid: the reader of numbers gives valid ones *)
Variable FL : Prop.
(** a property of the members of objects *)
Variable OB : list (bytes * val) -> Prop.

Definition sane_node (x : val) : Prop :=
  match x with
  | VInt z | VInt64 z => min_int64 <= z
  | VFloat f => FL -> double f
  | VObj m => OB m
  | VSlice _ => False
  | _ => True
  end.
Definition sane (v : val) : Prop := forall x, within x v -> sane_node x.

Lemma sane_self : forall v, sane v -> sane_node v.
Proof. intros v H. apply H. constructor. Qed.
Lemma sane_sub : forall x v, sane v -> within x v -> sane x.
Proof. intros x v H Hx y Hy. apply H. eapply within_trans; eauto. Qed.
Lemma sane_arr : forall l, Forall sane l <-> sane (VArr l).
Proof.
  intro l. rewrite Forall_forall. split.
  - intros H x Hx. inversion Hx as [|? e ? Hin Hw|]; subst; [exact I|]. exact (H _ Hin x Hw).
  - intros H e He x Hx. apply (H x). econstructor; eauto.
Qed.
Lemma sane_atom : forall v, IsStructure v = false -> sane_node v -> sane v.
Proof. intros v H1 H2 x Hx. inversion Hx; subst; try discriminate. exact H2. Qed.
Lemma sane_int : forall z, min_int64 <= z -> sane (VInt64 z).
Proof. intros. apply sane_atom; [reflexivity|assumption]. Qed.
Lemma sane_float : forall f, (FL -> double f) -> sane (VFloat f).
Proof. intros. apply sane_atom; [reflexivity|assumption]. Qed.
Lemma sane_wrap : forall z, sane (VInt64 (wrap64 z)).
Proof. intro z. apply sane_int. pose proof (wrap_reduces z) as [H _]. unfold min_int64. lia. Qed.
Lemma sane_doc : forall v, doc v -> (forall m, within (VObj m) v -> OB m) -> sane v.
Proof.
  intros v H Hm x Hx. specialize (H x Hx). destruct x; simpl in *; auto; try contradiction;
    unfold in_int64 in *; try lia.
Qed.

Ltac plain := apply sane_atom; [reflexivity|exact I].

Variable W : world.
Hypothesis Hread : FL -> forall s f, o_parse_float (w_text W) s = Some f -> double f.

Lemma cvf_good : forall v, sane v -> FL -> double (cvf W v).
Proof.
  intros v H F. pose proof (sane_self v H) as Hv. destruct v; cbn [cvf]; try reflexivity.
  - destruct b; [vm_compute; reflexivity|reflexivity].
  - apply of_Z_good.
  - apply of_Z_good.
  - exact (Hv F).
  - destruct s as [|c s]; [reflexivity|]. destruct (parse_float W (c :: s)) as [f|] eqn:E; [|reflexivity].
    exact (Hread F _ _ E).
  - destruct (parse_float W s) as [f|] eqn:E; [|reflexivity]. exact (Hread F _ _ E).
Qed.

Lemma valByKey_sane : forall src key neg v, sane src -> valByKey W src key neg = Some v -> sane v.
Proof.
  intros src key neg v H Hv. destruct src; simpl in Hv; try discriminate.
  - injection Hv as <-. exact H.
  - match type of Hv with (if ?c then _ else _) = _ => destruct c end; try discriminate.
    unfold index_Z in Hv. match type of Hv with (if ?c then _ else _) = _ => destruct c end; try discriminate.
    apply nth_error_In in Hv. eapply sane_sub; eauto. econstructor; eauto. constructor.
  - apply lookup_in in Hv as [k' Hv]. eapply sane_sub; eauto. econstructor 3; eauto. constructor.
Qed.

Definition keeps_good (f : nat -> f64 -> f64 -> f64) : Prop :=
  forall i x y, double x -> double y -> double (f i x y).

Lemma arith_loop_sane : forall f a i acc, keeps_good f -> Forall sane a -> (FL -> double acc) ->
  sane (arith_loop W f i acc a).
Proof.
  induction a as [|v a IH]; intros i acc Hf Ha Hacc; cbn [arith_loop]; [apply sane_float; exact Hacc|].
  inversion Ha; subst. destruct (negb (isArith v)); [plain|]. apply IH; auto.
  intro F. apply Hf; auto. apply cvf_good; auto.
Qed.
Lemma string_loop_sane : forall f a i acc, sane (string_loop f i acc a).
Proof. induction a as [|v a IH]; intros; cbn [string_loop]; [plain|]. destruct v; try plain. apply IH. Qed.
Lemma minMax_sane : forall a f g, keeps_good f -> Forall sane a -> sane (minMaxArray W a f g).
Proof.
  intros a f g Hf Ha. destruct a as [|v a]; [plain|]. unfold minMaxArray, arithArrayOp, stringArrayOp.
  destruct v; try plain; try (apply arith_loop_sane; auto; intros _; reflexivity). apply string_loop_sane.
Qed.
Lemma avg_loop_sane : forall a acc s, Forall sane a -> (FL -> double acc) -> avg_loop W acc a = Some s -> FL -> double s.
Proof.
  induction a as [|v a IH]; intros acc s Ha Hacc H F; cbn [avg_loop] in H; [injection H as <-; auto|].
  inversion Ha; subst. destruct (negb (isArith v)); [discriminate|]. eapply IH; [| |exact H|exact F]; auto.
  intros _. apply add_good; auto. apply cvf_good; auto.
Qed.

Lemma rune_count_nonneg : forall s, 0 <= rune_count s.
Proof.
  intro s. unfold rune_count. generalize (length s). intro n. revert s.
  induction n as [|n IH]; intros [|c s]; cbn [rune_count_aux]; try lia.
  specialize (IH (skipn (rune_size (c :: s)) (c :: s))). lia.
Qed.

Lemma min_keeps : keeps_good minArith.
Proof. intros i x y Hx Hy. unfold minArith. destruct ((i =? 0)%nat || f_ltb y x); auto. Qed.
Lemma max_keeps : keeps_good maxArith.
Proof. intros i x y Hx Hy. unfold maxArith. destruct ((i =? 0)%nat || f_ltb x y); auto. Qed.

Lemma call_sane : forall t id args v t', Forall sane args -> call W t id args = OK (v, t') -> sane v.
Proof.
  intros t id args v t' Ha H. unfold call in H.
  destruct (lookup id functions) as [fn|] eqn:E; [|discriminate].
  apply lookup_in in E as [k Hin].
  assert (Hb : fn_body fn W t args = OK (v, t')).
  { destruct (fn_na fn); auto. destruct (negb _); [discriminate|auto]. }
  clear H. unfold functions in Hin. cbn [In] in Hin.
  assert (Harg : forall f : val -> val, (forall x, sane x -> sane (f x)) ->
    with_arg args 0 (fun x => @OK rerr _ (f x, t)) = OK (v, t') -> sane v).
  { intros f Hf Hw. unfold with_arg, arg in Hw. destruct args; simpl in Hw; [discriminate|].
    injection Hw as <- <-. apply Hf. inversion Ha; auto. }
  assert (Hlen : forall n, sane (VInt64 (Z.of_nat n))).
  { intro n. apply sane_int. unfold min_int64. lia. }
  repeat (destruct Hin as [Hin|Hin]; [injection Hin as <- <-; cbn [fn_body fn1] in Hb|]); try contradiction.
  - apply Harg in Hb; auto. intros x Hx. pose proof (sane_self x Hx) as Hs.
    destruct x; try plain; unfold fn_abs; cbn [sane_node] in Hs.
    + destruct (z <? 0); [apply sane_wrap|apply sane_int; exact Hs].
    + destruct (z <? 0); [destruct (neg64 z <? 0); [plain|apply sane_wrap]|exact Hx].
    + destruct (f_ltb f f_zero); [|exact Hx]. apply sane_float. intro F. apply opp_good. auto.
  - apply Harg in Hb; auto. intros x Hx. destruct x; try plain. unfold fn_avg.
    destruct (avg_loop W f_zero l) as [s|] eqn:El; [|plain]. apply sane_float. intro F.
    apply div_good; [|apply of_Z_good]. eapply avg_loop_sane; [apply sane_arr; exact Hx| |exact El|exact F].
    intros _. reflexivity.
  - apply Harg in Hb; auto. intros x Hx. destruct x; try plain; try exact Hx.
    apply sane_float. intro F. apply ceil_good. exact (sane_self _ Hx F).
  - unfold with_arg, arg in Hb. destruct args as [|a [|b args]]; simpl in Hb; try discriminate.
    injection Hb as <- <-. unfold fn_contains. destruct a; try plain. destruct b; plain.
  - injection Hb as <- <-. destruct (stringArgs args) as [[? ?]|]; plain.
  - apply Harg in Hb; auto. intros x Hx. destruct x; try plain; try exact Hx.
    apply sane_float. intro F. apply floor_good. exact (sane_self _ Hx F).
  - unfold with_arg, arg in Hb. destruct args as [|a args]; simpl in Hb; try discriminate.
    injection Hb as Hv. destruct a; simpl in Hv; injection Hv as <- <-; try plain.
    apply sane_arr. apply Forall_forall. intros x Hx. apply in_map_iff in Hx as (kv & <- & _). plain.
  - apply Harg in Hb; auto. intros x Hx. destruct x; try plain; unfold fn_length; auto.
    apply sane_int. pose proof (rune_count_nonneg s). unfold min_int64. lia.
  - injection Hb as <- <-. unfold fn_minmax. pose proof max_keeps. destruct args as [|a [|b args]]; try plain.
    + destruct a; try plain. apply minMax_sane; auto. inversion Ha; subst. apply sane_arr; auto.
    + apply minMax_sane; auto.
  - injection Hb as <- <-. unfold fn_minmax. pose proof min_keeps. destruct args as [|a [|b args]]; try plain.
    + destruct a; try plain. apply minMax_sane; auto. inversion Ha; subst. apply sane_arr; auto.
    + apply minMax_sane; auto.
  - apply Harg in Hb; auto. intros x Hx. destruct x; try plain. unfold fn_prod.
    destruct l; [plain|]. unfold arithArrayOp. apply arith_loop_sane; [|apply sane_arr; exact Hx|intros _; reflexivity].
    intros i x y H1 H2. destruct (0 <? i)%nat; auto. apply mul_good; auto.
  - injection Hb as <- <-. destruct (stringArgs args) as [[? ?]|]; plain.
  - apply Harg in Hb; auto. intros x Hx. destruct x; try plain. unfold fn_sum.
    destruct l; [apply sane_float; intros _; reflexivity|].
    unfold arithArrayOp. apply arith_loop_sane; [|apply sane_arr; exact Hx|intros _; reflexivity].
    intros i x y H1 H2. apply add_good; auto.
  - apply Harg in Hb; auto. intros x Hx. destruct x; try plain; try exact Hx. unfold fn_to_number.
    destruct (parse_float W s) as [f|] eqn:Ef; [|plain]. apply sane_float. intro F. exact (Hread F _ _ Ef).
  - injection Hb as <- <-. unfold fn_tokenize. destruct (stringArgs args) as [[s re]|]; [|plain].
    destruct (re_ok W re); [|plain]. apply sane_arr. apply Forall_forall. intros x Hx.
    apply in_map_iff in Hx as (y & <- & _). plain.
Qed.

Lemma cvi_low : forall v, sane v -> isArith v = true -> isFloat v = false -> min_int64 <= cvi W v.
Proof.
  intros v H Ha Hf. pose proof (sane_self v H) as Hs. destruct v; try discriminate; cbn [cvi]; auto.
  destruct b; unfold min_int64; lia.
Qed.

Lemma arith_sane : forall a b f g, sane a -> sane b -> (forall x y, sane (VInt64 (f x y))) ->
  (forall x y, double x -> double y -> double (g x y)) -> sane (arith W a b f g).
Proof.
  intros a b f g Ha Hb Hf Hg. unfold arith.
  repeat match goal with |- sane (if ?c then _ else _) => destruct c end; try plain; auto.
  apply sane_float. intro F. apply Hg; apply cvf_good; auto.
Qed.

Lemma divide_sane : forall a b f g, sane a -> sane b ->
  (forall x y, min_int64 <= x -> y <> 0 -> sane (VInt64 (f x y))) ->
  (forall x y, double x -> double y -> double (g x y)) -> sane (divide W a b f g).
Proof.
  intros a b f g Ha Hb Hf Hg. unfold divide.
  destruct (isNothing a || isNothing b); [plain|]. destruct (isArith a && isArith b) eqn:Ea; [|plain]. cbn [negb].
  apply andb_prop in Ea as [Ea Eb]. destruct (isFloat a) eqn:Efa; cbn [orb].
  - destruct (f_eqb (cvf W b) f_zero); [plain|]. apply sane_float. intro F. apply Hg; apply cvf_good; auto.
  - destruct (isFloat b) eqn:Efb.
    + destruct (f_eqb (cvf W b) f_zero); [plain|]. apply sane_float. intro F. apply Hg; apply cvf_good; auto.
    + destruct (Z.eqb_spec (cvi W b) 0); [plain|]. apply Hf; auto. apply cvi_low; auto.
Qed.

Lemma binop_sane : forall o a b r v, is_binary o = true \/ o = OpDot ->
  sane a -> sane b -> binop W o a b = Some r -> r = OK v -> sane v.
Proof.
  intros o a b r v Ho Ha Hb Hr Hv. subst r.
  assert (Hrel : forall f g h, sane (relation W a b f g h)).
  { intros. unfold relation. repeat match goal with |- sane (if ?c then _ else _) => destruct c end; plain. }
  assert (Hlen : forall n, sane (VInt64 (Z.of_nat n))).
  { intro n. apply sane_int. unfold min_int64. lia. }
  assert (Hdiv : sane (if isNothing a || isNothing b then nothing else divide W a b quot64 f_div)).
  { destruct (isNothing a || isNothing b); [plain|]. apply divide_sane; auto.
    - intros x y _ _. apply sane_wrap.
    - apply div_good. }
  assert (Hmod : sane (if isNothing a || isNothing b then nothing else divide W a b rem64 f_mod)).
  { destruct (isNothing a || isNothing b); [plain|]. apply divide_sane; auto.
    - intros x y Hx Hy. apply sane_int. unfold rem64.
      assert (Z.abs (Z.rem x y) <= Z.abs x).
      { rewrite <- Z.rem_abs by exact Hy. apply Z.rem_le; lia. }
      destruct (Z.le_gt_cases 0 x).
      + pose proof (Z.rem_sign_mul x y Hy). unfold min_int64. nia.
      + lia.
    - apply mod_good. }
  destruct o; try (destruct Ho; discriminate); cbn [binop] in Hr; injection Hr as Hr;
    try subst v; auto; try plain;
    try (destruct (isNothing a || isNothing b); [plain|];
         apply arith_sane; auto; [intros; apply sane_wrap|intros; first [apply add_good|apply sub_good|apply mul_good]; auto]).
  - unfold op_dot in Hr. destruct (isNothing b || isNothing a); [injection Hr as <-; plain|].
    destruct b; try discriminate. destruct (beqb s (b_of "length")).
    + injection Hr as <-. destruct a; try plain; auto.
      apply sane_int. pose proof (rune_count_nonneg s0). unfold min_int64. lia.
    + injection Hr as <-. destruct a; try plain.
      destruct (valByKey W (VObj m) (VName s) false) eqn:E; [|plain]. exact (valByKey_sane _ _ _ _ Ha E).
  - unfold op_index in Hr. destruct (isNothing a || isNothing b); [injection Hr as <-; plain|].
    destruct a; try (injection Hr as <-; plain).
    + cbv zeta in Hr. match type of Hr with (if ?c then _ else _) = _ => destruct c end;
        [injection Hr as <-; plain|].
      match type of Hr with match ?x with _ => _ end = _ => destruct x eqn:E end; [|discriminate].
      injection Hr as <-. unfold index_Z in E.
      match type of E with (if ?c then _ else _) = _ => destruct c end; try discriminate.
      apply nth_error_In in E. eapply sane_sub; [exact Ha|]. econstructor; eauto. constructor.
    + injection Hr as <-.
      assert (Hx : forall o, valByKey W (VObj m) b true = o ->
        sane (match o with Some v => v | None => nothing end)).
      { intros [x|] Hx; [exact (valByKey_sane _ _ _ _ Ha Hx)|plain]. }
      apply Hx. reflexivity.
  - unfold op_and. destruct (isNothing a || negb (cvb W a)); auto.
  - unfold op_or. destruct (isNothing a && isNothing b); [plain|]. destruct (negb (isNothing a) && cvb W a); auto.
  - unfold op_in in Hr. destruct (isNothing a || isNothing b); [injection Hr as <-; plain|].
    destruct b; try discriminate. injection Hr as <-. plain.
  - unfold op_in in Hr. destruct (isNothing a || isNothing b); [injection Hr as <-; plain|].
    destruct b; try discriminate. injection Hr as <-. plain.
  - unfold op_match in Hr. destruct (isNothing a || isNothing b); [injection Hr as <-; plain|].
    destruct (match b with VStr s => _ | VRegexp p => _ | _ => _ end) as [p| | |]; cbn [obind] in Hr; try discriminate.
    destruct a; try discriminate. injection Hr as <-. plain.
Qed.

Lemma apply_sane : forall t o vs v t', inner_ok o (length vs) -> Forall sane vs ->
  apply_op W t o vs = OK (v, t') -> sane v.
Proof.
  intros t o vs v t' Ho Hvs H.
  assert (H2 : forall a b, vs = [a; b] -> is_binary o = true \/ o = OpDot -> sane v).
  { intros a b -> Hb. inversion Hvs; subst. inversion H3; subst.
    assert (exists r, binop W o a b = Some r /\ r = OK v) as (r & Hr1 & Hr2).
    { destruct Hb as [Hb| ->]; [destruct o; try discriminate|]; unfold apply_op in H;
        destruct (binop W _ a b) as [r|] eqn:Eb; try discriminate;
        exists r; (split; [reflexivity|]); destruct r; cbn [obind] in H; try discriminate; congruence. }
    eapply binop_sane; [exact Hb| | |exact Hr1|exact Hr2]; auto. }
  assert (L2 : length vs = 2%nat -> exists a b, vs = [a; b]).
  { intro L. destruct vs as [|a [|b [|]]]; try discriminate. eauto. }
  destruct o; cbn [inner_ok is_binary] in Ho; try (destruct Ho; discriminate);
    try (destruct Ho as [_ Ho]; destruct (L2 Ho) as (a & b & E); exact (H2 a b E (or_introl eq_refl)));
    try (destruct (L2 Ho) as (a & b & E); exact (H2 a b E (or_intror eq_refl))).
  - destruct vs as [|x [|]]; try discriminate. cbn [apply_op unop] in H. injection H as <- <-.
    inversion Hvs as [|y l Hy Hl]; subst. unfold op_neg. destruct (isNothing x); [plain|].
    destruct x; try apply sane_wrap. apply sane_float. intro F. apply opp_good. exact (sane_self _ Hy F).
  - cbn [apply_op] in H. destruct vs as [|x vs]; try discriminate. inversion Hvs; subst.
    destruct x; try discriminate. eapply call_sane; [|exact H]. auto.
  - cbn [apply_op] in H. injection H as <- <-. apply sane_arr. exact Hvs.
  - destruct vs as [|x [|]]; try discriminate. cbn [apply_op unop] in H. injection H as <- <-. plain.
Qed.

Variable root : val.
Hypothesis Hroot : sane root.

Lemma evs_sane : forall dot l, Forall (fun e => forall t v t', ev W root dot t e = OK (v, t') -> sane v) l ->
  forall t vs t', evs W root dot t l = OK (vs, t') -> Forall sane vs.
Proof.
  intros dot l H. induction H as [|e l He Hl IH]; intros t vs t' Hv; cbn [evs] in Hv.
  - injection Hv as <- <-. constructor.
  - destruct (ev W root dot t e) as [[v t1]| | |] eqn:E1; cbn [obind] in Hv; try discriminate.
    destruct (evs W root dot t1 l) as [[vs' t2]| | |] eqn:E2; cbn [obind] in Hv; try discriminate.
    injection Hv as <- <-. constructor; eauto.
Qed.

Lemma ev_sane : forall e, wf_expr e -> (FL -> forall f, In (VFloat f) (literals_expr e) -> double f) ->
  forall dot, sane dot -> forall t v t', ev W root dot t e = OK (v, t') -> sane v.
Proof.
  intros e. induction e using expr_tree_ind; intros Hwf Hlit dot Hdot t v t' Hv;
    try (cbn [ev] in Hv; injection Hv as <- <-; auto; plain).
  - cbn [ev] in Hv. injection Hv as <- <-. apply sane_int. inversion Hwf; subst. unfold in_int64 in *. lia.
  - cbn [ev] in Hv. injection Hv as <- <-. apply sane_float. intro F. apply (Hlit F). left. reflexivity.
  - rewrite ev_inner in Hv. pose proof (wf_inner _ _ Hwf) as (Hk & _ & Ho).
    destruct (evs W root dot t kids) as [[vs t1]| | |] eqn:E; cbn [obind] in Hv; try discriminate.
    assert (Hvs : Forall sane vs).
    { eapply evs_sane; [|exact E]. rewrite Forall_forall in *. intros x Hx t0 v0 t0' H0.
      eapply H; eauto. intros F f Hf. apply (Hlit F). cbn [literals_expr]. apply in_flat_map. eauto. }
    pose proof (evs_length _ _ _ _ _ _ _ E) as Hlen. rewrite <- Hlen in Ho.
    eapply apply_sane; eauto.
Qed.
End sane.
