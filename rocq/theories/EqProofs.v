(** Equality of values. *)
From Coq Require Import QArith.
From Verif Require Import Syntax Value SpecDoc SpecSelect SpecExpr SpecOp SpecEq SpecCost FloatProofs ArithProofs LogicProofs
  FnProofs ExprFinal LexProofs PrintProofs SelectProofs CostProofs SpecPrint SpecTokens SpecGrammar DocProofs.
Local Open Scope Z_scope.

(** ** Numbers *)

Lemma f_eqb_eq : forall x y, f_eqb x y = true <-> f_eq x y.
Proof.
  intros x y. unfold f_eqb, f_eq, SFeqb. destruct (SFcompare x y) as [[]|]; split; intro H; try discriminate H; reflexivity.
Qed.

Lemma f_eq_inv : forall x y, f_eq x y ->
  (x = y /\ x <> S754_nan) \/ (exists s s', x = S754_zero s /\ y = S754_zero s').
Proof.
  intros x y H. unfold f_eq in H.
  destruct x as [s|s| |s m e], y as [s'|s'| |s' m' e']; cbn in H; try discriminate H; try (destruct s; discriminate H);
    try (destruct s'; discriminate H).
  - right. eauto.
  - left. destruct s, s'; try discriminate H; split; congruence.
  - left. destruct s, s'; try discriminate H.
    + destruct (Z.compare_spec e e') as [E|E|E]; try discriminate H. subst e'.
      change (Pos.compare_cont Eq m m') with (Pos.compare m m') in H.
      destruct (Pos.compare_spec m m') as [E'|E'|E']; try discriminate H. subst. split; congruence.
    + destruct (Z.compare_spec e e') as [E|E|E]; try discriminate H. subst e'.
      change (Pos.compare_cont Eq m m') with (Pos.compare m m') in H.
      destruct (Pos.compare_spec m m') as [E'|E'|E']; try discriminate H. subst. split; congruence.
Qed.
Lemma f_eq_refl : forall x, x <> S754_nan -> f_eq x x.
Proof.
  intros [s|[]| |[] m e] H; unfold f_eq; cbn; try congruence.
  - rewrite Z.compare_refl. change (Pos.compare_cont Eq m m) with (Pos.compare m m). rewrite Pos.compare_refl. reflexivity.
  - rewrite Z.compare_refl. change (Pos.compare_cont Eq m m) with (Pos.compare m m). rewrite Pos.compare_refl. reflexivity.
Qed.
Lemma f_eq_sym : forall x y, f_eq x y -> f_eq y x.
Proof. intros x y H. unfold f_eq in *. rewrite f_swap, H. reflexivity. Qed.
Lemma f_eq_trans : forall x y z, f_eq x y -> f_eq y z -> f_eq x z.
Proof.
  intros x y z H K. destruct (f_eq_inv _ _ H) as [[-> _]|(s & s' & -> & ->)]; [exact K|].
  destruct (f_eq_inv _ _ K) as [[<- _]|(t & t' & _ & ->)]; reflexivity.
Qed.
Lemma f_eq_nan : forall x, ~ f_eq x S754_nan /\ ~ f_eq S754_nan x.
Proof. intros x. split; [apply nan_order; right; reflexivity|apply nan_order; left; reflexivity]. Qed.

Lemma nearest_bit : forall z b, b = 0 \/ b = 1 -> f_eq (nearest z) (nearest b) -> z = b.
Proof.
  intros z b Hb H. destruct (Z_le_gt_dec (Z.abs z) (2 ^ 53)) as [L|L].
  - destruct (nearest_exact z L) as (q & R & E).
    destruct (nearest_exact b) as (q' & R' & E'); [destruct Hb; subst; cbn; lia|].
    destruct (float_order (nearest z) (nearest b) q q') as [_ K]; [apply nearest_good|apply nearest_good|exact R|exact R'|].
    apply K in H. rewrite E, E' in H. apply inject_Z_injective. exact H.
  - assert (K := nearest_big z ltac:(lia)).
    assert (B : nearest b = S754_zero false \/ nearest b = S754_finite false 4503599627370496 (-52)).
    { destruct Hb; subst; [left|right]; reflexivity. }
    destruct (f_eq_inv _ _ H) as [[E _]|(s & s' & E & _)].
    + destruct B as [B|B]; rewrite E, B in K; [contradiction|lia].
    + rewrite E in K. contradiction.
Qed.

Definition num_val (n : enum) : val := match n with NInt z => VInt64 z | NFloat f => VFloat f end.

Lemma cvf_nearest : forall W v n, number_of v n -> cvf W v = as_double n.
Proof. intros W v n H. destruct H; reflexivity. Qed.

Lemma eqNum_float : forall W a b, isFloat a || isFloat b = true -> eqNum W a b = f_eqb (cvf W a) (cvf W b).
Proof.
  intros W a b H. unfold eqNum. rewrite H.
  destruct ((f_eqb (cvf W a) f_zero && f_eqb (cvf W b) (f_neg f_zero)) || (f_eqb (cvf W b) f_zero && f_eqb (cvf W a) (f_neg f_zero))) eqn:E;
    [|reflexivity].
  symmetry. rewrite !f_eqb_nzero, !f_eqb_zero in E.
  destruct (cvf W a); try (rewrite andb_false_r in E; discriminate E);
  destruct (cvf W b); try (cbn in E; discriminate E). reflexivity.
Qed.

Lemma eqNum_same : forall W a b n n', number_of a n -> number_of b n' -> (eqNum W a b = true <-> same_number n n').
Proof.
  intros W a b n n' Ha Hb. destruct (isFloat a || isFloat b) eqn:F.
  - rewrite (eqNum_float W a b F), f_eqb_eq, (cvf_nearest W a n Ha), (cvf_nearest W b n' Hb).
    destruct Ha, Hb; cbn in F |- *; try discriminate F; tauto.
  - unfold eqNum. rewrite F. rewrite Z.eqb_eq. destruct Ha, Hb; cbn in F |- *; try discriminate F; tauto.
Qed.
Lemma same_sym : forall n n', same_number n n' -> same_number n' n.
Proof. intros [z|f] [z'|f'] H; cbn in *; [congruence| | |]; apply f_eq_sym; exact H. Qed.
Lemma number_fun : forall v n n', number_of v n -> number_of v n' -> n = n'.
Proof. intros v n n' H K. destruct H; inversion K; reflexivity. Qed.

Lemma eqNum_sym : forall W a b, eqNum W a b = eqNum W b a.
Proof.
  intros W a b. destruct (isFloat a || isFloat b) eqn:F.
  - rewrite (eqNum_float W a b F). rewrite orb_comm in F. rewrite (eqNum_float W b a F).
    destruct (f_eqb (cvf W a) (cvf W b)) eqn:E; symmetry.
    + apply f_eqb_eq, f_eq_sym, f_eqb_eq. exact E.
    + destruct (f_eqb (cvf W b) (cvf W a)) eqn:E'; [|reflexivity].
      apply f_eqb_eq, f_eq_sym, f_eqb_eq in E'. congruence.
  - unfold eqNum. rewrite F. rewrite orb_comm in F. rewrite F. apply Z.eqb_sym.
Qed.

(** ** Texts *)

Lemma parse_decimal : forall z, in_int64 z -> parse_int (decimal z) = Some z.
Proof.
  intros z H. unfold in_int64, min_int64, max_int64 in H. rewrite <- sprint_int_decimal. unfold sprint_int.
  destruct (Z.ltb_spec z 0) as [L|L].
  - fold (digits (- z)). cbn [parse_int]. change (45 =? 45) with true. change (45 =? 43) with false. cbn [orb].
    assert (V := digits_val (- z) ltac:(lia)). assert (Dg := digits_digit (- z)). assert (Ne := digits_ne (- z)).
    destruct (digits (- z)) as [|c ds]; [destruct (Ne eq_refl)|].
    unfold parse_udec. rewrite dec_acc_digits by exact Dg. fold (dec_val (c :: ds)). rewrite V.
    change two63 with 9223372036854775808. destruct (Z.leb_spec (- z) 9223372036854775808); [|lia]. f_equal. lia.
  - fold (digits z). rewrite parse_int_digits by (apply digits_ne || apply digits_digit).
    rewrite digits_val by lia. change (2 ^ 63) with 9223372036854775808.
    destruct (Z.ltb_spec z 9223372036854775808); [reflexivity|lia].
Qed.
Lemma parse_empty : parse_int [] = None.
Proof. reflexivity. Qed.
Lemma decimal_ne : forall z, decimal z <> [].
Proof.
  intros z. rewrite <- sprint_int_decimal. unfold sprint_int. destruct (z <? 0); [discriminate|]. apply digits_ne.
Qed.

Lemma string_number_fun : forall W s n n', string_number W s n -> string_number W s n' -> n = n'.
Proof. intros W s n n' H K. destruct H; inversion K; subst; congruence. Qed.
Lemma string_number_total : forall W s, exists n, string_number W s n.
Proof.
  intros W s. destruct s as [|c s]; [eexists; apply SnEmpty|].
  destruct (parse_int (c :: s)) as [z|] eqn:P; [eexists; apply SnInt; [discriminate|exact P]|].
  destruct (o_parse_float (w_text W) (c :: s)) as [f|] eqn:F;
    eexists; [apply SnFloat; [discriminate|exact P|exact F]|apply SnNaN; [discriminate|exact P|exact F]].
Qed.

(** ** The rules, case by case *)

Ltac eq_bad :=
  match goal with
  | H : nullish _ |- _ => destruct H as [H|[? H]]; discriminate
  | H : structure _ |- _ => destruct H as [[? H]|[? H]]; discriminate
  | H : number_of (VStr _) _ |- _ => inversion H
  | H : number_of (VBool _) _ |- _ => inversion H
  | H : number_of (VArr _) _ |- _ => inversion H
  | H : number_of (VObj _) _ |- _ => inversion H
  | H : number_of VNil _ |- _ => inversion H
  | H : number_of (VErr _) _ |- _ => inversion H
  | H : text_or_number _ |- _ => destruct H as [[? H]|[? H]]; [discriminate|inversion H]
  | H : forall y, VBool ?b <> VBool y |- _ => destruct (H b eq_refl)
  end.

Lemma number_kind : forall v n, number_of v n -> typeOf v = Number /\ (forall s, v <> VStr s) /\ (forall l, v <> VArr l) /\
  (forall m, v <> VObj m) /\ (forall b, v <> VBool b) /\ ~ nullish v /\ ~ structure v.
Proof.
  intros v n H. destruct H; cbn; repeat split; try discriminate; intros K; eq_bad.
Qed.

Lemma ecma_numbers : forall W a b n n', number_of a n -> number_of b n' -> (ecma W a b <-> same_number n n').
Proof.
  intros W a b n n' Ha Hb. split; [|intros; eapply EqNumbers; eassumption].
  intros H. destruct (number_kind a n Ha) as (_ & A1 & A2 & A3 & A4 & A5 & A6).
  destruct (number_kind b n' Hb) as (_ & B1 & B2 & B3 & B4 & B5 & B6).
  destruct H as [a b X Y|a b m m' X Y Z|s|x|l l' X|m m' X Y|a m s m' X Y Z|a m s m' X Y Z|x b X Y|a y X Y|a b X Y Z|a b X Y Z];
    try contradiction; try congruence; try eq_bad.
  rewrite (number_fun _ _ _ Ha X), (number_fun _ _ _ Hb Y). exact Z.
Qed.

Lemma ecma_num_str : forall W a n s n', number_of a n -> string_number W s n' ->
  (ecma W a (VStr s) <-> same_number n n') /\ (ecma W (VStr s) a <-> same_number n n').
Proof.
  intros W a n s n' Ha Hs. destruct (number_kind a n Ha) as (_ & A1 & A2 & A3 & A4 & A5 & A6). split; split.
  - intros H. inversion H; subst; try contradiction; try congruence; try eq_bad.
    match goal with X : number_of a ?n0, Y : string_number W s ?n0' |- _ =>
      rewrite (number_fun _ _ _ Ha X), (string_number_fun W s _ _ Hs Y); assumption end.
  - intros H. eapply EqNumStr; eassumption.
  - intros H. inversion H; subst; try contradiction; try congruence; try eq_bad.
    match goal with X : number_of a ?n0, Y : string_number W s ?n0' |- _ =>
      rewrite (number_fun _ _ _ Ha X), (string_number_fun W s _ _ Hs Y); assumption end.
  - intros H. eapply EqStrNum; eassumption.
Qed.

Lemma ecma_str_str : forall W s t, ecma W (VStr s) (VStr t) <-> s = t.
Proof.
  intros W s t. split; [|intros ->; apply EqStrings].
  intros H. inversion H; subst; try reflexivity; try eq_bad.
Qed.
Lemma ecma_bool_bool : forall W x y, ecma W (VBool x) (VBool y) <-> x = y.
Proof.
  intros W s t. split; [|intros ->; apply EqBools].
  intros H. inversion H; subst; try reflexivity; try eq_bad.
Qed.
Lemma ecma_bool_left : forall W x b, (forall y, b <> VBool y) -> (ecma W (VBool x) b <-> ecma W (bit x) b).
Proof.
  intros W x b Hb. split; [|intros; apply EqBoolLeft; assumption].
  intros H. inversion H; subst; try assumption; try eq_bad; try solve [destruct (Hb _ eq_refl)].
Qed.
Lemma ecma_bool_right : forall W a y, (forall x, a <> VBool x) -> (ecma W a (VBool y) <-> ecma W a (bit y)).
Proof.
  intros W x b Hb. split; [|intros; apply EqBoolRight; assumption].
  intros H. inversion H; subst; try assumption; try eq_bad; try solve [destruct (Hb _ eq_refl)].
Qed.
Lemma ecma_prim_right : forall W a b, text_or_number a -> structure b -> (ecma W a b <-> ecma W a (VStr (element_text W b))).
Proof.
  intros W a b Ha Hb. split; [|intros; apply EqPrimRight; assumption].
  assert (Na : ~ nullish a /\ (forall x, a <> VBool x) /\ (forall l, a <> VArr l) /\ (forall m, a <> VObj m) /\ ~ structure a).
  { destruct Ha as [[s ->]|[n Hn]]; [|destruct (number_kind a n Hn) as (_ & A1 & A2 & A3 & A4 & A5 & A6); auto].
    repeat split; try discriminate; intro; eq_bad. }
  destruct Na as (N1 & N2 & N3 & N4 & N5).
  intros H. destruct Hb as [[l ->]|[m ->]]; inversion H; subst; try assumption; try contradiction; try congruence; try eq_bad.
Qed.
Lemma ecma_prim_left : forall W a b, structure a -> text_or_number b -> (ecma W a b <-> ecma W (VStr (element_text W a)) b).
Proof.
  intros W b a Hb Ha. split; [|intros; apply EqPrimLeft; assumption].
  assert (Na : ~ nullish a /\ (forall x, a <> VBool x) /\ (forall l, a <> VArr l) /\ (forall m, a <> VObj m) /\ ~ structure a).
  { destruct Ha as [[s ->]|[n Hn]]; [|destruct (number_kind a n Hn) as (_ & A1 & A2 & A3 & A4 & A5 & A6); auto].
    repeat split; try discriminate; intro; eq_bad. }
  destruct Na as (N1 & N2 & N3 & N4 & N5).
  intros H. destruct Hb as [[l ->]|[m ->]]; inversion H; subst; try assumption; try contradiction; try congruence; try eq_bad.
Qed.
Lemma ecma_nullish : forall W a b, nullish a \/ nullish b -> (ecma W a b <-> nullish a /\ nullish b).
Proof.
  assert (G : forall W a b, ecma W a b -> (nullish a -> nullish b) /\ (nullish b -> nullish a)).
  { intros W a b H. induction H; split; intro K; try assumption; try eq_bad;
      try solve [destruct K as [K|[k K]]; subst; inversion H];
      try solve [destruct IHecma as [I1 I2]; destruct K as [K|[k K]]; subst; try discriminate;
        (assert (Q : nullish (bit x)) by (apply I2; (left; reflexivity) || (right; eexists; reflexivity))); destruct Q as [Q|[? Q]]; discriminate];
      try solve [destruct IHecma as [I1 I2]; destruct K as [K|[k K]]; subst; try discriminate;
        (assert (Q : nullish (bit y)) by (apply I1; (left; reflexivity) || (right; eexists; reflexivity))); destruct Q as [Q|[? Q]]; discriminate].
    all: destruct K as [K|[k K]]; subst; eq_bad. }
  intros W a b H. split.
  - intros E. destruct (G W a b E). tauto.
  - intros [Ha Hb]. apply EqNullish; assumption.
Qed.
Lemma ecma_arrays : forall W l l', ecma W (VArr l) (VArr l') <-> Forall2 (ecma W) l l'.
Proof.
  intros W l l'. split; [|apply EqArrays]. intros H. inversion H; subst; try assumption; try eq_bad.
Qed.
Lemma ecma_objects : forall W m m', ecma W (VObj m) (VObj m') <->
  (forall k, In k (map fst m) <-> In k (map fst m')) /\ (forall k v v', In (k, v) m -> In (k, v') m' -> ecma W v v').
Proof.
  intros W l l'. split; [|intros []; apply EqObjects; assumption]. intros H. inversion H; subst; try (split; assumption); try eq_bad.
Qed.
Lemma ecma_array_object : forall W l m, ~ ecma W (VArr l) (VObj m) /\ ~ ecma W (VObj m) (VArr l).
Proof. intros W l m. split; intros H; inversion H; subst; eq_bad. Qed.

(** ** The code, case by case *)

Lemma num_str_exact : forall W a n s n', reads_integers W -> number_of a n -> integer_text W a (VStr s) -> string_number W s n' ->
  ((if badNum W s (isFloat a) then false else eqNum W a (VStr s)) = true <-> same_number n n').
Proof.
  intros W a n s n' [Hr _] Ha Hi Hs. unfold badNum, parse_float.
  destruct Hs as [|s z Hs P|s f Hs P F|s Hs P F].
  - (* empty *) destruct Ha as [z|z|f].
    + unfold eqNum. cbn. apply Z.eqb_eq.
    + unfold eqNum. cbn. apply Z.eqb_eq.
    + rewrite eqNum_float by reflexivity. cbn [cvf]. rewrite f_eqb_eq. reflexivity.
  - destruct (Hr s z P) as (f & F & E). rewrite P, F. destruct s as [|c s]; [congruence|].
    destruct Ha as [y|y|y]; cbn [isFloat negb andb].
    + unfold eqNum. cbn [isFloat orb cvi]. rewrite P. apply Z.eqb_eq.
    + unfold eqNum. cbn [isFloat orb cvi]. rewrite P. apply Z.eqb_eq.
    + rewrite eqNum_float by reflexivity. cbn [cvf]. unfold parse_float. rewrite F, f_eqb_eq. cbn.
      split; intro H; [apply f_eq_trans with f; assumption|apply f_eq_trans with (nearest z); [exact H|apply f_eq_sym; exact E]].
  - rewrite P, F. destruct s as [|c s]; [congruence|].
    destruct Ha as [y|y|y]; cbn [isFloat negb andb].
    + destruct (Hi y (c :: s) (or_introl eq_refl) eq_refl) as [K|[K|K]]; congruence.
    + destruct (Hi y (c :: s) (or_intror eq_refl) eq_refl) as [K|[K|K]]; congruence.
    + rewrite eqNum_float by reflexivity. cbn [cvf]. unfold parse_float. rewrite F, f_eqb_eq. reflexivity.
  - rewrite P, F. destruct s as [|c s]; [congruence|].
    rewrite andb_false_r. split; [discriminate|]. intros H. exfalso.
    destruct n as [z|f]; cbn in H; exact (proj1 (f_eq_nan _) H).
Qed.

Lemma bool_str_exact : forall W x s n', reads_integers W -> string_number W s n' ->
  ((if badNum W s true then false else f_eqb (cvf W (VBool x)) (cvf W (VStr s))) = true <->
   same_number (NInt (if x then 1 else 0)) n').
Proof.
  intros W x s n' [Hr _] Hs. unfold badNum, parse_float. cbn [negb andb].
  assert (B : cvf W (VBool x) = nearest (if x then 1 else 0)) by (destruct x; reflexivity). rewrite B.
  destruct Hs as [|s z Hs P|s f Hs P F|s Hs P F].
  - rewrite f_eqb_eq. destruct x; cbn; [|split; reflexivity]. split; discriminate.
  - destruct (Hr s z P) as (f & F & E). rewrite F. destruct s as [|c s]; [congruence|].
    cbn [cvf]. unfold parse_float. rewrite F, f_eqb_eq. cbn [same_number].
    split; intro H.
    + symmetry. apply nearest_bit; [destruct x; auto|]. apply f_eq_sym. apply f_eq_trans with f; assumption.
    + rewrite H. apply f_eq_sym. exact E.
  - rewrite F. destruct s as [|c s]; [congruence|]. cbn [cvf]. unfold parse_float. rewrite F, f_eqb_eq. reflexivity.
  - rewrite F. destruct s as [|c s]; [congruence|]. split; [discriminate|]. cbn. intros H. destruct (proj1 (f_eq_nan _) H).
Qed.

(** an array and a number or string *)
Lemma array_prim_exact : forall W l b, array_text (VArr l) b -> text_or_number b ->
  ((match b with VStr s => eqArrayS W l s | _ => eqArrayN W l b end) = true <-> ecma W (VStr (element_text W (VArr l))) b).
Proof.
  intros W l b Ha Hb. destruct (Ha l eq_refl (or_introl Hb)) as [->|[(z & Hz & Hl)|(s & t & -> & ->)]].
  - destruct Hb as [[s ->]|[n Hn]].
    + cbn [eqArrayS element_text]. rewrite ecma_str_str. rewrite beqb_eq. split; congruence.
    + cbn [element_text]. destruct (ecma_num_str W b n [] (NInt 0) Hn (SnEmpty W)) as [_ K]. rewrite K.
      assert (E : (match b with VStr s => eqArrayS W [] s | _ => eqArrayN W [] b end) = eqNum W b (VFloat f_zero)) by (destruct Hn; reflexivity).
      rewrite E, eqNum_float by apply orb_true_r. rewrite f_eqb_eq, (cvf_nearest W b n Hn). cbn [cvf].
      destruct n as [z|f]; cbn [same_number as_double].
      * split; [intros H; apply nearest_bit; [left; reflexivity|exact H]|intros ->; reflexivity].
      * reflexivity.
  - assert (T : element_text W (VArr l) = decimal z) by (destruct Hl; subst; reflexivity). rewrite T.
    destruct Hb as [[s ->]|[n Hn]].
    + rewrite ecma_str_str.
      assert (E : eqArrayS W l s = beqb (sprint_int z) s) by (destruct Hl; subst; reflexivity).
      rewrite E, beqb_eq, sprint_int_decimal. reflexivity.
    + destruct (ecma_num_str W b n (decimal z) (NInt z) Hn) as [_ K];
        [apply SnInt; [apply decimal_ne|apply parse_decimal; exact Hz]|]. rewrite K.
      assert (E : exists x, number_of x (NInt z) /\ (match b with VStr s => eqArrayS W l s | _ => eqArrayN W l b end) = eqNum W x b).
      { destruct Hl as [->| ->]; [exists (VInt z)|exists (VInt64 z)]; (split; [constructor|destruct Hn; reflexivity]). }
      destruct E as (x & Hx & E). rewrite E, (eqNum_same W x b _ _ Hx Hn). split; apply same_sym.
  - cbn [eqArrayS element_text cvs]. rewrite ecma_str_str, beqb_eq. reflexivity.
Qed.
Lemma ecma_str_prim_sym : forall W s b, text_or_number b -> (ecma W (VStr s) b <-> ecma W b (VStr s)).
Proof.
  intros W s b [[t ->]|[n Hn]]; [rewrite !ecma_str_str; split; congruence|].
  destruct (string_number_total W s) as [n' Hs]. destruct (ecma_num_str W b n s n' Hn Hs) as [K1 K2]. tauto.
Qed.

Lemma array_bool_exact : forall W l y, array_text (VArr l) (VBool y) ->
  (eqArrayB W (VArr l) (if y then 1 else 0) = true <-> ecma W (VStr (element_text W (VArr l))) (bit y)).
Proof.
  intros W l y Ha. destruct (Ha l eq_refl) as [->|[(z & Hz & Hl)|(s & t & -> & H)]]; [right; eauto| | |discriminate H].
  - cbn [eqArrayB element_text]. unfold bit.
    destruct (ecma_num_str W (VInt64 (if y then 1 else 0)) _ [] (NInt 0) (NoInt64 _) (SnEmpty W)) as [_ K]. rewrite K.
    cbn. apply Z.eqb_eq.
  - assert (T : element_text W (VArr l) = decimal z) by (destruct Hl; subst; reflexivity). rewrite T.
    destruct (ecma_num_str W (bit y) (NInt (if y then 1 else 0)) (decimal z) (NInt z)) as [_ K]; [constructor| |].
    { apply SnInt; [apply decimal_ne|apply parse_decimal; exact Hz]. }
    rewrite K. cbn [same_number].
    assert (E : eqArrayB W (VArr l) (if y then 1 else 0) = (z =? (if y then 1 else 0))) by (destruct Hl; subst; reflexivity).
    rewrite E, Z.eqb_eq. split; congruence.
Qed.

Lemma object_prim : forall W m b, reads_integers W -> text_or_number b -> b <> VStr (b_of "[object Object]") ->
  ~ ecma W (VStr (element_text W (VObj m))) b.
Proof.
  intros W m b [_ Hr] [[s ->]|[n Hn]] Hb H.
  - apply ecma_str_str in H. apply Hb; rewrite <- H; reflexivity.
  - change (element_text W (VObj m)) with (b_of "[object Object]") in H.
    destruct (ecma_num_str W b n (b_of "[object Object]") (NFloat S754_nan) Hn) as [_ K];
      [apply SnNaN; [discriminate|reflexivity|exact Hr]|].
    apply K in H. destruct n as [z|f]; cbn in H; exact (proj1 (f_eq_nan _) H).
Qed.

Lemma eqVal_nil : forall W v, eqVal W v VNil = true -> nullish v.
Proof.
  intros W v H. destruct v; cbn in H; try discriminate H.
  - left. reflexivity.
  - right. eexists. reflexivity.
Qed.

(** ** All values *)

Lemma flat_exact : forall W a b, reads_integers W -> fair W a b -> ~ (structure a /\ structure b) ->
  (eqVal W a b = true <-> ecma W a b).
Proof.
  intros W a b Hr (Pa & Pb & _ & _ & I1 & I2 & A1 & A2 & O1 & O2) Hs.
  assert (Nn : nullish a \/ nullish b \/ (~ nullish a /\ ~ nullish b)).
  { destruct a; try (left; left; reflexivity); try (left; right; eexists; reflexivity); right;
    (destruct b; try (left; left; reflexivity); try (left; right; eexists; reflexivity); right; split; intros H; eq_bad). }
  assert (Hnum : forall v, typeOf v = Number -> exists n, number_of v n).
  { intros v Hv. destruct v; try discriminate Hv; eexists; constructor. }
  destruct Nn as [Nn|[Nn|[Na Nb]]].
  - rewrite (ecma_nullish W a b (or_introl Nn)).
    assert (E : eqVal W a b = true <-> nullish b).
    { destruct Nn as [->|[k ->]]; destruct b; cbn in Pb |- *; try contradiction;
        (split; intros H; try discriminate H; try reflexivity; try eq_bad; try (left; reflexivity); try (right; eexists; reflexivity)). }
    tauto.
  - rewrite (ecma_nullish W a b (or_intror Nn)).
    assert (E : eqVal W a b = true <-> nullish a).
    { destruct Nn as [->|[k ->]]; destruct a; cbn in Pa |- *; try contradiction;
        (split; intros H; try discriminate H; try reflexivity; try eq_bad; try (left; reflexivity); try (right; eexists; reflexivity)). }
    tauto.
  - assert (NN : forall v, nullish v -> v = VNil \/ exists k, v = VErr k) by (intros v []; auto).
    destruct (typeOf a) eqn:Ta.
    + destruct a; try discriminate Ta. destruct Na. right. eexists. reflexivity.
    + destruct a; try discriminate Ta. destruct Na. left. reflexivity.
    + (* a number *)
      destruct (Hnum a Ta) as [n Hn]. destruct (number_kind a n Hn) as (_ & X1 & X2 & X3 & X4 & X5 & X6).
      assert (EV : eqVal W a b = if jsType_beq Number (typeOf b) then eqNum W a b else eq_mixed W a b).
      { destruct Hn; cbn [eqVal typeOf]; destruct (jsType_beq Number (typeOf b)); reflexivity. }
      rewrite EV. clear EV. destruct b as [|y|y|y|y|s|s|l|m|s|s|s|k]; cbn in Pb; try contradiction.
      * destruct Nb; left; reflexivity.
      * cbn [typeOf jsType_beq]. unfold eq_mixed. rewrite Ta. cbn [typeOf].
        rewrite (ecma_bool_right W a y X4). unfold bit. rewrite (ecma_numbers W a _ n _ Hn (NoInt64 _)).
        rewrite <- (eqNum_same W a (VInt64 (if y then 1 else 0)) n _ Hn (NoInt64 _)).
        destruct (isFloat a) eqn:Fa.
        -- rewrite !eqNum_float by (rewrite Fa; reflexivity). destruct y; reflexivity.
        -- unfold eqNum. rewrite Fa. cbn. reflexivity.
      * rewrite (ecma_numbers W a _ n _ Hn (NoInt _)). apply (eqNum_same W a _ n _ Hn (NoInt _)).
      * rewrite (ecma_numbers W a _ n _ Hn (NoInt64 _)). apply (eqNum_same W a _ n _ Hn (NoInt64 _)).
      * rewrite (ecma_numbers W a _ n _ Hn (NoFloat _)). apply (eqNum_same W a _ n _ Hn (NoFloat _)).
      * cbn [typeOf jsType_beq]. unfold eq_mixed. rewrite Ta. cbn [typeOf cvs].
        destruct (string_number_total W s) as [n' Hsn]. destruct (ecma_num_str W a n s n' Hn Hsn) as [K _]. rewrite K.
        apply num_str_exact; assumption.
      * cbn [typeOf jsType_beq]. unfold eq_mixed. rewrite Ta. cbn [typeOf].
        assert (E : match a with VArr l0 => eqArrayN W l0 (VArr l) | _ => eqArrayN W l a end = eqArrayN W l a) by (destruct Hn; reflexivity).
        rewrite E. assert (Tn : text_or_number a) by (right; eauto).
        rewrite (ecma_prim_right W a (VArr l) Tn) by (left; eauto).
        rewrite <- ecma_str_prim_sym by exact Tn. rewrite <- array_prim_exact by assumption.
        destruct Hn; reflexivity.
      * cbn [typeOf jsType_beq]. unfold eq_mixed. rewrite Ta. cbn [typeOf].
        assert (E : match a with VArr l0 => eqArrayN W l0 (VObj m) | _ => false end = false) by (destruct Hn; reflexivity).
        rewrite E. assert (Tn : text_or_number a) by (right; eauto).
        rewrite (ecma_prim_right W a (VObj m) Tn) by (right; eauto).
        rewrite <- ecma_str_prim_sym by exact Tn. split; [discriminate|].
        intros H. destruct (object_prim W m a Hr Tn (X1 _) H).
      * destruct Nb; right; eexists; reflexivity.
    + (* a string *)
      destruct a as [| | | | |s| | | | | | |]; try discriminate Ta. clear Ta.
      assert (Ts : text_or_number (VStr s)) by (left; eauto).
      destruct b as [|y|y|y|y|t|t|l|m|t|t|t|k]; cbn in Pb; try contradiction.
      * destruct Nb; left; reflexivity.
      * rewrite ecma_bool_right by discriminate. cbn [eqVal typeOf jsType_beq negb eq_mixed cvs].
        destruct (string_number_total W s) as [n' Hsn].
        destruct (ecma_num_str W (bit y) (NInt (if y then 1 else 0)) s n' (NoInt64 _) Hsn) as [_ K]. rewrite K.
        rewrite <- (bool_str_exact W y s n' Hr Hsn).
        destruct (badNum W s true); [reflexivity|]. rewrite !f_eqb_eq. split; apply f_eq_sym.
      * cbn [eqVal typeOf jsType_beq negb eq_mixed cvs]. destruct (string_number_total W s) as [n' Hsn].
        destruct (ecma_num_str W (VInt y) _ s n' (NoInt y) Hsn) as [_ K]. rewrite K.
        rewrite (eqNum_sym W (VStr s)). apply (num_str_exact W (VInt y) (NInt y) s n' Hr); [constructor|exact I2|exact Hsn].
      * cbn [eqVal typeOf jsType_beq negb eq_mixed cvs]. destruct (string_number_total W s) as [n' Hsn].
        destruct (ecma_num_str W (VInt64 y) _ s n' (NoInt64 y) Hsn) as [_ K]. rewrite K.
        rewrite (eqNum_sym W (VStr s)). apply (num_str_exact W (VInt64 y) (NInt y) s n' Hr); [constructor|exact I2|exact Hsn].
      * cbn [eqVal typeOf jsType_beq negb eq_mixed cvs]. destruct (string_number_total W s) as [n' Hsn].
        destruct (ecma_num_str W (VFloat y) _ s n' (NoFloat y) Hsn) as [_ K]. rewrite K.
        rewrite (eqNum_sym W (VStr s)). apply (num_str_exact W (VFloat y) (NFloat y) s n' Hr); [constructor|exact I2|exact Hsn].
      * rewrite ecma_str_str. cbn [eqVal typeOf jsType_beq negb]. apply beqb_eq.
      * rewrite (ecma_prim_right W (VStr s) (VArr l) Ts) by (left; eauto).
        rewrite <- ecma_str_prim_sym by exact Ts. rewrite <- array_prim_exact by assumption. reflexivity.
      * rewrite (ecma_prim_right W (VStr s) (VObj m) Ts) by (right; eauto).
        rewrite <- ecma_str_prim_sym by exact Ts. split; [discriminate|]. intros H.
        destruct (object_prim W m (VStr s) Hr Ts (O2 m eq_refl) H).
      * destruct Nb; right; eexists; reflexivity.
    + (* a Boolean *)
      destruct a as [|x| | | | | | | | | | |]; try discriminate Ta. clear Ta.
      destruct b as [|y|y|y|y|t|t|l|m|t|t|t|k]; cbn in Pb; try contradiction.
      * destruct Nb; left; reflexivity.
      * rewrite ecma_bool_bool. cbn [eqVal typeOf jsType_beq negb]. apply Bool.eqb_true_iff.
      * rewrite ecma_bool_left by discriminate. unfold bit. rewrite (ecma_numbers W _ _ _ _ (NoInt64 _) (NoInt y)).
        rewrite <- (eqNum_same W _ _ _ _ (NoInt64 _) (NoInt y)). reflexivity.
      * rewrite ecma_bool_left by discriminate. unfold bit. rewrite (ecma_numbers W _ _ _ _ (NoInt64 _) (NoInt64 y)).
        rewrite <- (eqNum_same W _ _ _ _ (NoInt64 _) (NoInt64 y)). reflexivity.
      * rewrite ecma_bool_left by discriminate. unfold bit. rewrite (ecma_numbers W _ _ _ _ (NoInt64 _) (NoFloat y)).
        rewrite <- (eqNum_same W _ _ _ _ (NoInt64 _) (NoFloat y)).
        cbn [eqVal typeOf jsType_beq negb eq_mixed]. rewrite !eqNum_float by reflexivity. destruct x; reflexivity.
      * rewrite ecma_bool_left by discriminate. destruct (string_number_total W t) as [n' Hsn].
        destruct (ecma_num_str W (bit x) (NInt (if x then 1 else 0)) t n' (NoInt64 _) Hsn) as [K _]. rewrite K.
        rewrite <- (bool_str_exact W x t n' Hr Hsn). reflexivity.
      * rewrite ecma_bool_left by discriminate. assert (Tb : text_or_number (bit x)) by (right; eexists; constructor).
        rewrite (ecma_prim_right W (bit x) (VArr l) Tb) by (left; eauto).
        rewrite <- ecma_str_prim_sym by exact Tb. rewrite <- array_bool_exact by exact A2. reflexivity.
      * rewrite ecma_bool_left by discriminate. assert (Tb : text_or_number (bit x)) by (right; eexists; constructor).
        rewrite (ecma_prim_right W (bit x) (VObj m) Tb) by (right; eauto).
        rewrite <- ecma_str_prim_sym by exact Tb. split; [discriminate|]. intros H.
        destruct (object_prim W m (bit x) Hr Tb ltac:(discriminate) H).
      * destruct Nb; right; eexists; reflexivity.
    + (* a structure *)
      assert (Sa : structure a).
      { destruct a; try discriminate Ta; cbn in Pa; try contradiction; [left|right]; eauto. }
      assert (Sb : ~ structure b) by tauto.
      assert (PR : forall v, text_or_number v -> (match a with VArr l => array_text a v -> ((match v with VStr s => eqArrayS W l s | _ => eqArrayN W l v end) = true <-> ecma W a v)
         | _ => v <> VStr (b_of "[object Object]") -> ~ ecma W a v end)).
      { intros v Tv. destruct a; try discriminate Ta; cbn in Pa; try contradiction.
        - intros A. rewrite (ecma_prim_left W (VArr l) v Sa Tv). apply array_prim_exact; assumption.
        - intros A H. apply (ecma_prim_left W (VObj m) v Sa Tv) in H. exact (object_prim W m v Hr Tv A H). }
      destruct a as [| | | | | | |l|m| | | |]; try discriminate Ta; cbn in Pa; try contradiction.
      * destruct b as [|y|y|y|y|t|t|l'|m|t|t|t|k]; cbn in Pb; try contradiction.
        -- destruct Nb; left; reflexivity.
        -- rewrite ecma_bool_right by discriminate. assert (Tb : text_or_number (bit y)) by (right; eexists; constructor).
           rewrite (ecma_prim_left W (VArr l) (bit y) Sa Tb). rewrite <- array_bool_exact by exact A1. reflexivity.
        -- rewrite <- (PR (VInt y)); [reflexivity|right; eexists; constructor|exact A1].
        -- rewrite <- (PR (VInt64 y)); [reflexivity|right; eexists; constructor|exact A1].
        -- rewrite <- (PR (VFloat y)); [reflexivity|right; eexists; constructor|exact A1].
        -- rewrite <- (PR (VStr t)); [reflexivity|left; eauto|exact A1].
        -- destruct Sb; left; eauto.
        -- destruct Sb; right; eauto.
        -- destruct Nb; right; eexists; reflexivity.
      * assert (Nt : forall v, text_or_number v -> v <> VStr (b_of "[object Object]") -> ~ ecma W (VObj m) v) by exact PR.
        destruct b as [|y|y|y|y|t|t|l'|m'|t|t|t|k]; cbn in Pb; try contradiction.
        -- destruct Nb; left; reflexivity.
        -- rewrite ecma_bool_right by discriminate. split; [discriminate|]. intros H.
           destruct (Nt (bit y) ltac:(right; eexists; constructor) ltac:(discriminate) H).
        -- split; [discriminate|]. intros H. destruct (Nt (VInt y) ltac:(right; eexists; constructor) ltac:(discriminate) H).
        -- split; [discriminate|]. intros H. destruct (Nt (VInt64 y) ltac:(right; eexists; constructor) ltac:(discriminate) H).
        -- split; [discriminate|]. intros H. destruct (Nt (VFloat y) ltac:(right; eexists; constructor) ltac:(discriminate) H).
        -- split; [discriminate|]. intros H. destruct (Nt (VStr t) ltac:(left; eauto) (O1 m eq_refl) H).
        -- destruct Sb; left; eauto.
        -- destruct Sb; right; eauto.
        -- destruct Nb; right; eexists; reflexivity.
Qed.

Lemma eqVal_arr : forall W l l', eqVal W (VArr l) (VArr l') = true <-> Forall2 (fun x y => eqVal W x y = true) l l'.
Proof.
  intros W l l'. cbn [eqVal typeOf jsType_beq negb]. rewrite andb_true_iff, Nat.eqb_eq.
  revert l'. induction l as [|x l IH]; intros [|y l']; cbn [length].
  - split; [constructor|auto].
  - split; [intros [H _]; discriminate H|intros H; inversion H].
  - split; [intros [H _]; discriminate H|intros H; inversion H].
  - split.
    + intros [Hl H]. apply andb_true_iff in H as [H1 H2]. constructor; [exact H1|]. apply IH. split; [congruence|exact H2].
    + intros H. assert (H1 := H). inversion H as [|? ? ? ? X Y]. apply IH in Y as [Y1 Y2].
      split; [congruence|]. rewrite X. exact Y2.
Qed.

Lemma eqVal_obj : forall W m m', eqVal W (VObj m) (VObj m') = true <->
  length m = length m' /\
  forall k v, In (k, v) m -> eqVal W v (match lookup k m' with Some w => w | None => VNil end) = true.
Proof.
  intros W m m'. cbn [eqVal typeOf jsType_beq negb]. rewrite andb_true_iff, Nat.eqb_eq.
  assert (G : forall m, (fix go (ma : list (bytes * val)) : bool :=
           match ma with
           | [] => true
           | (k, v) :: ma' => eqVal W v (match lookup k m' with Some w => w | None => VNil end) && go ma'
           end) m = true <-> forall k v, In (k, v) m -> eqVal W v (match lookup k m' with Some w => w | None => VNil end) = true).
  { clear m. induction m as [|[k v] m IH].
    - split; [intros _ k v []|reflexivity].
    - rewrite andb_true_iff, IH. split.
      + intros [H1 H2] k' v' [E|Hin]; [injection E as <- <-; exact H1|apply H2; exact Hin].
      + intros H. split; [apply (H k v); left; reflexivity|]. intros k' v' Hin. apply H. right. exact Hin. }
  rewrite G. reflexivity.
Qed.

Lemma same_place_here : forall P a b, at_same_place P a b -> P a b.
Proof. intros P a b H. apply (H []); constructor. Qed.
Lemma same_place_elem : forall P l l' i x y, at_same_place P (VArr l) (VArr l') ->
  nth_error l i = Some x -> nth_error l' i = Some y -> at_same_place P x y.
Proof. intros P l l' i x y H Hx Hy p u w Hu Hw. apply (H (AtIndex i :: p)); eapply VaElem; eassumption. Qed.
Lemma same_place_member : forall P m m' k x y, at_same_place P (VObj m) (VObj m') ->
  In (k, x) m -> In (k, y) m' -> at_same_place P x y.
Proof. intros P l l' i x y H Hx Hy p u w Hu Hw. apply (H (AtName i :: p)); eapply VaMember; eassumption. Qed.

Lemma Forall2_iff : forall A (P Q : A -> A -> Prop) l l',
  (forall i x y, nth_error l i = Some x -> nth_error l' i = Some y -> (P x y <-> Q x y)) ->
  (Forall2 P l l' <-> Forall2 Q l l').
Proof.
  intros A P Q. induction l as [|x l IH]; intros [|y l'] H.
  - split; constructor.
  - split; intros K; inversion K.
  - split; intros K; inversion K.
  - assert (I : Forall2 P l l' <-> Forall2 Q l l') by (apply IH; intros i; apply (H (S i))).
    assert (E : P x y <-> Q x y) by (apply (H 0%nat); reflexivity).
    split; intros K; (constructor; [apply E|apply I]; inversion K; assumption).
Qed.

(** with members that are not null, the names must be the same *)
Lemma same_names : forall W m m', NoDup (map fst m) -> NoDup (map fst m') -> length m = length m' ->
  no_null_members (VObj m) ->
  (forall k v, In (k, v) m -> eqVal W v (match lookup k m' with Some w => w | None => VNil end) = true) ->
  forall k, In k (map fst m) <-> In k (map fst m').
Proof.
  intros W m m' N N' L Hn H.
  assert (I : incl (map fst m) (map fst m')).
  { intros k Hk. apply in_map_iff in Hk as ([k' v] & <- & Hin). cbn [fst].
    assert (K := H k' v Hin). destruct (lookup k' m') as [w|] eqn:E.
    - apply lookup_some in E. apply in_map_iff. exists (k', w). auto.
    - apply eqVal_nil in K. destruct (Hn m k' v eq_refl Hin K). }
  intros k. split; [apply I|]. apply NoDup_length_incl; [exact N| |exact I]. rewrite !map_length. lia.
Qed.

Theorem eq_exact : forall W a b, reads_integers W -> at_same_place (fair W) a b -> (eqVal W a b = true <-> ecma W a b).
Proof.
  intros W a b Hr. revert b.
  induction a as [|x0|x0|x0|x0|s0|s0|l IH|m IH|s0|s0|s0|k0] using val_tree_ind; intros b H;
    try (apply flat_exact; [exact Hr|apply same_place_here; exact H|intros [S _]; eq_bad]).
  - destruct b as [|y|y|y|y|t|t|l'|m'|t|t|t|k];
      try (apply flat_exact; [exact Hr|apply same_place_here; exact H|intros [_ S]; eq_bad]).
    + rewrite eqVal_arr, ecma_arrays. apply Forall2_iff. intros i x y Hx Hy.
      rewrite Forall_forall in IH. apply IH; [eapply nth_error_In; exact Hx|].
      eapply same_place_elem; eassumption.
    + split; [discriminate|]. intros K. destruct (proj1 (ecma_array_object W l m') K).
  - destruct b as [|y|y|y|y|t|t|l'|m'|t|t|t|k];
      try (apply flat_exact; [exact Hr|apply same_place_here; exact H|intros [_ S]; eq_bad]).
    + split; [discriminate|]. intros K. destruct (proj2 (ecma_array_object W l' m) K).
    + rewrite Forall_forall in IH.
      destruct (same_place_here _ _ _ H) as (N & N' & U & U' & _). cbn in N, N'.
      assert (IH' : forall k v v', In (k, v) m -> In (k, v') m' -> (eqVal W v v' = true <-> ecma W v v')).
      { intros k v v' Hv Hv'. apply (IH (k, v) Hv). eapply same_place_member; eassumption. }
      rewrite eqVal_obj, ecma_objects. split.
      * intros [L K]. assert (S := same_names W m m' N N' L U K). split; [exact S|].
        intros k v v' Hv Hv'. apply (IH' k v v' Hv Hv').
        assert (Q := K k v Hv). rewrite (in_lookup _ k m' v' N' Hv') in Q. exact Q.
      * intros [S K]. split.
        { rewrite <- (map_length fst m), <- (map_length fst m').
          apply Nat.le_antisymm; apply NoDup_incl_length; try assumption; intros k Hk; apply S; exact Hk. }
        intros k v Hv. assert (Hk : In k (map fst m')) by (apply S; apply in_map_iff; exists (k, v); auto).
        apply in_map_iff in Hk as ([k' v'] & E & Hv'). cbn in E. subst k'.
        rewrite (in_lookup _ k m' v' N' Hv'). apply (IH' k v v' Hv Hv'). apply (K k v v' Hv Hv').
Qed.

(** ** Reflexivity *)
Lemma Forall2_self : forall A (P : A -> A -> Prop) l, (forall x, In x l -> P x x) -> Forall2 P l l.
Proof. intros A P. induction l as [|x l IH]; intros H; constructor; [apply H; left; reflexivity|apply IH; intros; apply H; right; assumption]. Qed.

Lemma eq_refl_doc : forall W v,
  (forall x, within x v -> json_node x /\ (forall s, x <> VNum s) /\ x <> VFloat S754_nan) -> eqVal W v v = true.
Proof.
  intros W v. induction v as [|x0|x0|x0|x0|s0|s0|l IH|m IH|s0|s0|s0|k0] using val_tree_ind; intros H;
    assert (H0 := H _ (WSelf _)); destruct H0 as (J & Nn & Nf); cbn in J; try contradiction.
  - reflexivity.
  - cbn. apply Bool.eqb_reflx.
  - cbn. unfold eqNum. cbn. apply Z.eqb_refl.
  - cbn. unfold eqNum. cbn. apply Z.eqb_refl.
  - cbn [eqVal typeOf jsType_beq negb]. rewrite eqNum_float by reflexivity. apply f_eqb_eq, f_eq_refl.
    cbn. congruence.
  - cbn. apply beqb_eq. reflexivity.
  - destruct (Nn s0 eq_refl).
  - rewrite Forall_forall in IH. apply eqVal_arr, Forall2_self. intros x Hx. apply IH; [exact Hx|].
    intros y Hy. apply H. eapply WElem; eassumption.
  - rewrite Forall_forall in IH. apply eqVal_obj. split; [reflexivity|]. intros k x Hx.
    rewrite (in_lookup _ k m x (proj1 J) Hx). apply (IH (k, x) Hx).
    intros y Hy. apply H. eapply WMember; eassumption.
Qed.
Lemma num_not_refl : forall W s, eqVal W (VNum s) (VNum s) = false.
Proof. reflexivity. Qed.

(** ** Symmetry *)


Lemma beqb_sym : forall s t, beqb s t = beqb t s.
Proof.
  intros s t. destruct (beqb s t) eqn:E; symmetry; [apply beqb_eq; apply beqb_eq in E; congruence|].
  destruct (beqb t s) eqn:F; [|reflexivity]. apply beqb_eq in F. subst. assert (beqb s s = true) by (apply beqb_eq; reflexivity). congruence.
Qed.
Lemma f_eqb_sym : forall x y, f_eqb x y = f_eqb y x.
Proof.
  intros x y. destruct (f_eqb x y) eqn:E; symmetry.
  - apply f_eqb_eq, f_eq_sym, f_eqb_eq. exact E.
  - destruct (f_eqb y x) eqn:F; [|reflexivity]. apply f_eqb_eq, f_eq_sym, f_eqb_eq in F. congruence.
Qed.
Lemma bool_eqb_sym : forall x y, Bool.eqb x y = Bool.eqb y x.
Proof. intros [] []; reflexivity. Qed.

Lemma flat_sym : forall W a b, ~ (structure a /\ structure b) -> eqVal W a b = eqVal W b a.
Proof.
  intros W a b Hs.
  destruct a as [|x|x|x|x|s|s|l|m|s|s|s|k], b as [|y|y|y|y|t|t|l'|m'|t|t|t|k'];
    try reflexivity;
    try (exfalso; apply Hs; split; ((left; eauto; fail) || (right; eauto; fail)));
    cbn [eqVal typeOf jsType_beq negb eq_mixed cvs isFloat];
    try apply eqNum_sym; try apply beqb_sym; try apply bool_eqb_sym; try (rewrite eqNum_sym; reflexivity); try (rewrite f_eqb_sym; reflexivity).
Qed.

Lemma eq_sym_half : forall W a b, at_same_place sym_ok a b -> eqVal W a b = true -> eqVal W b a = true.
Proof.
  intros W a. induction a as [|x0|x0|x0|x0|s0|s0|l IH|m IH|s0|s0|s0|k0] using val_tree_ind; intros b H E;
    try (rewrite flat_sym; [exact E|intros [_ S]; eq_bad]).
  - destruct b as [|y|y|y|y|t|t|l'|m'|t|t|t|k];
      try (rewrite flat_sym; [exact E|intros [S _]; eq_bad]); try discriminate E.
    apply eqVal_arr. apply eqVal_arr in E. rewrite Forall_forall in IH.
    assert (G : forall i x y, nth_error l i = Some x -> nth_error l' i = Some y -> eqVal W x y = true -> eqVal W y x = true).
    { intros i x y Hx Hy. apply IH; [eapply nth_error_In; exact Hx|]. eapply same_place_elem; eassumption. }
    clear IH H. revert l' E G. induction l as [|x l IHl]; intros l' E G; inversion E as [|? y ? l'' X Y]; subst; constructor.
    + apply (G 0%nat x y eq_refl eq_refl X).
    + apply IHl; [exact Y|]. intros i. apply (G (S i)).
  - destruct b as [|y|y|y|y|t|t|l'|m'|t|t|t|k];
      try (rewrite flat_sym; [exact E|intros [S _]; eq_bad]); try discriminate E.
    destruct (same_place_here _ _ _ H) as (N & N' & U & U').
    assert (N1 := N m eq_refl). assert (N2 := N' m' eq_refl).
    apply eqVal_obj. apply eqVal_obj in E as [L K]. split; [congruence|].
    assert (S := same_names W m m' N1 N2 L U K).
    intros k v Hv. assert (Hk : In k (map fst m)) by (apply S; apply in_map_iff; exists (k, v); auto).
    apply in_map_iff in Hk as ([k' v'] & Ek & Hv'). cbn in Ek. subst k'.
    rewrite (in_lookup _ k m v' N1 Hv'). rewrite Forall_forall in IH. apply (IH (k, v') Hv').
    + eapply same_place_member; eassumption.
    + assert (Q := K k v' Hv'). rewrite (in_lookup _ k m' v N2 Hv) in Q. exact Q.
Qed.

Lemma same_place_sym : forall (P : val -> val -> Prop) a b, (forall x y, P x y -> P y x) -> at_same_place P a b -> at_same_place P b a.
Proof. intros P a b S H p x y Hx Hy. apply S. eapply H; eassumption. Qed.

Lemma eq_sym_all : forall W a b, at_same_place sym_ok a b -> eqVal W a b = eqVal W b a.
Proof.
  intros W a b H.
  assert (H' : at_same_place sym_ok b a) by (apply same_place_sym; [|exact H]; unfold sym_ok; tauto).
  destruct (eqVal W a b) eqn:E; symmetry; [apply eq_sym_half; assumption|].
  destruct (eqVal W b a) eqn:F; [|reflexivity]. apply eq_sym_half in F; [congruence|exact H'].
Qed.

(** ** As orders *)
Lemma computes_eq : forall W a b v, computes W OpEQ [a; b] v <-> v = VBool (eqVal W a b).
Proof.
  intros W a b v. split; [|intros ->; apply eq_computes]. intros H.
  apply (computes_unique W OpEQ [a; b]); [reflexivity|exact H|apply eq_computes].
Qed.
Lemma reflexive_computes : forall W v,
  (forall x, within x v -> json_node x /\ (forall s, x <> VNum s) /\ x <> VFloat S754_nan) -> computes W OpEQ [v; v] (VBool true).
Proof. intros W v H. rewrite <- (eq_refl_doc W v H). apply eq_computes. Qed.
Lemma num_computes : forall W s, computes W OpEQ [VNum s; VNum s] (VBool false).
Proof. intros W s. apply (eq_computes W (VNum s) (VNum s)). Qed.
Lemma symmetric_computes : forall W a b v, at_same_place sym_ok a b ->
  (computes W OpEQ [a; b] v <-> computes W OpEQ [b; a] v).
Proof. intros W a b v H. rewrite !computes_eq, (eq_sym_all W a b H). reflexivity. Qed.
Lemma asymmetric : exists a b, doc a /\ doc b /\ forall W,
  computes W OpEQ [a; b] (VBool true) /\ computes W OpEQ [b; a] (VBool false).
Proof.
  exists (VObj [(b_of "a", VNil)]), (VObj [(b_of "b", VBool true)]).
  assert (D : forall k v, json_node v -> children v = [] -> doc (VObj [(k, v)])).
  { intros k v J C x Hx. remember (VObj [(k, v)]) as o eqn:E.
    destruct Hx as [o|x e l Hin Hx|x k' e m Hin Hx]; subst; try discriminate E.
    - cbn. split; [apply NoDup_cons; [intros K; destruct K|apply NoDup_nil]|unfold max_int64; lia].
    - injection E as ->. destruct Hin as [Hin|[]]. injection Hin as <- <-.
      destruct Hx as [|x e l Hin Hx|x k' e m Hin Hx]; [exact J| |].
      + cbn in C. subst. destruct Hin.
      + cbn in C. destruct m; [destruct Hin|discriminate C]. }
  split; [apply D; [exact I|reflexivity]|]. split; [apply D; [exact I|reflexivity]|].
  intros W. split; apply computes_eq; reflexivity.
Qed.
Lemma ecma_computes : forall W a b, reads_integers W -> at_same_place (fair W) a b ->
  exists r, computes W OpEQ [a; b] (VBool r) /\ computes W OpNE [a; b] (VBool (negb r)) /\ (r = true <-> ecma W a b).
Proof.
  intros W a b Hr H. exists (eqVal W a b). split; [apply eq_computes|]. split; [apply ne_computes|].
  apply eq_exact; assumption.
Qed.
Lemma ne_negates : forall W a b r, computes W OpEQ [a; b] (VBool r) <-> computes W OpNE [a; b] (VBool (negb r)).
Proof.
  intros W a b r. rewrite computes_eq. split.
  - intros E. injection E as ->. apply ne_computes.
  - intros H. assert (E : VBool (negb r) = VBool (negb (eqVal W a b))).
    { apply (computes_unique W OpNE [a; b]); [reflexivity|exact H|apply ne_computes]. }
    injection E as E. f_equal. rewrite <- (negb_involutive r), E. apply negb_involutive.
Qed.

(** ** A world for the counterexamples *)
Definition reading : world :=
  mkWorld (mkText (fun t => if beqb t (b_of "1.5") then Some (S754_finite false 6755399441055744 (-52))
                            else match parse_int t with Some z => Some (nearest z) | None => None end) (fun _ => true))
    beqb (fun _ s => [s]) (fun _ => []) (fun _ => []) (fun _ => 0) (fun _ n => seq 0 n).
Lemma nearest_not_nan : forall z, nearest z <> S754_nan.
Proof.
  intros z E. destruct (Z_le_gt_dec (Z.abs z) (2 ^ 53)) as [L|L].
  - destruct (nearest_exact z L) as (q & R & _). rewrite E in R. discriminate R.
  - assert (K := nearest_big z ltac:(lia)). rewrite E in K. exact K.
Qed.
Lemma reading_ok : reads_integers reading.
Proof.
  split; [|reflexivity]. intros s z P. cbn [o_parse_float w_text reading].
  destruct (beqb s (b_of "1.5")) eqn:E.
  - apply beqb_eq in E. subst. discriminate P.
  - rewrite P. exists (nearest z). split; [reflexivity|]. apply f_eq_refl, nearest_not_nan.
Qed.

Lemma not_ecma : exists W, reads_integers W /\
  (computes W OpEQ [VInt64 0; VStr (b_of "1.5")] (VBool true) /\ ~ ecma W (VInt64 0) (VStr (b_of "1.5"))) /\
  (computes W OpEQ [VArr [VInt64 1; VInt64 2]; VStr (b_of "1,2")] (VBool false) /\
   ecma W (VArr [VInt64 1; VInt64 2]) (VStr (b_of "1,2"))).
Proof.
  exists reading. split; [apply reading_ok|]. split; split.
  - apply computes_eq. reflexivity.
  - intros H.
    destruct (ecma_num_str reading (VInt64 0) (NInt 0) (b_of "1.5") (NFloat (S754_finite false 6755399441055744 (-52))) (NoInt64 0)) as [K _].
    { apply SnFloat; [discriminate|reflexivity|reflexivity]. }
    apply K in H. discriminate H.
  - apply computes_eq. reflexivity.
  - apply EqPrimLeft; [left; eauto|left; eauto|]. apply ecma_str_str. reflexivity.
Qed.

Lemma fair_example : exists W, reads_integers W /\
  at_same_place (fair W) (VObj [(b_of "x", VArr [VInt64 7]); (b_of "y", VBool true)])
    (VObj [(b_of "y", VStr (b_of "1")); (b_of "x", VInt64 7)]) /\
  ecma W (VObj [(b_of "x", VArr [VInt64 7]); (b_of "y", VBool true)])
    (VObj [(b_of "y", VStr (b_of "1")); (b_of "x", VInt64 7)]).
Proof.
  exists reading. split; [apply reading_ok|].
  assert (S : at_same_place (fair reading) (VObj [(b_of "x", VArr [VInt64 7]); (b_of "y", VBool true)])
    (VObj [(b_of "y", VStr (b_of "1")); (b_of "x", VInt64 7)])).
  { intros p x y Hx Hy. destruct p as [|k p].
    - inversion Hx; inversion Hy; subst.
      split; [cbn; repeat constructor; cbn; intros H; repeat (destruct H as [H|H]); try discriminate H; destruct H|].
      split; [cbn; repeat constructor; cbn; intros H; repeat (destruct H as [H|H]); try discriminate H; destruct H|].
      split; [intros m k v E Hin; injection E as <-; destruct Hin as [Hin|[Hin|[]]]; injection Hin as <- <-; intros [E|[? E]]; discriminate|].
      split; [intros m k v E Hin; injection E as <-; destruct Hin as [Hin|[Hin|[]]]; injection Hin as <- <-; intros [E|[? E]]; discriminate|].
      split; [intros z s [E|E]; discriminate|]. split; [intros z s [E|E]; discriminate|].
      split; [intros l E; discriminate|]. split; [intros l E; discriminate|].
      split; intros m E; discriminate.
    - inversion Hx as [| |m k' e q z Hin He]; subst. inversion Hy as [| |m2 k2 e2 q2 z2 Hin' He']; subst.
      destruct Hin as [Hin|[Hin|[]]]; destruct Hin' as [Hin'|[Hin'|[]]]; injection Hin as <- <-; try discriminate Hin'; injection Hin' as <-;
        inversion He'; subst; inversion He; subst.
      + split; [exact I|]. split; [exact I|]. split; [intros m k v E; discriminate|]. split; [intros m k v E; discriminate|].
        split; [intros z s [E|E]; discriminate|]. split; [intros z s _ E; discriminate|].
        split; [intros l E _; injection E as <-; right; left; exists 7; split; [cbv; split; discriminate|right; reflexivity]|].
        split; [intros l E; discriminate|]. split; intros m E; discriminate.
      + split; [exact I|]. split; [exact I|]. split; [intros m k v E; discriminate|]. split; [intros m k v E; discriminate|].
        split; [intros z s [E|E]; discriminate|]. split; [intros z s _ E; discriminate|].
        split; [intros l E; discriminate|].
        split; [intros l E; discriminate|]. split; intros m E; discriminate. }
  split; [exact S|]. apply eq_exact; [apply reading_ok|exact S|]. vm_compute. reflexivity.
Qed.

(** ** Exactly *)
Lemma eq_refl_only : forall W v, doc v -> eqVal W v v = true -> forall x, within x v -> (forall s, x <> VNum s) /\ x <> VFloat S754_nan.
Proof.
  intros W v D E x Hx. revert D E. induction Hx as [v|x e l Hin Hx IH|x k e m Hin Hx IH]; intros D E.
  - split; [intros s ->; discriminate E|intros ->; discriminate E].
  - apply eqVal_arr in E. apply IH; [intros y Hy; apply D; eapply WElem; eassumption|].
    clear - Hin E. induction l as [|a l IHl]; [destruct Hin|]. inversion E; subst. destruct Hin as [<-|Hin]; auto.
  - apply eqVal_obj in E as [_ E]. apply IH; [intros y Hy; apply D; eapply WMember; eassumption|].
    specialize (E k e Hin). destruct (D _ (WSelf _)) as [N _]. rewrite (in_lookup _ k m e N Hin) in E. exact E.
Qed.

Lemma reflexive_exactly : forall W v, doc v -> exists r, computes W OpEQ [v; v] (VBool r) /\
  (r = true <-> forall x, within x v -> (forall s, x <> VNum s) /\ x <> VFloat S754_nan).
Proof.
  intros W v D. exists (eqVal W v v). split; [apply eq_computes|]. split; [apply eq_refl_only, D|].
  intros H. apply eq_refl_doc. intros x Hx. split; [apply D, Hx|apply H, Hx].
Qed.

Lemma arrays_computes : forall W l l',
  computes W OpEQ [VArr l; VArr l'] (VBool true) <-> Forall2 (fun x y => computes W OpEQ [x; y] (VBool true)) l l'.
Proof.
  intros W l l'. rewrite computes_eq. split.
  - intro H. injection H as H. symmetry in H. apply eqVal_arr in H. induction H as [|x y l l' E H IH]; constructor; [|exact IH].
    rewrite <- E. apply eq_computes.
  - intro H. f_equal. symmetry. apply eqVal_arr. induction H as [|x y l l' E H IH]; constructor; [|exact IH].
    apply computes_eq in E. congruence.
Qed.

Lemma objects_computes : forall W m m', NoDup (map fst m') ->
  computes W OpEQ [VObj m; VObj m'] (VBool true) <->
  length m = length m' /\
  forall k v, In (k, v) m ->
    (forall w, In (k, w) m' -> computes W OpEQ [v; w] (VBool true)) /\ (~ In k (map fst m') -> nullish v).
Proof.
  intros W m m' N.
  assert (Q : forall v, eqVal W v VNil = true <-> nullish v).
  { intro v. unfold nullish, failure. destruct v; cbn; split; intro H; try discriminate H; auto; try (destruct H as [H|[? H]]; discriminate H).
    right. eauto. }
  rewrite computes_eq. split.
  - intro H. injection H as H. symmetry in H. apply eqVal_obj in H as [L H]. split; [exact L|]. intros k v Hv. specialize (H k v Hv). split.
    + intros w Hw. rewrite (in_lookup _ k m' w N Hw) in H. rewrite <- H. apply eq_computes.
    + intros Hk. apply Q. destruct (lookup k m') as [w|] eqn:El; [|exact H]. exfalso. apply Hk.
      apply SelectProofs.lookup_some in El. apply in_map_iff. exists (k, w). auto.
  - intros [L H]. f_equal. symmetry. apply eqVal_obj. split; [exact L|]. intros k v Hv. destruct (H k v Hv) as [H1 H2].
    destruct (lookup k m') as [w|] eqn:El.
    + apply SelectProofs.lookup_some in El. specialize (H1 w El). apply computes_eq in H1. congruence.
    + apply Q, H2. intro Hk. apply in_map_iff in Hk as ([k' w] & E & Hw). cbn in E. subst k'.
      rewrite (in_lookup _ k m' w N Hw) in El. discriminate El.
Qed.
