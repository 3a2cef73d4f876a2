(** Laws of sum, prod, avg, min, max, length, keys and contains. *)
From Coq Require Import QArith Qabs Lqa Permutation.
From Verif Require Import Syntax Value Machine MachineProofs SpecOp SpecExpr SpecRound SpecAggregate OpProofs FloatProofs ArithProofs LogicProofs
  FnProofs SpecRun IndexProofs ExprFinal RoundProofs RoundFinal CompareProofs.
Import ListNotations.
Local Open Scope Z_scope.

(** ** Exact results *)
Lemma near_zero : forall z, Z.abs z <= 2 ^ 53 -> forall s, nearest z = S754_zero s -> s = false /\ z = 0.
Proof.
  intros z Hz s E. destruct (nearest_exact z Hz) as (q & Eq & Vq). rewrite E in Eq. injection Eq as <-.
  assert (z = 0) as -> by (symmetry; apply (proj1 (inject_Z_injective 0 z)); exact Vq).
  split; [|reflexivity]. vm_compute in E. injection E as <-. reflexivity.
Qed.

Lemma add_near : forall a b, Z.abs a <= 2 ^ 53 -> Z.abs b <= 2 ^ 53 -> Z.abs (a + b) <= 2 ^ 53 ->
  SFadd 53 1024 (nearest a) (nearest b) = nearest (a + b).
Proof.
  intros a b Ha Hb Hab. destruct (nearest_exact a Ha) as (p & Ep & Vp), (nearest_exact b Hb) as (q & Eq & Vq).
  destruct (add_ieee (nearest a) (nearest b)) as (p' & q' & E1 & E2 & _ & R & Z0); [apply nearest_good|apply nearest_good|congruence|congruence|].
  rewrite Ep in E1. injection E1 as <-. rewrite Eq in E2. injection E2 as <-. cbn [exact_q] in R, Z0.
  assert (V : (p + q == inject_Z (a + b))%Q) by (rewrite inject_Z_plus, Vp, Vq; reflexivity).
  pose proof (rounded_eq _ _ _ V R) as R'.
  destruct (rounded_same _ _ _ R' (nearest_rounded (a + b))) as [K|(K & s & s' & E & E')]; [exact K|].
  rewrite E, E'. destruct (near_zero _ Hab s' E') as [-> _]. f_equal.
  assert (Z00 : (p + q == 0)%Q) by (rewrite V; exact K).
  specialize (Z0 s E Z00). cbn [zero_sign] in Z0. destruct s; [|reflexivity].
  destruct (proj1 Z0 eq_refl) as [K1 _]. apply (near_zero a Ha) in K1. destruct K1 as [K1 _]; discriminate K1.
Qed.

Lemma total_abs : forall l, Z.abs (total l) <= total (map Z.abs l) /\ 0 <= total (map Z.abs l).
Proof. unfold total. induction l as [|z l IH]; cbn [fold_right map]; lia. Qed.

Lemma fold_sum : forall l n, Z.abs n + total (map Z.abs l) <= 2 ^ 53 ->
  fold_left (SFadd 53 1024) (map nearest l) (nearest n) = nearest (n + total l).
Proof.
  induction l as [|z l IH]; intros n H; [cbn; f_equal; lia|]. cbn [map fold_left total fold_right] in *. fold (total l) in *. fold (total (map Z.abs l)) in *.
  destruct (total_abs l) as [T1 T2]. rewrite add_near by lia. rewrite IH by lia. f_equal. lia.
Qed.

Lemma F2_len : forall a zs, Forall2 int_of a zs -> length a = length zs.
Proof. intros a zs H. induction H as [|x z l l0 Hx H IH]; [reflexivity|cbn [length]; congruence]. Qed.
Lemma ints_floats : forall a zs, Forall2 int_of a zs -> Forall2 float_of a (map nearest zs).
Proof. intros a zs H. induction H as [|x z l l0 Hx H IH]; [exact (Forall2_nil _)|]. cbn [map]. apply Forall2_cons; [apply FoInt, Hx|exact IH]. Qed.

Lemma sum_ints : forall W a zs, Forall2 int_of a zs -> sums_small zs -> calls W "sum" [VArr a] (VFloat (nearest (total zs))).
Proof.
  intros W a zs Ha Hs. destruct (folds_exact W a _ (ints_floats _ _ Ha)) as (H & _ & _).
  change (S754_zero false) with (nearest 0) in H. rewrite fold_sum in H by (unfold sums_small in Hs; lia). exact H.
Qed.

Theorem sum_exact : forall W a zs, Forall2 int_of a zs -> sums_small zs ->
  exists f, calls W "sum" [VArr a] (VFloat f) /\ whole f (total zs).
Proof.
  intros W a zs Ha Hs. exists (nearest (total zs)). split; [apply sum_ints; assumption|].
  apply nearest_exact. destruct (total_abs zs). unfold sums_small in Hs. lia.
Qed.

(** *** products *)
Definition sz (s : bool) (n : Z) : f64 := if n =? 0 then S754_zero s else nearest n.
Definition sgn (s : bool) (n : Z) : bool := if n =? 0 then s else n <? 0.

Lemma sz_real : forall s n, Z.abs n <= 2 ^ 53 -> exists q, real_of (sz s n) = Some q /\ (q == inject_Z n)%Q.
Proof.
  intros s n H. unfold sz. destruct (n =? 0) eqn:E; [apply Z.eqb_eq in E; subst n; exists 0%Q; split; reflexivity|].
  apply nearest_exact, H.
Qed.
Lemma sz_double : forall s n, double (sz s n).
Proof. intros s n. unfold sz. destruct (n =? 0); [exact I || reflexivity|apply nearest_good]. Qed.
Lemma sz_sign : forall s n, Z.abs n <= 2 ^ 53 -> sign_of (sz s n) = Some (sgn s n).
Proof.
  intros s n H. unfold sz, sgn. destruct (n =? 0) eqn:E; [reflexivity|]. apply Z.eqb_neq in E.
  pose proof (nearest_rounded n) as R. destruct (nearest_exact n H) as (q & Eq & Vq).
  inversion R as [f A1 A2 A3 A4 A5 Ef|t A1 A2 Ef]; [|rewrite <- Ef in Eq; discriminate Eq].
  change 0%Q with (inject_Z 0) in A4, A5. rewrite <- Zlt_Qlt in A4, A5.
  destruct (n <? 0) eqn:L; [apply Z.ltb_lt in L; apply A4, L|apply Z.ltb_ge in L; apply A5; lia].
Qed.

Lemma mul_near : forall s t a b, Z.abs a <= 2 ^ 53 -> Z.abs b <= 2 ^ 53 -> Z.abs (a * b) <= 2 ^ 53 ->
  SFmul 53 1024 (sz s a) (sz t b) = sz (xorb (sgn s a) (sgn t b)) (a * b).
Proof.
  intros s t a b Ha Hb Hab. destruct (sz_real s a Ha) as (p & Ep & Vp), (sz_real t b Hb) as (q & Eq & Vq).
  destruct (mul_ieee (sz s a) (sz t b)) as (p' & q' & E1 & E2 & _ & R & Z0); [apply sz_double|apply sz_double|congruence|congruence|].
  rewrite Ep in E1. injection E1 as <-. rewrite Eq in E2. injection E2 as <-. cbn [exact_q] in R, Z0.
  assert (V : (p * q == inject_Z (a * b))%Q) by (rewrite inject_Z_mult, Vp, Vq; reflexivity).
  pose proof (rounded_eq _ _ _ V R) as R'. unfold sz at 3. destruct (a * b =? 0) eqn:E.
  - apply Z.eqb_eq in E. rewrite E in R', V. change (inject_Z 0) with 0%Q in R', V.
    destruct (rounded_same _ _ _ R' (zero_rounded 0%Q false (Qeq_refl 0))) as [K|(_ & u & u' & K & K')].
    + rewrite K. f_equal. specialize (Z0 false K V). cbn [zero_sign] in Z0. destruct Z0 as (c & d & Hc & Hd & ->).
      rewrite sz_sign in Hc, Hd by assumption. congruence.
    + rewrite K. f_equal. specialize (Z0 u K V). cbn [zero_sign] in Z0. destruct Z0 as (c & d & Hc & Hd & ->).
      rewrite sz_sign in Hc, Hd by assumption. congruence.
  - apply Z.eqb_neq in E. destruct (rounded_same _ _ _ R' (nearest_rounded (a * b))) as [K|(K & _)]; [exact K|].
    apply (proj1 (inject_Z_injective (a * b) 0)) in K. contradiction.
Qed.

Definition size (l : list Z) : Z := product (map (fun z => Z.max 1 (Z.abs z)) l).
Lemma size_abs : forall l, Z.abs (product l) <= size l /\ 1 <= size l.
Proof.
  unfold size, product. induction l as [|z l IH]; cbn [fold_right map]; [lia|]. rewrite Z.abs_mul. split; nia.
Qed.

Definition signs (l : list Z) : bool := fold_right xorb false (map (sgn false) l).

Lemma sgn_mul : forall s t a b, sgn (xorb (sgn s a) (sgn t b)) (a * b) = xorb (sgn s a) (sgn t b).
Proof.
  intros s t a b. unfold sgn at 1. destruct (a * b =? 0) eqn:E; [reflexivity|]. apply Z.eqb_neq in E. unfold sgn.
  assert (a <> 0 /\ b <> 0) as [A B] by nia. rewrite (proj2 (Z.eqb_neq a 0) A), (proj2 (Z.eqb_neq b 0) B).
  destruct (a <? 0) eqn:LA, (b <? 0) eqn:LB; rewrite ?Z.ltb_lt, ?Z.ltb_ge in *; cbn [xorb]; rewrite ?Z.ltb_lt, ?Z.ltb_ge; nia.
Qed.

Lemma fold_prod : forall l s n, Z.max 1 (Z.abs n) * size l <= 2 ^ 53 ->
  fold_left (SFmul 53 1024) (map nearest l) (sz s n) = sz (xorb (sgn s n) (signs l)) (n * product l).
Proof.
  assert (N : forall z, nearest z = sz false z).
  { intro z. unfold sz. destruct (z =? 0) eqn:E; [apply Z.eqb_eq in E; subst z; reflexivity|reflexivity]. }
  induction l as [|z l IH]; intros s n H.
  - cbn. rewrite Z.mul_1_r, xorb_false_r. unfold sz, sgn. destruct (n =? 0); reflexivity.
  - cbn [map fold_left]. assert (S : size (z :: l) = Z.max 1 (Z.abs z) * size l) by reflexivity. rewrite S in H.
    destruct (size_abs l) as [_ P]. rewrite N, mul_near; [|nia|nia|rewrite Z.abs_mul; nia]. rewrite IH; [|rewrite Z.abs_mul; nia].
    rewrite sgn_mul, xorb_assoc. change (product (z :: l)) with (z * product l). rewrite Z.mul_assoc. reflexivity.
Qed.

Lemma prod_ints : forall W a zs, Forall2 int_of a zs -> a <> [] -> products_small zs ->
  calls W "prod" [VArr a] (VFloat (sz (signs zs) (product zs))).
Proof.
  intros W a zs Ha Hne Hs. destruct (folds_exact W a _ (ints_floats _ _ Ha)) as (_ & H & _).
  destruct zs as [|z zs]; [inversion Ha; subst; contradiction|]. cbn [map] in H.
  assert (N : nearest z = sz false z) by (unfold sz; destruct (z =? 0) eqn:E; [apply Z.eqb_eq in E; subst z; reflexivity|reflexivity]).
  rewrite N, fold_prod in H by exact Hs. exact H.
Qed.

Theorem prod_exact : forall W a zs, Forall2 int_of a zs -> a <> [] -> products_small zs ->
  exists f, calls W "prod" [VArr a] (VFloat f) /\ whole f (product zs).
Proof.
  intros W a zs Ha Hne Hs. eexists. split; [apply prod_ints; eassumption|]. apply sz_real.
  destruct (size_abs zs) as [S _]. unfold products_small in Hs. unfold size in S. lia.
Qed.

(** *** averages *)
Definition mean (zs : list Z) : Q := (inject_Z (total zs) / inject_Z (Z.of_nat (length zs)))%Q.

Lemma avg_ints : forall W a zs, Forall2 int_of a zs ->  a <> [] -> Z.of_nat (length a) <= 2 ^ 53 -> sums_small zs ->
  calls W "avg" [VArr a] (VFloat (SFdiv 53 1024 (nearest (total zs)) (nearest (Z.of_nat (length zs))))) /\
  rounded (mean zs) (SFdiv 53 1024 (nearest (total zs)) (nearest (Z.of_nat (length zs)))).
Proof.
  intros W a zs Ha Hne Hl Hs. destruct (folds_exact W a _ (ints_floats _ _ Ha)) as (_ & _ & H).
  change (S754_zero false) with (nearest 0) in H. rewrite fold_sum in H by (unfold sums_small in Hs; lia). cbn [Z.add] in H.
  assert (L : length a = length zs) by (apply (F2_len _ _ Ha)). rewrite L in H, Hl. split; [exact H|].
  assert (P : 0 < Z.of_nat (length zs)) by (destruct zs; [inversion Ha; subst; contradiction|cbn; lia]).
  destruct (total_abs zs) as [T _]. unfold sums_small in Hs.
  destruct (nearest_exact (total zs)) as (p & Ep & Vp); [lia|]. destruct (nearest_exact (Z.of_nat (length zs))) as (q & Eq & Vq); [lia|].
  destruct (div_ieee (nearest (total zs)) (nearest (Z.of_nat (length zs)))) as (p' & q' & E1 & E2 & _ & R & _);
    [apply nearest_good|apply nearest_good|congruence|congruence| |].
  { intros s E. apply near_zero in E; lia. }
  rewrite Ep in E1. injection E1 as <-. rewrite Eq in E2. injection E2 as <-. cbn [exact_q] in R.
  eapply rounded_eq; [|exact R]. unfold mean. rewrite Vp, Vq. reflexivity.
Qed.

Theorem avg_exact : forall W a zs, Forall2 int_of a zs ->  a <> [] -> Z.of_nat (length a) <= 2 ^ 53 -> sums_small zs ->
  exists f, calls W "avg" [VArr a] (VFloat f) /\ rounded (inject_Z (total zs) / inject_Z (Z.of_nat (length a))) f.
Proof.
  intros W a zs Ha Hne Hl Hs. destruct (avg_ints W a zs Ha Hne Hl Hs) as [H1 H2]. eexists. split; [exact H1|].
  assert (L : length a = length zs) by (apply (F2_len _ _ Ha)). rewrite L. exact H2.
Qed.

(** ** Order *)
Lemma perm_ints : forall a a', Permutation a a' -> forall zs, Forall2 int_of a zs -> exists zs', Forall2 int_of a' zs' /\ Permutation zs zs'.
Proof.
  induction 1 as [|x l l' H IH|x y l|l l1 l2 H1 IH1 H2 IH2]; intros zs Hz.
  - inversion Hz; subst. exists []. split; constructor.
  - inversion Hz as [|? z ? zs0 Hx Hr]; subst. destruct (IH _ Hr) as (zs' & A & B). exists (z :: zs'). split; constructor; assumption.
  - inversion Hz as [|? z ? zs0 Hx Hr]; subst. inversion Hr as [|? w ? zs1 Hy Hr']; subst. exists (w :: z :: zs1).
    split; [repeat constructor; assumption|apply perm_swap].
  - destruct (IH1 _ Hz) as (z1 & A & B). destruct (IH2 _ A) as (z2 & C & D). exists z2. split; [exact C|eapply perm_trans; eassumption].
Qed.
Lemma perm_total : forall l l', Permutation l l' -> total l = total l'.
Proof. unfold total. induction 1; cbn [fold_right]; lia. Qed.
Lemma perm_product : forall l l', Permutation l l' -> product l = product l'.
Proof. unfold product. induction 1; cbn [fold_right]; try lia. Qed.
Lemma perm_signs : forall l l', Permutation l l' -> signs l = signs l'.
Proof.
  unfold signs. induction 1; cbn [fold_right map]; try congruence.
  rewrite <- !xorb_assoc, (xorb_comm (sgn false y)). reflexivity.
Qed.

Theorem order_free : forall W a a' zs, Permutation a a' -> Forall2 int_of a zs -> 
  (sums_small zs -> forall v, calls W "sum" [VArr a] v <-> calls W "sum" [VArr a'] v) /\
  (products_small zs -> forall v, calls W "prod" [VArr a] v <-> calls W "prod" [VArr a'] v) /\
  (sums_small zs -> forall v, calls W "avg" [VArr a] v <-> calls W "avg" [VArr a'] v).
Proof.
  intros W a a' zs P Ha. destruct (perm_ints _ _ P _ Ha) as (zs' & Ha' & Pz).
  assert (S : sums_small zs -> sums_small zs').
  { unfold sums_small. rewrite (perm_total _ _ (Permutation_map Z.abs Pz)). exact (fun H => H). }
  assert (Pr : products_small zs -> products_small zs').
  { unfold products_small. rewrite (perm_product _ _ (Permutation_map (fun z => Z.max 1 (Z.abs z)) Pz)). exact (fun H => H). }
  assert (Q : forall f x x' w, calls W f [x] w -> calls W f [x'] w -> forall v, calls W f [x] v <-> calls W f [x'] v).
  { assert (U : forall f x v v', calls W f [x] v -> calls W f [x] v' -> v = v').
    { intros f x v v' H1 H2. refine (computes_unique _ _ _ _ _ H1 H2 _ _); cbn; lia. }
    intros f x x' w H1 H2 v. split; intro K; [rewrite (U _ _ _ _ K H1); exact H2|rewrite (U _ _ _ _ K H2); exact H1]. }
  split; [|split]; intro Hs.
  - eapply Q; [apply sum_ints; eassumption|]. rewrite (perm_total _ _ Pz). apply sum_ints; auto.
  - destruct a as [|x a].
    + apply Permutation_nil in P. subst a'. intro v. reflexivity.
    + eapply Q; [apply prod_ints; [eassumption|discriminate|exact Hs]|]. rewrite (perm_product _ _ Pz), (perm_signs _ _ Pz).
      apply prod_ints; [assumption| |auto]. intro E. subst a'. apply Permutation_sym, Permutation_nil in P. discriminate P.
  - destruct (folds_exact W a _ (ints_floats _ _ Ha)) as (_ & _ & H1). destruct (folds_exact W a' _ (ints_floats _ _ Ha')) as (_ & _ & H2).
    change (S754_zero false) with (nearest 0) in H1, H2. rewrite fold_sum in H1 by (unfold sums_small in Hs; lia).
    rewrite fold_sum in H2 by (apply S in Hs; unfold sums_small in Hs; lia).
    rewrite <- (perm_total _ _ Pz), <- (Permutation_length P) in H2. eapply Q; eassumption.
Qed.

(** ** The average between the least and the greatest *)
Lemma rounded_le : forall p q f g, (p <= q)%Q -> (Qabs p < overflow)%Q -> (Qabs q < overflow)%Q -> rounded p f -> rounded q g -> ~ f_lt g f.
Proof.
  intros p q f g L Bp Bq Rf Rg H. inversion Rf as [? A1 A2 A3 A4 A5|s A1 A2]; subst; [|lra]. inversion Rg as [? B1 B2 B3 B4 B5|s B1 B2]; subst; [|lra].
  destruct A3 as (r & Er & Hr). destruct B3 as (r' & Er' & Hr').
  unfold f_lt in H. rewrite (compare_real g f r' r B2 A2 Er' Er) in H. injection H as H. apply Qlt_alt in H.
  destruct (Qlt_le_dec p q) as [K|K].
  - pose proof (closest_mono p q f g r r' K A2 B2 (ex_intro _ r (conj Er Hr)) (ex_intro _ r' (conj Er' Hr')) Er Er'). lra.
  - assert (E : (q == p)%Q) by lra.
    destruct (Hr g r' B2 Er') as [X|[X|(X & Y & Y')]]; [lra| |]; destruct (Hr' f r A2 Er) as [Z|[Z|(Z & W & W')]]; try lra; try contradiction;
      rewrite E in Z; lra.
Qed.

Lemma small_over : forall z, Z.abs z <= 2 ^ 53 -> (Qabs (inject_Z z) < overflow)%Q.
Proof.
  intros z H. apply Qle_lt_trans with (inject_Z (2 ^ 53)); [|vm_compute; reflexivity].
  apply Qabs_Qle_condition. change (- inject_Z (2 ^ 53))%Q with (inject_Z (- 2 ^ 53)). rewrite <- !Zle_Qle. lia.
Qed.

Lemma in_total : forall z zs, In z zs -> Z.abs z <= total (map Z.abs zs).
Proof.
  unfold total. induction zs as [|y zs IH]; [intros []|]. cbn [map fold_right]. destruct (total_abs zs) as [_ P]. unfold total in P.
  intros [->|H]; [lia|specialize (IH H); lia].
Qed.

Lemma total_ge : forall m zs, (forall z, In z zs -> m <= z) -> m * Z.of_nat (length zs) <= total zs.
Proof.
  unfold total. induction zs as [|y zs IH]; intro H; [cbn; lia|]. cbn [fold_right length].
  assert (m <= y) by (apply H; left; reflexivity). assert (m * Z.of_nat (length zs) <= fold_right Z.add 0 zs) by (apply IH; intros z Hz; apply H; right; exact Hz). lia.
Qed.
Lemma total_le : forall m zs, (forall z, In z zs -> z <= m) -> total zs <= m * Z.of_nat (length zs).
Proof.
  unfold total. induction zs as [|y zs IH]; intro H; [cbn; lia|]. cbn [fold_right length].
  assert (y <= m) by (apply H; left; reflexivity). assert (fold_right Z.add 0 zs <= m * Z.of_nat (length zs)) by (apply IH; intros z Hz; apply H; right; exact Hz). lia.
Qed.

Lemma near_lt : forall x y, Z.abs x <= 2 ^ 53 -> Z.abs y <= 2 ^ 53 -> x < y -> f_lt (nearest x) (nearest y).
Proof.
  intros x y Hx Hy L. destruct (nearest_exact x Hx) as (p & Ep & Vp), (nearest_exact y Hy) as (q & Eq & Vq).
  unfold f_lt. rewrite (compare_real _ _ p q (nearest_good x) (nearest_good y) Ep Eq). f_equal.
  apply (proj1 (Qlt_alt p q)). rewrite Zlt_Qlt in L. lra.
Qed.

Theorem avg_between : forall W a zs, Forall2 int_of a zs -> match a with v :: _ => is_number v | [] => False end ->
  Z.of_nat (length a) <= 2 ^ 53 -> sums_small zs ->
  exists lo m hi, calls W "min" [VArr a] (VFloat lo) /\ calls W "avg" [VArr a] (VFloat m) /\ calls W "max" [VArr a] (VFloat hi) /\
    ~ f_lt m lo /\ ~ f_lt hi m.
Proof.
  intros W a zs Ha Hn Hl Hs. assert (Hne : a <> []) by (destruct a; [contradiction|discriminate]).
  destruct (avg_ints W a zs Ha Hne Hl Hs) as [H1 H2].
  assert (NN : Forall (fun x => x <> S754_nan) (map nearest zs)).
  { apply Forall_forall. intros x Hx. apply in_map_iff in Hx. destruct Hx as (z & <- & _). apply EqProofs.nearest_not_nan. }
  destruct (max_numbers W [VArr a] a _ (PsArray a) (ints_floats _ _ Ha) NN Hn) as ((hi & C1 & I1 & M1) & (lo & C2 & I2 & M2)).
  exists lo. eexists. exists hi. split; [exact C2|]. split; [exact H1|]. split; [exact C1|].
  apply in_map_iff in I1, I2. destruct I1 as (zh & <- & I1), I2 as (zl & <- & I2).
  pose proof (in_total _ _ I1) as S1. pose proof (in_total _ _ I2) as S2. unfold sums_small in Hs.
  assert (G1 : forall z, In z zs -> z <= zh).
  { intros z Hz. destruct (Z_lt_le_dec zh z) as [K|K]; [exfalso|exact K]. apply (M1 (nearest z)); [apply in_map; exact Hz|].
    pose proof (in_total _ _ Hz). apply near_lt; lia. }
  assert (G2 : forall z, In z zs -> zl <= z).
  { intros z Hz. destruct (Z_lt_le_dec z zl) as [K|K]; [exfalso|exact K]. apply (M2 (nearest z)); [apply in_map; exact Hz|].
    pose proof (in_total _ _ Hz). apply near_lt; lia. }
  apply total_le in G1. apply total_ge in G2.
  assert (P : 0 < Z.of_nat (length zs)) by (destruct zs; [destruct I1|cbn; lia]).
  assert (QL : (inject_Z zl <= mean zs)%Q).
  { unfold mean. apply Qle_shift_div_l; [change 0%Q with (inject_Z 0); rewrite <- Zlt_Qlt; exact P|]. rewrite <- inject_Z_mult, <- Zle_Qle. exact G2. }
  assert (QH : (mean zs <= inject_Z zh)%Q).
  { unfold mean. apply Qle_shift_div_r; [change 0%Q with (inject_Z 0); rewrite <- Zlt_Qlt; exact P|]. rewrite <- inject_Z_mult, <- Zle_Qle. exact G1. }
  assert (BL : (Qabs (inject_Z zl) < overflow)%Q) by (apply small_over; lia). assert (BH : (Qabs (inject_Z zh) < overflow)%Q) by (apply small_over; lia).
  assert (BM : (Qabs (mean zs) < overflow)%Q).
  { clear - QL QH BL BH. qabs; lra. }
  split; [apply (rounded_le _ _ _ _ QL BL BM (nearest_rounded zl) H2)|apply (rounded_le _ _ _ _ QH BM BH H2 (nearest_rounded zh))].
Qed.

(** ** min and max in any order *)
Lemma perm_floats : forall a a', Permutation a a' -> forall fs, Forall2 float_of a fs -> exists fs', Forall2 float_of a' fs' /\ Permutation fs fs'.
Proof.
  induction 1 as [|x l l' H IH|x y l|l l1 l2 H1 IH1 H2 IH2]; intros zs Hz.
  - inversion Hz; subst. exists []. split; constructor.
  - inversion Hz as [|? z ? zs0 Hx Hr]; subst. destruct (IH _ Hr) as (zs' & A & B). exists (z :: zs'). split; constructor; assumption.
  - inversion Hz as [|? z ? zs0 Hx Hr]; subst. inversion Hr as [|? w ? zs1 Hy Hr']; subst. exists (w :: z :: zs1).
    split; [repeat constructor; assumption|apply perm_swap].
  - destruct (IH1 _ Hz) as (z1 & A & B). destruct (IH2 _ A) as (z2 & C & D). exists z2. split; [exact C|eapply perm_trans; eassumption].
Qed.

Lemma unordered_eq : forall x y, x <> S754_nan -> y <> S754_nan -> double x -> double y -> ~ f_lt x y -> ~ f_lt y x -> f_eq x y.
Proof.
  intros x y Nx Ny Dx Dy H1 H2. destruct (ext x) as [u|] eqn:Ex; [|apply ext_nan in Ex; contradiction].
  destruct (ext y) as [v|] eqn:Ey; [|apply ext_nan in Ey; contradiction].
  destruct (ext_compare x y u v Dx Dy Ex Ey) as [L E]. destruct (ext_compare y x v u Dy Dx Ey Ex) as [L' _].
  apply E. unfold level. assert (A : ~ before u v) by tauto. assert (B : ~ before v u) by tauto. clear - A B. destruct u as [i p], v as [j q].
  unfold before in *. cbn [fst snd] in *. assert (i = j) as -> by (destruct (Z.lt_trichotomy i j) as [K|[K|K]]; [tauto|exact K|tauto]).
  split; [reflexivity|]. destruct (Q_dec p q) as [[K|K]|K]; [exfalso; apply A; right; split; [reflexivity|exact K]|exfalso; apply B; right; split; [reflexivity|exact K]|exact K].
Qed.

Theorem extremes_order : forall W f a a' fs, In f ["min"; "max"]%string -> Permutation a a' -> Forall is_number a -> Forall proper a -> a <> [] ->
  Forall2 float_of a fs -> Forall (fun x => x <> S754_nan) fs ->
  exists r r', calls W f [VArr a] (VFloat r) /\ calls W f [VArr a'] (VFloat r') /\ f_eq r r'.
Proof.
  intros W f a a' fs Hf P Hn Hp Hne Ha NN. destruct (perm_floats _ _ P _ Ha) as (fs' & Ha' & Pf).
  assert (Hn' : Forall is_number a') by (eapply Permutation_Forall; eassumption).
  assert (NN' : Forall (fun x => x <> S754_nan) fs') by (eapply Permutation_Forall; eassumption).
  assert (D : Forall double fs).
  { clear - Ha Hp. revert Hp. induction Ha as [|v x a fs Hv Ha IH]; intro Hp; [constructor|]. inversion Hp; subst.
    constructor; [eapply float_double; eassumption|auto]. }
  assert (N1 : match a with v :: _ => is_number v | [] => False end) by (destruct Hn; [contradiction|assumption]).
  assert (N2 : match a' with v :: _ => is_number v | [] => False end).
  { destruct Hn'; [|assumption]. apply Permutation_sym, Permutation_nil in P. contradiction. }
  destruct (max_numbers W [VArr a] a _ (PsArray a) Ha NN N1) as ((hi & C1 & I1 & M1) & (lo & C2 & I2 & M2)).
  destruct (max_numbers W [VArr a'] a' _ (PsArray a') Ha' NN' N2) as ((hi' & C1' & I1' & M1') & (lo' & C2' & I2' & M2')).
  assert (In1 : forall x, In x fs -> In x fs') by (intro x; apply Permutation_in; exact Pf).
  assert (In2 : forall x, In x fs' -> In x fs) by (intro x; apply Permutation_in, Permutation_sym; exact Pf).
  rewrite Forall_forall in NN, D.
  destruct Hf as [<-|[<-|[]]].
  - exists lo, lo'. split; [exact C2|]. split; [exact C2'|]. apply unordered_eq; auto.
  - exists hi, hi'. split; [exact C1|]. split; [exact C1'|]. apply unordered_eq; auto.
Qed.

(** ** Beyond *)
Definition y_max : f64 := S754_finite false 9007199254740991 971.
Definition y_min : f64 := S754_finite true 9007199254740991 971.

Lemma order_matters : forall W,
  calls W "sum" [VArr [VFloat y_max; VFloat y_max; VFloat y_min]] (VFloat (S754_infinity false)) /\
  calls W "sum" [VArr [VFloat y_max; VFloat y_min; VFloat y_max]] (VFloat y_max) /\
  calls W "avg" [VArr [VFloat y_max; VFloat y_max]] (VFloat (S754_infinity false)) /\
  calls W "max" [VArr [VFloat y_max; VFloat y_max]] (VFloat y_max) /\
  calls W "max" [VArr [VInt64 1; VBool true]] (VFloat (nearest 1)) /\
  calls W "max" [VArr [VBool true; VInt64 1]] (VErr KType).
Proof.
  intro W.
  assert (F3 : forall x y z, Forall2 float_of [VFloat x; VFloat y; VFloat z] [x; y; z]) by (repeat constructor).
  assert (F2 : forall x y, Forall2 float_of [VFloat x; VFloat y] [x; y]) by (repeat constructor).
  destruct (folds_exact W _ _ (F3 y_max y_max y_min)) as (A & _ & _). destruct (folds_exact W _ _ (F3 y_max y_min y_max)) as (B & _ & _).
  destruct (folds_exact W _ _ (F2 y_max y_max)) as (_ & _ & C).
  split; [exact A|]. split; [exact B|]. split; [exact C|].
  destruct (max_numbers W [VArr [VFloat y_max; VFloat y_max]] _ _ (PsArray _) (F2 _ _)) as ((r & D & [<-|[<-|[]]] & _) & _);
    [repeat constructor; discriminate|exact I|..].
  1,2: split; [exact D|].
  all: split; [|apply (minmax_other W "max"%string (or_introl eq_refl)) with (l := [VBool true; VInt64 1]); [constructor|left; intros []]].
  all: destruct (max_numbers W [VArr [VInt64 1; VBool true]] _ [nearest 1; nearest 1] (PsArray _)) as ((q & E & [<-|[<-|[]]] & _) & _);
    [repeat constructor|repeat constructor; discriminate|exact I|exact E|exact E].
Qed.

(** ** keys and length, contains and in *)
Lemma keys_length : forall W t m, orders_ok W -> exists ks n,
  operates W t OpCall [VName (b_of "keys"); VObj m] (OK (VArr ks, S t)) /\ calls W "length" [VArr ks] n /\ calls W "length" [VObj m] n.
Proof.
  intros W t m HW. destruct (keys_computes W t m HW) as (ks & H & P). destruct (length_exact W) as (_ & A & B & _).
  exists (map VStr ks), (VInt64 (Z.of_nat (length m))). split; [exact H|]. split; [|apply B].
  destruct (A (map VStr ks)) as [A1 _]. rewrite map_length, (Permutation_length P), map_length in A1. exact A1.
Qed.

Lemma contains_in : forall W l x, ~ failure x -> exists r, calls W "contains" [VArr l; x] (VBool r) /\ computes W OpIn [x; VArr l] (VBool r).
Proof.
  intros W l x Hx. destruct (in_computes W x l Hx) as (r & H & _ & R). destruct (contains_array W l x) as (r' & H' & R').
  exists r. split; [|exact H]. assert (r' = r) as <-; [|exact H'].
  destruct r', r; try reflexivity; [symmetry; apply R, R'; reflexivity|apply R', R; reflexivity].
Qed.
