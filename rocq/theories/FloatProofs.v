(** Doubles: what normalisation gives, when it is exact, and the order of exact values. *)
From Coq Require Import QArith Qabs.
From Verif Require Import F64 SpecExpr.
Local Open Scope Z_scope.

Lemma digits_bounds : forall p, 2 ^ (Z.pos (digits2_pos p) - 1) <= Z.pos p < 2 ^ Z.pos (digits2_pos p).
Proof.
  induction p as [p IH|p IH|]; cbn [digits2_pos].
  3: cbn; lia.
  all: rewrite Pos2Z.inj_succ; set (d := Z.pos (digits2_pos p)) in *; assert (Hd : 0 < d) by (unfold d; lia); clearbody d;
    replace (Z.succ d - 1) with d by lia; rewrite Z.pow_succ_r by lia;
    assert (E : 2 ^ d = 2 * 2 ^ (d - 1)) by (rewrite <- Z.pow_succ_r by lia; f_equal; lia).
  - rewrite (Pos2Z.inj_xI p). lia.
  - rewrite (Pos2Z.inj_xO p). lia.
Qed.

Lemma digits_unique : forall p d, 2 ^ (d - 1) <= Z.pos p < 2 ^ d -> Z.pos (digits2_pos p) = d.
Proof.
  intros p d [H1 H2]. destruct (digits_bounds p) as [B1 B2].
  assert (0 < d) by (destruct (Z_lt_le_dec 0 d); [assumption|]; assert (2 ^ d <= 2 ^ 0) by (apply Z.pow_le_mono_r; lia); simpl in *; lia).
  destruct (Z.lt_trichotomy (Z.pos (digits2_pos p)) d) as [L|[E|G]]; [|exact E|].
  - assert (2 ^ Z.pos (digits2_pos p) <= 2 ^ (d - 1)) by (apply Z.pow_le_mono_r; lia). lia.
  - assert (2 ^ d <= 2 ^ (Z.pos (digits2_pos p) - 1)) by (apply Z.pow_le_mono_r; lia). lia.
Qed.

Lemma digits_le : forall p k, 0 <= k -> Z.pos p < 2 ^ k -> Z.pos (digits2_pos p) <= k.
Proof.
  intros p k Hk H. destruct (digits_bounds p) as [B1 B2].
  destruct (Z_le_gt_dec (Z.pos (digits2_pos p)) k); [assumption|].
  assert (2 ^ k <= 2 ^ (Z.pos (digits2_pos p) - 1)) by (apply Z.pow_le_mono_r; lia). lia.
Qed.

Lemma digits_mono : forall p q, Z.pos p <= Z.pos q -> Z.pos (digits2_pos p) <= Z.pos (digits2_pos q).
Proof.
  intros p q H. apply digits_le; [lia|]. destruct (digits_bounds q). lia.
Qed.

Lemma shift_pos_pow : forall d p, Z.pos (shift_pos d p) = Z.pos p * 2 ^ Z.pos d.
Proof. intros. rewrite shift_pos_correct, Z.pow_pos_fold. lia. Qed.

Lemma digits_shift : forall d p, Z.pos (digits2_pos (shift_pos d p)) = Z.pos (digits2_pos p) + Z.pos d.
Proof.
  intros d p. apply digits_unique. rewrite shift_pos_pow. destruct (digits_bounds p) as [B1 B2].
  assert (0 < 2 ^ Z.pos d) by (apply Z.pow_pos_nonneg; lia).
  split.
  - replace (Z.pos (digits2_pos p) + Z.pos d - 1) with ((Z.pos (digits2_pos p) - 1) + Z.pos d) by lia.
    rewrite Z.pow_add_r by lia. apply Z.mul_le_mono_nonneg_r; lia.
  - rewrite Z.pow_add_r by lia. apply Z.mul_lt_mono_pos_r; lia.
Qed.

(** ** shifting right *)
Lemma shr_1_m : forall r, 0 <= shr_m r -> shr_m (shr_1 r) = shr_m r / 2.
Proof.
  intros [m r s] H; cbn [shr_m] in *. unfold shr_1.
  destruct m as [|[p|p|]|p]; cbn [shr_m]; try reflexivity.
  - rewrite (Pos2Z.inj_xI p). apply Z.div_unique with 1; lia.
  - rewrite (Pos2Z.inj_xO p). apply Z.div_unique with 0; lia.
  - lia.
Qed.

Lemma iter_shr_m : forall n r, 0 <= shr_m r -> shr_m (iter_pos shr_1 n r) = shr_m r / 2 ^ Z.pos n.
Proof.
  induction n as [n IH|n IH|]; intros r H; cbn [iter_pos].
  - assert (H1 : 0 <= shr_m (shr_1 r)) by (rewrite shr_1_m by assumption; apply Z.div_pos; lia).
    assert (H2 : 0 <= shr_m (iter_pos shr_1 n (shr_1 r))).
    { rewrite IH by assumption. apply Z.div_pos; [assumption|apply Z.pow_pos_nonneg; lia]. }
    rewrite IH, IH, shr_1_m by assumption.
    assert (0 < 2 ^ Z.pos n) by (apply Z.pow_pos_nonneg; lia).
    rewrite !Zdiv_Zdiv by lia. f_equal.
    rewrite (Pos2Z.inj_xI n). replace (2 * Z.pos n + 1) with (1 + (Z.pos n + Z.pos n)) by lia.
    rewrite !Z.pow_add_r by lia. lia.
  - assert (H1 : 0 <= shr_m (iter_pos shr_1 n r)).
    { rewrite IH by assumption. apply Z.div_pos; [assumption|apply Z.pow_pos_nonneg; lia]. }
    rewrite IH, IH by assumption.
    assert (0 < 2 ^ Z.pos n) by (apply Z.pow_pos_nonneg; lia).
    rewrite !Zdiv_Zdiv by lia. f_equal.
    rewrite (Pos2Z.inj_xO n). replace (2 * Z.pos n) with (Z.pos n + Z.pos n) by lia.
    rewrite !Z.pow_add_r by lia. lia.
  - apply shr_1_m. exact H.
Qed.

Notation fx := (fexp 53 1024).
Lemma fx_eq : forall e, fx e = Z.max (e - 53) (-1074).
Proof. reflexivity. Qed.

Notation good := double.

Lemma good_finite : forall s m e, good (S754_finite s m e) <->
  fx (Z.pos (digits2_pos m) + e) = e /\ e <= 971.
Proof.
  intros. unfold double, valid_binary, bounded, canonical_mantissa.
  rewrite andb_true_iff, <- Zeq_is_eq_bool, Z.leb_le.
  change (1024 - 53) with 971. tauto.
Qed.

(** ** exact normalisation *)
Lemma round_aux_exact : forall s m e, fx (Z.pos (digits2_pos m) + e) = e ->
  binary_round_aux 53 1024 s (Z.pos m) e loc_Exact =
  if e <=? 971 then S754_finite s m e else S754_infinity s.
Proof.
  intros s m e H. unfold binary_round_aux, shr_fexp. cbn [Zdigits2 shr_record_of_loc].
  rewrite H, Z.sub_diag. cbn [shr shr_m loc_of_shr_record round_nearest_even Zdigits2].
  rewrite H, Z.sub_diag. cbn [shr shr_m]. reflexivity.
Qed.

Lemma round_exact : forall s m e, fx (Z.pos (digits2_pos m) + e) <= e -> Z.pos (digits2_pos m) + e <= 1024 ->
  exists m' e', binary_round 53 1024 s m e = S754_finite s m' e' /\ good (S754_finite s m' e') /\
    e' <= e /\ Z.pos m' = Z.pos m * 2 ^ (e - e').
Proof.
  intros s m e H Hm. unfold binary_round, shl_align.
  remember (fx (Z.pos (digits2_pos m) + e)) as e0 eqn:He0.
  destruct (e0 - e) as [|d|d] eqn:Hd; [| lia |].
  - assert (E : e = e0) by lia. exists m, e.
    assert (Hf : fx (Z.pos (digits2_pos m) + e) = e) by lia.
    rewrite round_aux_exact by assumption.
    assert (e <= 971) by (rewrite fx_eq in Hf; lia).
    destruct (Z.leb_spec e 971); [|lia].
    split; [reflexivity|]. split; [apply good_finite; split; assumption|]. split; [lia|].
    rewrite Z.sub_diag. simpl. lia.
  - exists (shift_pos d m), e0.
    assert (Hs : Z.pos (digits2_pos (shift_pos d m)) + e0 = Z.pos (digits2_pos m) + e) by (rewrite digits_shift; lia).
    assert (Hf : fx (Z.pos (digits2_pos (shift_pos d m)) + e0) = e0) by (rewrite Hs; symmetry; exact He0).
    rewrite round_aux_exact by assumption.
    assert (e0 <= 971) by (rewrite fx_eq in He0; lia).
    destruct (Z.leb_spec e0 971); [|lia].
    split; [reflexivity|]. split; [apply good_finite; split; assumption|]. split; [lia|].
    rewrite shift_pos_pow. f_equal. f_equal. lia.
Qed.

(** ** the result is always a double *)
Lemma round_aux_both : forall s m e l, e <= fx (Zdigits2 m + e) -> 0 <= m ->
  good (binary_round_aux 53 1024 s m e l) /\
  (-1074 < fx (Zdigits2 m + e) ->
   match binary_round_aux 53 1024 s m e l with
   | S754_finite _ _ e' => fx (Zdigits2 m + e) <= e'
   | S754_infinity _ => True
   | _ => False
   end).
Proof.
  intros s m e l He Hm. unfold binary_round_aux, shr_fexp.
  remember (fx (Zdigits2 m + e)) as e1 eqn:He1.
  assert (Hr : 0 <= shr_m (shr_record_of_loc m l)) by (destruct l as [|[]]; exact Hm).
  (* the shifted mantissa *)
  assert (A : exists r, shr (shr_record_of_loc m l) e (e1 - e) = (r, e1) /\ 0 <= shr_m r < 2 ^ 53 /\
     (-1074 < e1 -> 2 ^ 52 <= shr_m r)).
  { assert (Hb : m < 2 ^ Zdigits2 m /\ (0 < m -> 2 ^ (Zdigits2 m - 1) <= m)).
    { destruct m as [|p|p]; [|cbn [Zdigits2]; destruct (digits_bounds p); lia|lia].
      split; [reflexivity|lia]. }
    assert (Hd0 : 0 <= Zdigits2 m) by (destruct m; cbn; lia).
    assert (Hmm : shr_m (shr_record_of_loc m l) = m) by (destruct l as [|[]]; reflexivity).
    rewrite fx_eq in He1.
    destruct (e1 - e) as [|d|d] eqn:Hd; cbn [shr]; [| |lia].
    - exists (shr_record_of_loc m l). assert (e = e1) by lia. split; [f_equal; assumption|]. rewrite Hmm.
      assert (Zdigits2 m <= 53) by lia.
      assert (2 ^ Zdigits2 m <= 2 ^ 53) by (apply Z.pow_le_mono_r; lia).
      split; [lia|]. intros HL. assert (HZ : Zdigits2 m = 53) by lia.
      destruct m; [cbn in *; lia| |lia]. destruct Hb as [_ Hb]. rewrite HZ in Hb. apply Hb. lia.
    - exists (iter_pos shr_1 d (shr_record_of_loc m l)). split; [f_equal; lia|].
      rewrite iter_shr_m by assumption. rewrite Hmm.
      assert (P : 0 < 2 ^ Z.pos d) by (apply Z.pow_pos_nonneg; lia).
      assert (Zdigits2 m - Z.pos d <= 53) by lia.
      assert (2 ^ Zdigits2 m <= 2 ^ (53 + Z.pos d)) by (apply Z.pow_le_mono_r; lia).
      rewrite Z.pow_add_r in H0 by lia.
      split.
      + split; [apply Z.div_pos; lia|]. apply Z.div_lt_upper_bound; [lia|]. lia.
      + intros HL. assert (Hdd : Zdigits2 m - 1 = 52 + Z.pos d) by lia.
        assert (Hp : 0 < m) by (destruct m; cbn in *; lia).
        destruct Hb as [_ Hb]. specialize (Hb Hp). rewrite Hdd, Z.pow_add_r in Hb by lia.
        apply Z.div_le_lower_bound; [lia|]. lia. }
  destruct A as (r & E & Hr1 & Hr2). rewrite E.
  assert (Hge : -1074 <= e1) by (rewrite fx_eq in He1; lia).
  set (m2 := round_nearest_even (shr_m r) (loc_of_shr_record r)).
  assert (Hm2 : 0 <= m2 <= 2 ^ 53 /\ (-1074 < e1 -> 2 ^ 52 <= m2)).
  { unfold m2, round_nearest_even. destruct (loc_of_shr_record r) as [|[]]; try destruct (Z.even (shr_m r)); lia. }
  clearbody m2. clear E Hr1 Hr2 He1. cbn [shr_record_of_loc].
  destruct Hm2 as [Hm2 Hm3].
  destruct m2 as [|p|p]; [| |lia].
  - cbn [Zdigits2]. rewrite fx_eq. assert (e1 = -1074) by lia. subst e1.
    replace (Z.max (0 + -1074 - 53) (-1074) - -1074) with 0 by lia. cbn. split; [reflexivity|lia].
  - cbn [Zdigits2]. destruct (digits_bounds p) as [B1 B2].
    destruct (Z_lt_ge_dec (Z.pos p) (2 ^ 53)) as [L|G].
    + assert (Z.pos (digits2_pos p) <= 53) by (apply digits_le; lia).
      assert (F : fx (Z.pos (digits2_pos p) + e1) = e1).
      { rewrite fx_eq. destruct (Z_lt_ge_dec (-1074) e1) as [L1|G1]; [|lia].
        specialize (Hm3 L1).
        assert (Z.pos (digits2_pos p) = 53) by (apply digits_unique; change (53 - 1) with 52; lia). lia. }
      rewrite F, Z.sub_diag. cbn [shr shr_m].
      destruct (Z.leb_spec e1 (1024 - 53)); [|split; [reflexivity|auto]].
      split; [apply good_finite; split; [exact F|lia]|lia].
    + assert (Ep : Z.pos p = 2 ^ 53) by lia.
      assert (Ed : Z.pos (digits2_pos p) = 54) by (apply digits_unique; rewrite Ep; split; [cbn|]; lia).
      rewrite Ed. rewrite fx_eq. replace (Z.max (54 + e1 - 53) (-1074) - e1) with 1 by lia.
      cbn [shr iter_pos].
      assert (Es : shr_m (shr_1 {| shr_m := Z.pos p; shr_r := false; shr_s := false |}) = 2 ^ 52).
      { rewrite shr_1_m by (cbn; lia). cbn [shr_m]. rewrite Ep. reflexivity. }
      rewrite Es. change (2 ^ 52) with (Z.pos 4503599627370496). cbv iota.
      destruct (Z.leb_spec (e1 + 1) (1024 - 53)); [|split; [reflexivity|auto]].
      split; [|lia]. apply good_finite. split; [|lia]. rewrite fx_eq.
      change (Z.pos (digits2_pos 4503599627370496)) with 53. lia.
Qed.

Lemma round_aux_good : forall s m e l, e <= fx (Zdigits2 m + e) -> 0 <= m -> good (binary_round_aux 53 1024 s m e l).
Proof. intros. apply round_aux_both; assumption. Qed.

(** a large integer does not become a small number *)
Lemma nearest_big : forall z, 2 ^ 53 <= Z.abs z ->
  match nearest z with S754_finite _ _ e => 1 <= e | S754_infinity _ => True | _ => False end.
Proof.
  assert (P : forall s p, 2 ^ 53 <= Z.pos p ->
    match binary_round 53 1024 s p 0 with S754_finite _ _ e => 1 <= e | S754_infinity _ => True | _ => False end).
  { intros s p H. destruct (digits_bounds p) as [B1 B2].
    assert (D : 54 <= Z.pos (digits2_pos p)).
    { destruct (Z_le_gt_dec 54 (Z.pos (digits2_pos p))); [assumption|].
      assert (2 ^ Z.pos (digits2_pos p) <= 2 ^ 53) by (apply Z.pow_le_mono_r; lia). lia. }
    unfold binary_round, shl_align.
    assert (F : fx (Z.pos (digits2_pos p) + 0) = Z.pos (digits2_pos p) - 53) by (rewrite fx_eq; lia).
    rewrite F. destruct (Z.pos (digits2_pos p) - 53 - 0) as [|d|d] eqn:E; try lia.
    destruct (round_aux_both s (Z.pos p) 0 loc_Exact) as [_ K]; [cbn [Zdigits2]; lia|lia|].
    cbn [Zdigits2] in K. specialize (K ltac:(lia)). rewrite F in K.
    destruct (binary_round_aux 53 1024 s (Z.pos p) 0 loc_Exact); try contradiction; lia. }
  intros [|p|p] H; cbn [Z.abs] in H; [lia|apply P; exact H|apply P; exact H].
Qed.

Lemma round_good : forall s m e, good (binary_round 53 1024 s m e).
Proof.
  intros s m e. unfold binary_round, shl_align.
  remember (fx (Z.pos (digits2_pos m) + e)) as e0 eqn:He0.
  destruct (e0 - e) as [|d|d] eqn:Hd.
  - apply round_aux_good; cbn [Zdigits2]; lia.
  - apply round_aux_good; cbn [Zdigits2]; lia.
  - apply round_aux_good; [|lia]. cbn [Zdigits2]. rewrite digits_shift.
    replace (Z.pos (digits2_pos m) + Z.pos d + e0) with (Z.pos (digits2_pos m) + e) by lia. lia.
Qed.

Lemma normalize_good : forall z e s, good (binary_normalize 53 1024 z e s).
Proof. intros [|p|p] e s; cbn [binary_normalize]; [reflexivity|apply round_good|apply round_good]. Qed.

(** ** exact values *)
Definition expo (e : Z) : Q := if 0 <=? e then inject_Z (2 ^ e) else (1 # Z.to_pos (2 ^ (- e)))%Q.

Lemma real_finite : forall s m e, exists q, real_of (S754_finite s m e) = Some q /\
  (q == inject_Z (signed s m) * expo e)%Q.
Proof.
  intros s m e. unfold real_of, expo. destruct (0 <=? e) eqn:E; eexists; (split; [reflexivity|]).
  - rewrite <- inject_Z_mult. reflexivity.
  - unfold Qeq, Qmult, inject_Z; cbn [Qnum Qden]. lia.
Qed.

Lemma expo_add : forall e k, 0 <= k -> (expo (e + k) == inject_Z (2 ^ k) * expo e)%Q.
Proof.
  intros e k Hk. unfold expo.
  destruct (Z.leb_spec 0 e); destruct (Z.leb_spec 0 (e + k)); try lia.
  - rewrite <- inject_Z_mult. rewrite Z.pow_add_r by lia. rewrite Z.mul_comm. reflexivity.
  - unfold Qeq, Qmult, inject_Z; cbn [Qnum Qden].
    assert (0 < 2 ^ (- e)) by (apply Z.pow_pos_nonneg; lia).
    rewrite Pos.mul_1_l, Z2Pos.id by assumption.
    assert (Ek : 2 ^ k = 2 ^ (e + k) * 2 ^ (- e)) by (rewrite <- Z.pow_add_r by lia; f_equal; lia).
    rewrite Ek. lia.
  - unfold Qeq, Qmult, inject_Z; cbn [Qnum Qden].
    assert (0 < 2 ^ (- e)) by (apply Z.pow_pos_nonneg; lia).
    assert (0 < 2 ^ (- (e + k))) by (apply Z.pow_pos_nonneg; lia).
    rewrite Pos.mul_1_l, !Z2Pos.id by assumption.
    assert (Ek : 2 ^ (- e) = 2 ^ k * 2 ^ (- (e + k))) by (rewrite <- Z.pow_add_r by lia; f_equal; lia).
    rewrite Ek. lia.
Qed.

Lemma expo_pos : forall e, (0 < expo e)%Q.
Proof.
  intros e. unfold expo. destruct (Z.leb_spec 0 e); unfold Qlt, inject_Z; cbn [Qnum Qden].
  - assert (0 < 2 ^ e) by (apply Z.pow_pos_nonneg; lia). lia.
  - lia.
Qed.

Definition fsign (f : f64) (s : bool) : Prop :=
  match f with S754_zero s' | S754_finite s' _ _ => s = s' | _ => False end.

Lemma signed_abs : forall s m, signed s m = if s then - Z.pos m else Z.pos m.
Proof. intros []; reflexivity. Qed.

(** a number with at most 53 digits is represented exactly *)
Lemma normalize_exact : forall z e s, Zdigits2 z <= 53 -> -1074 <= e -> Zdigits2 z + e <= 1024 ->
  exists q, real_of (binary_normalize 53 1024 z e s) = Some q /\ (q == inject_Z z * expo e)%Q /\
    fsign (binary_normalize 53 1024 z e s) (if z =? 0 then s else z <? 0).
Proof.
  intros z e s H1 H2 H3.
  assert (P : forall b m, Zdigits2 (Z.pos m) <= 53 -> Zdigits2 (Z.pos m) + e <= 1024 ->
    exists q, real_of (binary_round 53 1024 b m e) = Some q /\ (q == inject_Z (signed b m) * expo e)%Q /\
      fsign (binary_round 53 1024 b m e) b).
  { intros b m D1 D2. cbn [Zdigits2] in D1, D2.
    destruct (round_exact b m e) as (m' & e' & E & G & Le & Em); [rewrite fx_eq; lia | assumption |].
    rewrite E. destruct (real_finite b m' e') as (q & Eq & Hq). exists q. split; [exact Eq|]. split; [|reflexivity].
    rewrite Hq. replace e with (e' + (e - e')) by lia. rewrite expo_add by lia.
    rewrite Qmult_assoc, <- inject_Z_mult. rewrite !signed_abs.
    replace (e' + (e - e') - e') with (e - e') in * by lia.
    replace ((if b then - Z.pos m else Z.pos m) * 2 ^ (e - e')) with (if b then - Z.pos m' else Z.pos m')
      by (destruct b; lia). reflexivity. }
  destruct z as [|p|p]; cbn [binary_normalize Z.eqb Z.ltb Z.compare].
  - exists 0%Q. split; [reflexivity|]. split; [|reflexivity]. rewrite Qmult_0_l. reflexivity.
  - apply P; assumption.
  - apply P; assumption.
Qed.

Lemma digits_abs : forall z k, 0 <= k -> Z.abs z < 2 ^ k -> Zdigits2 z <= k.
Proof.
  intros z k Hk H. destruct z as [|p|p]; cbn [Zdigits2 Z.abs] in *; [lia| |]; apply digits_le; assumption.
Qed.

Lemma good_bounds : forall s m e, good (S754_finite s m e) ->
  Z.pos (digits2_pos m) <= 53 /\ -1074 <= e <= 971 /\ Z.pos m < 2 ^ 53.
Proof.
  intros s m e H. apply good_finite in H. destruct H as [H1 H2]. rewrite fx_eq in H1.
  destruct (digits_bounds m). assert (2 ^ Z.pos (digits2_pos m) <= 2 ^ 53) by (apply Z.pow_le_mono_r; lia). lia.
Qed.

Lemma inject_Z_abs : forall z, (Qabs (inject_Z z) == inject_Z (Z.abs z))%Q.
Proof. intros z. reflexivity. Qed.

Lemma mod_exact : forall sx mx ex sy my ey, good (S754_finite sx mx ex) -> good (S754_finite sy my ey) ->
  float_rem (S754_finite sx mx ex) (S754_finite sy my ey) (f_mod (S754_finite sx mx ex) (S754_finite sy my ey)).
Proof.
  intros sx mx ex sy my ey Gx Gy.
  apply good_bounds in Gx. apply good_bounds in Gy. destruct Gx as (Dx & Ex & Bx). destruct Gy as (Dy & Ey & By).
  unfold f_mod. set (e := Z.min ex ey).
  set (a := Z.pos mx * 2 ^ (ex - e)). set (b := Z.pos my * 2 ^ (ey - e)).
  assert (Pa : 0 < 2 ^ (ex - e)) by (apply Z.pow_pos_nonneg; lia).
  assert (Pb : 0 < 2 ^ (ey - e)) by (apply Z.pow_pos_nonneg; lia).
  assert (Ha : 0 < a) by (unfold a; lia). assert (Hb : 0 < b) by (unfold b; lia).
  pose proof (Z.mod_pos_bound a b Hb) as Hr. pose proof (Z.div_mod a b ltac:(lia)) as Hd.
  pose proof (Z.mod_le a b ltac:(lia) Hb) as Hra.
  set (r := a mod b) in *. set (k := a / b) in *.
  assert (Hr53 : r < 2 ^ 53).
  { destruct (Z.le_ge_cases ex ey) as [L|G].
    - assert (a = Z.pos mx) by (unfold a, e; replace (ex - Z.min ex ey) with 0 by lia; simpl; lia). lia.
    - assert (b = Z.pos my) by (unfold b, e; replace (ey - Z.min ex ey) with 0 by lia; simpl; lia). lia. }
  set (z := if sx then - r else r).
  destruct (normalize_exact z e sx) as (q & Eq & Hq & Hs).
  { apply digits_abs; [lia|]. unfold z. destruct sx; lia. }
  { lia. }
  { assert (Zdigits2 z <= 53) by (apply digits_abs; [lia|]; unfold z; destruct sx; lia). lia. }
  destruct (real_finite sx mx ex) as (qa & Ea & Hqa). destruct (real_finite sy my ey) as (qb & Eb & Hqb).
  assert (Hqa' : (qa == inject_Z (if sx then - a else a) * expo e)%Q).
  { rewrite Hqa. replace ex with (e + (ex - e)) at 1 by lia. rewrite expo_add by lia.
    rewrite Qmult_assoc, <- inject_Z_mult, signed_abs. unfold a.
    replace ((if sx then - Z.pos mx else Z.pos mx) * 2 ^ (ex - e))
      with (if sx then - (Z.pos mx * 2 ^ (ex - e)) else Z.pos mx * 2 ^ (ex - e)) by (destruct sx; lia). reflexivity. }
  assert (Hqb' : (qb == inject_Z (if sy then - b else b) * expo e)%Q).
  { rewrite Hqb. replace ey with (e + (ey - e)) at 1 by lia. rewrite expo_add by lia.
    rewrite Qmult_assoc, <- inject_Z_mult, signed_abs. unfold b.
    replace ((if sy then - Z.pos my else Z.pos my) * 2 ^ (ey - e))
      with (if sy then - (Z.pos my * 2 ^ (ey - e)) else Z.pos my * 2 ^ (ey - e)) by (destruct sy; lia). reflexivity. }
  split; [apply normalize_good|].
  exists qa, qb, q, (if xorb sx sy then - k else k).
  split; [exact Ea|]. split; [exact Eb|]. split; [exact Eq|].
  pose proof (expo_pos e) as Pe.
  split; [|split].
  - rewrite Hqa', Hqb', Hq.
    transitivity (inject_Z ((if sy then - b else b) * (if xorb sx sy then - k else k) + z) * expo e)%Q.
    + replace ((if sy then - b else b) * (if xorb sx sy then - k else k) + z) with (if sx then - a else a)
        by (unfold z; destruct sx, sy; cbn [xorb]; lia). reflexivity.
    + rewrite inject_Z_plus, inject_Z_mult. ring.
  - rewrite Hq, Hqb', !Qabs_Qmult, !inject_Z_abs. rewrite (Qabs_pos (expo e)) by (apply Qlt_le_weak; exact Pe).
    apply Qmult_lt_r; [exact Pe|]. rewrite <- Zlt_Qlt. unfold z. destruct sx, sy; lia.
  - change (binary_normalize f_prec f_emax z e sx) with (binary_normalize 53 1024 z e sx).
    assert (Hs' : fsign (binary_normalize 53 1024 z e sx) sx).
    { destruct (Z.eqb_spec z 0) as [Ez|Ez]; [exact Hs|].
      replace (z <? 0) with sx in Hs; [exact Hs|]. symmetry. unfold z in *. destruct sx; [apply Z.ltb_lt|apply Z.ltb_ge]; lia. }
    destruct (binary_normalize 53 1024 z e sx); cbn in Hs'; try contradiction; exact Hs'.
Qed.

Lemma zero_rem : forall s sy my ey, float_rem (S754_zero s) (S754_finite sy my ey) (S754_zero s).
Proof.
  intros s sy my ey. destruct (real_finite sy my ey) as (q & E & Hq).
  split; [reflexivity|]. exists 0%Q, q, 0%Q, 0. split; [reflexivity|]. split; [exact E|]. split; [reflexivity|].
  split; [|split; [|reflexivity]].
  - rewrite Qmult_0_r. reflexivity.
  - rewrite Hq, Qabs_Qmult, inject_Z_abs. pose proof (expo_pos ey) as P. rewrite (Qabs_pos (expo ey)) by (apply Qlt_le_weak; exact P).
    setoid_replace (Qabs 0) with 0%Q by reflexivity.
    setoid_replace 0%Q with (inject_Z 0 * expo ey)%Q by reflexivity.
    apply Qmult_lt_r; [exact P|]. rewrite <- Zlt_Qlt. rewrite signed_abs. destruct sy; lia.
Qed.

(** ** integers *)
Lemma nearest_good : forall z, good (nearest z).
Proof. intros. apply normalize_good. Qed.

Lemma nearest_exact : forall z, Z.abs z <= 2 ^ 53 -> exists q, real_of (nearest z) = Some q /\ (q == inject_Z z)%Q.
Proof.
  intros z H.
  assert (E0 : (expo 0 == 1)%Q) by reflexivity.
  destruct (Z.eq_dec (Z.abs z) (2 ^ 53)) as [E|N].
  - assert (z = 2 ^ 53 \/ z = - 2 ^ 53) as [-> | ->] by lia;
      (eexists; split; [vm_compute; reflexivity|reflexivity]).
  - destruct (normalize_exact z 0 false) as (q & Eq & Hq & _); [apply digits_abs; lia | lia | |].
    + assert (Zdigits2 z <= 53) by (apply digits_abs; lia). lia.
    + exists q. split; [exact Eq|]. rewrite Hq, E0. ring.
Qed.

Lemma floor_exact : forall s m e, good (S754_finite s m e) ->
  exists n q, whole (f_floor (S754_finite s m e)) n /\ real_of (S754_finite s m e) = Some q /\
    (inject_Z n <= q)%Q /\ (q < inject_Z (n + 1))%Q.
Proof.
  intros s m e G. apply good_bounds in G. destruct G as (D & B & M).
  unfold f_floor. destruct (Z.leb_spec 0 e) as [L|L].
  - exists (signed s m * 2 ^ e). unfold whole, real_of. apply Z.leb_le in L. rewrite L.
    eexists; split; [eexists; split; [reflexivity|reflexivity]|]. split; [reflexivity|].
    split; [apply Qle_refl|]. rewrite <- Zlt_Qlt. lia.
  - rewrite <- signed_abs. set (z := signed s m). set (d := 2 ^ (- e)).
    assert (Pd : 0 < d) by (apply Z.pow_pos_nonneg; lia).
    assert (Hz : Z.abs z < 2 ^ 53) by (unfold z; destruct s; cbn; lia).
    pose proof (Z.div_mod z d ltac:(lia)) as Hd. pose proof (Z.mod_pos_bound z d Pd) as Hm.
    assert (Hn : Z.abs (z / d) <= 2 ^ 53) by nia.
    destruct (nearest_exact _ Hn) as (q & Eq & Hq).
    exists (z / d). unfold whole, real_of. destruct (Z.leb_spec 0 e); [lia|].
    eexists; split; [exists q; split; [exact Eq|exact Hq]|]. split; [reflexivity|].
    fold d. fold z. unfold Qle, Qlt, inject_Z; cbn [Qnum Qden]. rewrite Z2Pos.id by assumption. split; nia.
Qed.

Lemma real_opp : forall f q, real_of f = Some q -> exists q', real_of (f_neg f) = Some q' /\ (q' == - q)%Q.
Proof.
  intros [s|s| |s m e] q H; cbn in H; try discriminate H.
  - injection H as <-. exists 0%Q. split; reflexivity.
  - unfold f_neg, SFopp, real_of.
    destruct (0 <=? e); injection H as <-; eexists; (split; [reflexivity|]); unfold Qeq, Qopp, inject_Z; cbn [Qnum Qden];
      destruct s; cbn [negb signed]; lia.
Qed.

Lemma ceil_exact : forall s m e, good (S754_finite s m e) ->
  exists n q, whole (f_ceil (S754_finite s m e)) n /\ real_of (S754_finite s m e) = Some q /\
    (inject_Z (n - 1) < q)%Q /\ (q <= inject_Z n)%Q.
Proof.
  intros s m e G. unfold f_ceil.
  assert (G' : good (S754_finite (negb s) m e)) by exact G.
  destruct (floor_exact (negb s) m e G') as (n & q & (qf & Ef & Hf) & E & H1 & H2).
  destruct (real_opp _ _ Ef) as (qc & Ec & Hc). destruct (real_opp _ _ E) as (q1 & E1 & Hq1).
  unfold f_neg, SFopp in E1. rewrite negb_involutive in E1.
  exists (- n), q1. split.
  - exists qc. split; [exact Ec|]. rewrite Hc, Hf. reflexivity.
  - split; [exact E1|]. rewrite Hq1. split.
    + replace (- n - 1) with (- (n + 1)) by lia. rewrite inject_Z_opp. apply Qopp_lt_compat in H2. exact H2.
    + rewrite inject_Z_opp. apply Qopp_le_compat. exact H1.
Qed.

(** ** the order of doubles is that of their values *)
Lemma good_order : forall s1 m1 e1 s2 m2 e2, good (S754_finite s1 m1 e1) -> good (S754_finite s2 m2 e2) ->
  e1 < e2 -> (inject_Z (Z.pos m1) * expo e1 < inject_Z (Z.pos m2) * expo e2)%Q.
Proof.
  intros s1 m1 e1 s2 m2 e2 G1 G2 L.
  apply good_bounds in G1. destruct G1 as (D1 & B1 & M1).
  pose proof (good_bounds _ _ _ G2) as (D2 & B2 & M2).
  apply good_finite in G2. destruct G2 as [F2 _]. rewrite fx_eq in F2.
  assert (Z.pos (digits2_pos m2) = 53) by lia. destruct (digits_bounds m2) as [C _]. rewrite H in C.
  replace e2 with (e1 + (e2 - e1)) by lia. rewrite expo_add by lia. rewrite Qmult_assoc, <- inject_Z_mult.
  apply Qmult_lt_r; [apply expo_pos|]. rewrite <- Zlt_Qlt.
  assert (2 ^ 1 <= 2 ^ (e2 - e1)) by (apply Z.pow_le_mono_r; lia).
  change (53 - 1) with 52 in C. assert (2 ^ 53 = 2 ^ 52 * 2) by reflexivity. nia.
Qed.

Lemma compare_real : forall x y a b, good x -> good y -> real_of x = Some a -> real_of y = Some b ->
  SFcompare x y = Some (a ?= b)%Q.
Proof.
  assert (Neg : forall m e, (inject_Z (Z.neg m) * expo e < 0)%Q).
  { intros m e. pose proof (expo_pos e) as P. setoid_replace 0%Q with (inject_Z 0 * expo e)%Q by reflexivity.
    apply Qmult_lt_r; [exact P|]. rewrite <- Zlt_Qlt. lia. }
  assert (Pos : forall m e, (0 < inject_Z (Z.pos m) * expo e)%Q).
  { intros m e. pose proof (expo_pos e) as P. setoid_replace 0%Q with (inject_Z 0 * expo e)%Q by reflexivity.
    apply Qmult_lt_r; [exact P|]. rewrite <- Zlt_Qlt. lia. }
  assert (Qlt_c : forall u v, (u < v)%Q -> (u ?= v)%Q = Lt) by (intros u v H; apply Qlt_alt; exact H).
  assert (Qgt_c : forall u v, (v < u)%Q -> (u ?= v)%Q = Gt) by (intros u v H; apply Qgt_alt; exact H).
  intros [s1|s1| |s1 m1 e1] [s2|s2| |s2 m2 e2] a b G1 G2 E1 E2; try discriminate E1; try discriminate E2.
  - injection E1 as <-. injection E2 as <-. reflexivity.
  - injection E1 as <-. destruct (real_finite s2 m2 e2) as (q & E & Hq). rewrite E2 in E. injection E as <-.
    cbn [SFcompare]. f_equal. rewrite Hq. destruct s2; cbn [signed]; symmetry; [apply Qgt_c, Neg | apply Qlt_c, Pos].
  - injection E2 as <-. destruct (real_finite s1 m1 e1) as (q & E & Hq). rewrite E1 in E. injection E as <-.
    cbn [SFcompare]. f_equal. rewrite Hq. destruct s1; cbn [signed]; symmetry; [apply Qlt_c, Neg | apply Qgt_c, Pos].
  - destruct (real_finite s1 m1 e1) as (q1 & Eq1 & H1). rewrite E1 in Eq1. injection Eq1 as <-.
    destruct (real_finite s2 m2 e2) as (q2 & Eq2 & H2). rewrite E2 in Eq2. injection Eq2 as <-.
    cbn [SFcompare]. f_equal. rewrite H1, H2. symmetry.
    assert (Opp : forall m e, (inject_Z (Z.neg m) * expo e == - (inject_Z (Z.pos m) * expo e))%Q).
    { intros m e. change (Z.neg m) with (- Z.pos m). rewrite inject_Z_opp. ring. }
    assert (Same : forall m m' e, (inject_Z (Z.pos m) * expo e ?= inject_Z (Z.pos m') * expo e)%Q = Pos.compare_cont Eq m m').
    { intros m m' e. change (Pos.compare_cont Eq m m') with (Pos.compare m m').
      destruct (Pos.compare_spec m m') as [->|L|L].
      - apply Qeq_alt. reflexivity.
      - apply Qlt_c. apply Qmult_lt_r; [apply expo_pos|]. rewrite <- Zlt_Qlt. exact L.
      - apply Qgt_c. apply Qmult_lt_r; [apply expo_pos|]. rewrite <- Zlt_Qlt. exact L. }
    destruct s1, s2; cbn [signed].
    + rewrite !Opp. destruct (Z.compare_spec e1 e2) as [->|L|L].
      * rewrite <- Same with (e := e2).
        destruct (inject_Z (Z.pos m1) * expo e2 ?= inject_Z (Z.pos m2) * expo e2)%Q eqn:C; cbn [CompOpp].
        -- apply Qeq_alt in C. rewrite C. apply Qeq_alt. reflexivity.
        -- apply Qgt_c. apply Qopp_lt_compat. apply Qlt_alt. exact C.
        -- apply Qlt_c. apply Qopp_lt_compat. apply Qgt_alt. exact C.
      * apply Qgt_c. apply Qopp_lt_compat. exact (good_order _ _ _ _ _ _ G1 G2 L).
      * apply Qlt_c. apply Qopp_lt_compat. exact (good_order _ _ _ _ _ _ G2 G1 L).
    + apply Qlt_c. eapply Qlt_trans; [apply Neg|apply Pos].
    + apply Qgt_c. eapply Qlt_trans; [apply Neg|apply Pos].
    + destruct (Z.compare_spec e1 e2) as [->|L|L].
      * apply Same.
      * apply Qlt_c. exact (good_order _ _ _ _ _ _ G1 G2 L).
      * apply Qgt_c. exact (good_order _ _ _ _ _ _ G2 G1 L).
Qed.
