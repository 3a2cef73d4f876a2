(** The operations on doubles give the double nearest to the exact result. *)
From Coq Require Import QArith Qabs Lqa.
From Verif Require Import Syntax Value F64 SpecExpr SpecRound FloatProofs.
Local Open Scope Z_scope.

Ltac qabs := repeat match goal with
  | |- context [Qabs ?a] => destruct (Qlt_le_dec a 0); [rewrite (Qabs_neg a) by lra|rewrite (Qabs_pos a) by lra]
  | H : context [Qabs ?a] |- _ => destruct (Qlt_le_dec a 0); [rewrite (Qabs_neg a) in H by lra|rewrite (Qabs_pos a) in H by lra]
  end.

(** ** Where a value lies between integers *)
Definition inb (m : Z) (y : Q) (l : location) : Prop :=
  (match l with
   | loc_Exact => y == inject_Z m
   | loc_Inexact Lt => inject_Z m < y /\ y < inject_Z m + (1 # 2)
   | loc_Inexact Eq => y == inject_Z m + (1 # 2)
   | loc_Inexact Gt => inject_Z m + (1 # 2) < y /\ y < inject_Z m + 1
   end)%Q.

Lemma inb_eq : forall m y y' l, (y == y')%Q -> inb m y l -> inb m y' l.
Proof. intros m y y' [|[]] E H; cbn in *; lra. Qed.

Lemma inj_xO : forall p, (inject_Z (Z.pos p~0) == 2 * inject_Z (Z.pos p))%Q.
Proof. intro p. unfold Qeq, Qmult, inject_Z. cbn [Qnum Qden]. lia. Qed.
Lemma inj_xI : forall p, (inject_Z (Z.pos p~1) == 2 * inject_Z (Z.pos p) + 1)%Q.
Proof. intro p. unfold Qeq, Qmult, Qplus, inject_Z. cbn [Qnum Qden]. lia. Qed.

Lemma shr_1_inb : forall r y, 0 <= shr_m r -> inb (shr_m r) (2 * y)%Q (loc_of_shr_record r) ->
  inb (shr_m (shr_1 r)) y (loc_of_shr_record (shr_1 r)).
Proof.
  intros [m r s] y Hm H. cbn [shr_m] in *. destruct m as [|[p|p|]|p]; [| | | |lia];
    destruct r, s; cbn [shr_1 shr_m loc_of_shr_record orb inb] in *;
    try rewrite inj_xO in H; try rewrite inj_xI in H; try change (inject_Z 1) with 1%Q in *; try change (inject_Z 0) with 0%Q in *; lra.
Qed.

Lemma shr_1_nonneg : forall r, 0 <= shr_m r -> 0 <= shr_m (shr_1 r).
Proof. intros r H. rewrite shr_1_m by exact H. apply Z.div_pos; lia. Qed.
Lemma iter_shr_nonneg : forall n r, 0 <= shr_m r -> 0 <= shr_m (iter_pos shr_1 n r).
Proof. intros n r H. rewrite iter_shr_m by exact H. apply Z.div_pos; [exact H|apply Z.pow_pos_nonneg; lia]. Qed.

Lemma inj_pow_add : forall a b, 0 <= a -> 0 <= b -> (inject_Z (2 ^ (a + b)) == inject_Z (2 ^ a) * inject_Z (2 ^ b))%Q.
Proof. intros a b Ha Hb. rewrite Z.pow_add_r by assumption. rewrite inject_Z_mult. reflexivity. Qed.

Lemma iter_inb : forall n r y, 0 <= shr_m r -> inb (shr_m r) (inject_Z (2 ^ Z.pos n) * y)%Q (loc_of_shr_record r) ->
  inb (shr_m (iter_pos shr_1 n r)) y (loc_of_shr_record (iter_pos shr_1 n r)).
Proof.
  induction n as [n IH|n IH|]; intros r y Hr H; cbn [iter_pos].
  - apply IH; [apply iter_shr_nonneg, shr_1_nonneg, Hr|]. apply IH; [apply shr_1_nonneg, Hr|].
    apply shr_1_inb; [exact Hr|]. eapply inb_eq; [|exact H].
    rewrite (Pos2Z.inj_xI n). replace (2 * Z.pos n + 1) with (1 + (Z.pos n + Z.pos n)) by lia.
    rewrite !inj_pow_add by lia. change (inject_Z (2 ^ 1)) with 2%Q. ring.
  - apply IH; [apply iter_shr_nonneg, Hr|]. apply IH; [exact Hr|]. eapply inb_eq; [|exact H].
    rewrite (Pos2Z.inj_xO n). replace (2 * Z.pos n) with (Z.pos n + Z.pos n) by lia.
    rewrite !inj_pow_add by lia. ring.
  - apply shr_1_inb; [exact Hr|]. exact H.
Qed.

Lemma loc_record : forall m l, loc_of_shr_record (shr_record_of_loc m l) = l /\ shr_m (shr_record_of_loc m l) = m.
Proof. intros m [|[]]; auto. Qed.

Lemma nearest_even_inb : forall m y l, inb m y l ->
  (Qabs (y - inject_Z (round_nearest_even m l)) <= 1 # 2)%Q /\
  ((Qabs (y - inject_Z (round_nearest_even m l)) == 1 # 2)%Q -> Z.even (round_nearest_even m l) = true).
Proof.
  intros m y l H. assert (S1 : (inject_Z (m + 1) == inject_Z m + 1)%Q) by (rewrite inject_Z_plus; reflexivity).
  destruct l as [|[]]; cbn [round_nearest_even inb] in *.
  - split; [qabs; lra|]. intro K. exfalso. qabs; lra.
  - destruct (Z.even m) eqn:E.
    + split; [qabs; lra|]. auto.
    + split; [rewrite S1; qabs; lra|]. intros _. rewrite Z.add_1_r, Z.even_succ, <- Z.negb_even, E. reflexivity.
  - split; [qabs; lra|]. intro K. exfalso. qabs; lra.
  - split; [rewrite S1; qabs; lra|]. intro K. exfalso. rewrite S1 in K. qabs; lra.
Qed.

(** ** What rounding gives *)
Definition round_result (s : bool) (m e : Z) : f64 :=
  match m with
  | Z.pos p =>
    if m <? 2 ^ 53 then if e <=? 971 then S754_finite s p e else S754_infinity s
    else if e <=? 970 then S754_finite s 4503599627370496 (e + 1) else S754_infinity s
  | _ => S754_zero s
  end.

Lemma round_aux_value : forall s m e l y0, e <= fx (Zdigits2 m + e) -> 0 <= m -> inb m y0 l ->
  exists y m2 e1, -1074 <= e1 /\ (y * expo e1 == y0 * expo e)%Q /\
    (-1074 < e1 -> (inject_Z (2 ^ 52) <= y)%Q) /\ (y < inject_Z (2 ^ 53))%Q /\ (0 <= y)%Q /\
    (Qabs (y - inject_Z m2) <= 1 # 2)%Q /\ ((Qabs (y - inject_Z m2) == 1 # 2)%Q -> Z.even m2 = true) /\
    0 <= m2 <= 2 ^ 53 /\ (-1074 < e1 -> 2 ^ 52 <= m2) /\
    binary_round_aux 53 1024 s m e l = round_result s m2 e1.
Proof.
  intros s m e l y0 He Hm Hin. unfold binary_round_aux, shr_fexp.
  remember (fx (Zdigits2 m + e)) as e1 eqn:He1.
  destruct (loc_record m l) as [Hl Hmm].
  assert (Hr : 0 <= shr_m (shr_record_of_loc m l)) by (rewrite Hmm; exact Hm).
  assert (A : exists r y, shr (shr_record_of_loc m l) e (e1 - e) = (r, e1) /\ 0 <= shr_m r < 2 ^ 53 /\
     (-1074 < e1 -> 2 ^ 52 <= shr_m r) /\ inb (shr_m r) y (loc_of_shr_record r) /\ (y * expo e1 == y0 * expo e)%Q).
  { assert (Hb : m < 2 ^ Zdigits2 m /\ (0 < m -> 2 ^ (Zdigits2 m - 1) <= m)).
    { destruct m as [|p|p]; [|cbn [Zdigits2]; destruct (digits_bounds p); lia|lia].
      split; [reflexivity|lia]. }
    assert (Hd0 : 0 <= Zdigits2 m) by (destruct m; cbn; lia).
    rewrite fx_eq in He1.
    destruct (e1 - e) as [|d|d] eqn:Hd; cbn [shr]; [| |lia].
    - exists (shr_record_of_loc m l), y0. assert (Ee : e = e1) by lia. split; [f_equal; exact Ee|]. rewrite Hl, Hmm.
      assert (Zdigits2 m <= 53) by lia.
      assert (2 ^ Zdigits2 m <= 2 ^ 53) by (apply Z.pow_le_mono_r; lia).
      split; [lia|]. split; [|split; [exact Hin|rewrite Ee; reflexivity]]. intros HL. assert (HZ : Zdigits2 m = 53) by lia.
      destruct m; [cbn in *; lia| |lia]. destruct Hb as [_ Hb]. rewrite HZ in Hb. apply Hb. lia.
    - assert (P : 0 < 2 ^ Z.pos d) by (apply Z.pow_pos_nonneg; lia).
      assert (PQ : (0 < inject_Z (2 ^ Z.pos d))%Q) by (change 0%Q with (inject_Z 0); rewrite <- Zlt_Qlt; exact P).
      exists (iter_pos shr_1 d (shr_record_of_loc m l)), (y0 / inject_Z (2 ^ Z.pos d))%Q. split; [f_equal; lia|].
      rewrite iter_shr_m by assumption. rewrite Hmm.
      assert (Zdigits2 m - Z.pos d <= 53) by lia.
      assert (2 ^ Zdigits2 m <= 2 ^ (53 + Z.pos d)) by (apply Z.pow_le_mono_r; lia).
      rewrite Z.pow_add_r in H0 by lia.
      split; [|split; [|split]].
      + split; [apply Z.div_pos; lia|]. apply Z.div_lt_upper_bound; [lia|]. lia.
      + intros HL. assert (Hdd : Zdigits2 m - 1 = 52 + Z.pos d) by lia.
        assert (Hp : 0 < m) by (destruct m; cbn in *; lia).
        destruct Hb as [_ Hb]. specialize (Hb Hp). rewrite Hdd, Z.pow_add_r in Hb by lia.
        apply Z.div_le_lower_bound; [lia|]. lia.
      + rewrite <- Hmm at 1. rewrite <- iter_shr_m by exact Hr. apply iter_inb; [exact Hr|]. rewrite Hl, Hmm. eapply inb_eq; [|exact Hin].
        field. lra.
      + replace e1 with (e + Z.pos d) by lia. rewrite expo_add by lia. field. lra. }
  destruct A as (r & y & E & Hr1 & Hr2 & Hy & Ey). rewrite E.
  assert (Hge : -1074 <= e1) by (rewrite fx_eq in He1; lia).
  destruct (nearest_even_inb _ _ _ Hy) as [N1 N2].
  remember (round_nearest_even (shr_m r) (loc_of_shr_record r)) as m2 eqn:Em2.
  assert (Hm2 : 0 <= m2 <= 2 ^ 53 /\ (-1074 < e1 -> 2 ^ 52 <= m2)).
  { subst m2. unfold round_nearest_even. destruct (loc_of_shr_record r) as [|[]]; try destruct (Z.even (shr_m r)); lia. }
  assert (Ylo : (inject_Z (shr_m r) <= y)%Q) by (destruct (loc_of_shr_record r) as [|[]]; cbn in Hy; lra).
  assert (Yhi : (y < inject_Z (shr_m r) + 1)%Q) by (destruct (loc_of_shr_record r) as [|[]]; cbn in Hy; lra).
  exists y, m2, e1. split; [exact Hge|]. split; [exact Ey|].
  split. { intro L. eapply Qle_trans; [|exact Ylo]. rewrite <- Zle_Qle. auto. }
  split. { eapply Qlt_le_trans; [exact Yhi|]. change 1%Q with (inject_Z 1). rewrite <- inject_Z_plus, <- Zle_Qle. lia. }
  split. { eapply Qle_trans; [|exact Ylo]. change 0%Q with (inject_Z 0). rewrite <- Zle_Qle. lia. }
  split; [exact N1|]. split; [exact N2|]. split; [tauto|]. split; [tauto|].
  clear - Hge Hm2. destruct Hm2 as [Hm2 Hm3]. cbn [shr_record_of_loc].
  destruct m2 as [|p|p]; [| |lia].
  - cbn [Zdigits2 round_result]. rewrite fx_eq. assert (e1 = -1074) by lia. subst e1.
    replace (Z.max (0 + -1074 - 53) (-1074) - -1074) with 0 by lia. reflexivity.
  - cbn [Zdigits2]. destruct (digits_bounds p) as [B1 B2]. unfold round_result.
    destruct (Z.ltb_spec (Z.pos p) (2 ^ 53)) as [L|G].
    + assert (Z.pos (digits2_pos p) <= 53) by (apply digits_le; lia).
      assert (F : fx (Z.pos (digits2_pos p) + e1) = e1).
      { rewrite fx_eq. destruct (Z_lt_ge_dec (-1074) e1) as [L1|G1]; [|lia].
        specialize (Hm3 L1).
        assert (Z.pos (digits2_pos p) = 53) by (apply digits_unique; change (53 - 1) with 52; lia). lia. }
      rewrite F, Z.sub_diag. cbn [shr shr_m]. reflexivity.
    + assert (Ep : Z.pos p = 2 ^ 53) by lia.
      assert (Ed : Z.pos (digits2_pos p) = 54) by (apply digits_unique; rewrite Ep; split; [cbn|]; lia).
      rewrite Ed. rewrite fx_eq. replace (Z.max (54 + e1 - 53) (-1074) - e1) with 1 by lia.
      cbn [shr iter_pos].
      assert (Es : shr_m (shr_1 {| shr_m := Z.pos p; shr_r := false; shr_s := false |}) = 2 ^ 52).
      { rewrite shr_1_m by (cbn; lia). cbn [shr_m]. rewrite Ep. reflexivity. }
      rewrite Es. change (2 ^ 52) with (Z.pos 4503599627370496). cbv iota.
      change (1024 - 53) with 971. replace (e1 + 1 <=? 971) with (e1 <=? 970); [reflexivity|].
      destruct (Z.leb_spec e1 970), (Z.leb_spec (e1 + 1) 971); lia || reflexivity.
Qed.

(** ** The result is the closest double *)
Definition sg (s : bool) (q : Q) : Q := if s then (- q)%Q else q.

Lemma expo_mono : forall e e', e <= e' -> (expo e <= expo e')%Q.
Proof.
  intros e e' H. replace e' with (e + (e' - e)) by lia. rewrite expo_add by lia. pose proof (expo_pos e) as P.
  assert (Q1 : (1 <= inject_Z (2 ^ (e' - e)))%Q).
  { change 1%Q with (inject_Z 1). rewrite <- Zle_Qle. assert (0 < 2 ^ (e' - e)) by (apply Z.pow_pos_nonneg; lia). lia. }
  setoid_replace (expo e) with (1 * expo e)%Q at 1 by ring. apply Qmult_le_compat_r; lra.
Qed.

Lemma sg_abs : forall s q, (Qabs (sg s q) == Qabs q)%Q.
Proof. intros [] q; cbn [sg]; [apply Qabs_opp|reflexivity]. Qed.

Lemma sg_diff : forall s q r, (Qabs (sg s q - r) == Qabs (q - sg s r))%Q.
Proof.
  intros [] q r; cbn [sg]; [|reflexivity]. setoid_replace (- q - r)%Q with (- (q - - r))%Q by ring. apply Qabs_opp.
Qed.

Lemma scale_abs : forall a e, (0 < e)%Q -> (Qabs (a * e) == Qabs a * e)%Q.
Proof. intros a e H. rewrite Qabs_Qmult, (Qabs_pos e) by lra. reflexivity. Qed.

Lemma result_real : forall s m2 e1, 0 <= m2 <= 2 ^ 53 -> (forall t, round_result s m2 e1 <> S754_infinity t) ->
  exists r, real_of (round_result s m2 e1) = Some r /\ (r == sg s (inject_Z m2 * expo e1))%Q.
Proof.
  intros s m2 e1 H Hi. unfold round_result in *. destruct m2 as [|p|p]; [| |lia].
  - exists 0%Q. split; [reflexivity|]. destruct s; cbn [sg]; change (inject_Z 0) with 0%Q; ring.
  - assert (G : forall p, (inject_Z (signed s p) == sg s (inject_Z (Z.pos p)))%Q).
    { intro p'. destruct s; cbn [signed sg]; [|reflexivity]. change (Z.neg p') with (- Z.pos p'). rewrite inject_Z_opp. reflexivity. }
    destruct (Z.ltb_spec (Z.pos p) (2 ^ 53)).
    + destruct (e1 <=? 971); [|destruct (Hi s); reflexivity]. destruct (real_finite s p e1) as (q & Eq & Hq).
      exists q. split; [exact Eq|]. rewrite Hq, G. destruct s; cbn [sg]; ring.
    + destruct (e1 <=? 970); [|destruct (Hi s); reflexivity]. destruct (real_finite s 4503599627370496 (e1 + 1)) as (q & Eq & Hq).
      exists q. split; [exact Eq|]. rewrite Hq, G, expo_add by lia. assert (Ep : Z.pos p = 2 ^ 53) by lia. rewrite Ep.
      change (2 ^ 53) with (4503599627370496 * 2 ^ 1). rewrite inject_Z_mult. destruct s; cbn [sg]; ring.
Qed.

Lemma result_even : forall s m2 e1, 0 <= m2 <= 2 ^ 53 -> (forall t, round_result s m2 e1 <> S754_infinity t) ->
  Z.even m2 = true -> even_mantissa (round_result s m2 e1).
Proof.
  intros s m2 e1 H Hi E. unfold round_result in *. destruct m2 as [|p|p]; [exact I| |lia].
  destruct (Z.pos p <? 2 ^ 53).
  - destruct (e1 <=? 971); [|destruct (Hi s); reflexivity]. exact E.
  - destruct (e1 <=? 970); [|destruct (Hi s); reflexivity]. reflexivity.
Qed.

Lemma overflow_eq : (overflow == inject_Z (2 ^ 54 - 1) * expo 970)%Q.
Proof. vm_compute. reflexivity. Qed.

Section result.
Variables (s : bool) (y : Q) (m2 e1 : Z).
Hypothesis He1 : -1074 <= e1.
Hypothesis Hlo : -1074 < e1 -> (inject_Z (2 ^ 52) <= y)%Q.
Hypothesis Hhi : (y < inject_Z (2 ^ 53))%Q.
Hypothesis Hy : (0 <= y)%Q.
Hypothesis Hn : (Qabs (y - inject_Z m2) <= 1 # 2)%Q.
Hypothesis Ht : (Qabs (y - inject_Z m2) == 1 # 2)%Q -> Z.even m2 = true.
Hypothesis Hm : 0 <= m2 <= 2 ^ 53.
Hypothesis Hm52 : -1074 < e1 -> 2 ^ 52 <= m2.

Lemma result_finite_below : (forall t, round_result s m2 e1 <> S754_infinity t) -> (y * expo e1 < overflow)%Q.
Proof.
  intro Hi. rewrite overflow_eq.
  assert (T : forall k b, (y < inject_Z b * (1 # 2))%Q -> e1 <= k -> (y * expo e1 < inject_Z b * (1 # 2) * expo k)%Q).
  { intros k b Hb Hk. apply Qle_lt_trans with (y * expo k)%Q.
    - rewrite !(Qmult_comm y). apply Qmult_le_compat_r; [apply expo_mono, Hk|exact Hy].
    - apply Qmult_lt_r; [apply expo_pos|exact Hb]. }
  assert (E971 : (expo 971 == 2 * expo 970)%Q) by (vm_compute; reflexivity).
  unfold round_result in Hi. destruct m2 as [|p|p] eqn:Em; [| |lia].
  - assert (e1 = -1074) by (destruct (Z_lt_ge_dec (-1074) e1) as [L|L]; [specialize (Hm52 L)|]; lia).
    eapply Qlt_le_trans; [apply (T 970 (2 ^ 54 - 1)); [|lia]|].
    + change (inject_Z 0) with 0%Q in Hn. assert (y <= 1 # 2)%Q by (qabs; lra). apply Qle_lt_trans with 1%Q; [lra|]. reflexivity.
    + apply Qmult_le_compat_r; [|pose proof (expo_pos 970); lra]. vm_compute. discriminate.
  - destruct (Z.ltb_spec (Z.pos p) (2 ^ 53)) as [L|L].
    + destruct (Z.leb_spec e1 971) as [L1|L1]; [|destruct (Hi s); reflexivity].
      assert (B : (y < inject_Z (2 ^ 54 - 1) * (1 # 2))%Q).
      { destruct (Z.eq_dec (Z.pos p) (2 ^ 53 - 1)) as [Ep|Ep].
        - assert (N : ~ (Qabs (y - inject_Z (Z.pos p)) == 1 # 2)%Q) by (intro K; apply Ht in K; rewrite Ep in K; discriminate K).
          rewrite Ep in *. change (inject_Z (2 ^ 53 - 1)) with (9007199254740991#1)%Q in *. change (inject_Z (2 ^ 54 - 1)) with (18014398509481983#1)%Q.
          qabs; lra.
        - assert (K : (inject_Z (Z.pos p) <= inject_Z (2 ^ 53 - 2))%Q) by (rewrite <- Zle_Qle; lia).
          change (inject_Z (2 ^ 53 - 2)) with (9007199254740990#1)%Q in *. change (inject_Z (2 ^ 54 - 1)) with (18014398509481983#1)%Q.
          qabs; lra. }
      eapply Qlt_le_trans; [apply (T 971 _ B L1)|]. rewrite E971. apply Qle_lteq. right. ring.
    + destruct (Z.leb_spec e1 970) as [L1|L1]; [|destruct (Hi s); reflexivity].
      eapply Qlt_le_trans; [apply (T 970 (2 ^ 54)); [eapply Qlt_le_trans; [exact Hhi|vm_compute; discriminate]|lia]|].
      apply Qmult_le_compat_r; [|pose proof (expo_pos 970); lra]. vm_compute. discriminate.
Qed.

Lemma result_infinite_above : forall t, round_result s m2 e1 = S754_infinity t -> t = s /\ (overflow <= y * expo e1)%Q.
Proof.
  intros t Hi. rewrite overflow_eq.
  assert (T : forall k b, (inject_Z b * (1 # 2) <= y)%Q -> k <= e1 -> (inject_Z b * (1 # 2) * expo k <= y * expo e1)%Q).
  { intros k b Hb Hk. apply Qle_trans with (y * expo k)%Q.
    - apply Qmult_le_compat_r; [exact Hb|pose proof (expo_pos k); lra].
    - rewrite !(Qmult_comm y). apply Qmult_le_compat_r; [apply expo_mono, Hk|exact Hy]. }
  assert (E971 : (expo 971 == 2 * expo 970)%Q) by (vm_compute; reflexivity).
  assert (E972 : (expo 972 == 4 * expo 970)%Q) by (vm_compute; reflexivity).
  pose proof (expo_pos 970) as P.
  unfold round_result in Hi. destruct m2 as [|p|p] eqn:Em; [discriminate Hi| |lia].
  destruct (Z.ltb_spec (Z.pos p) (2 ^ 53)) as [L|L].
  - destruct (Z.leb_spec e1 971) as [L1|L1]; [discriminate Hi|]. injection Hi as <-. split; [reflexivity|].
    eapply Qle_trans; [|apply (T 972 (2 ^ 53)); [eapply Qle_trans; [|apply Hlo; lia]; vm_compute; discriminate|lia]]. rewrite E972.
    setoid_replace (inject_Z (2 ^ 53) * (1 # 2) * (4 * expo 970))%Q with (inject_Z (2 ^ 54) * expo 970)%Q.
    + apply Qmult_le_compat_r; [|lra]. vm_compute. discriminate.
    + change (2 ^ 54) with (2 ^ 53 * 2). rewrite inject_Z_mult. change (inject_Z 2) with 2%Q. ring.
  - destruct (Z.leb_spec e1 970) as [L1|L1]; [discriminate Hi|]. injection Hi as <-. split; [reflexivity|].
    assert (Ep : Z.pos p = 2 ^ 53) by lia. rewrite Ep in *.
    eapply Qle_trans; [|apply (T 971 (2 ^ 54 - 1)); [|lia]].
    + rewrite E971. apply Qle_lteq. right. ring.
    + change (inject_Z (2 ^ 53)) with (9007199254740992#1)%Q in *. change (inject_Z (2 ^ 54 - 1)) with (18014398509481983#1)%Q. qabs; lra.
Qed.

Lemma int_apart : forall a b, a <> b -> (inject_Z a + 1 <= inject_Z b \/ inject_Z b + 1 <= inject_Z a)%Q.
Proof.
  intros a b H. change 1%Q with (inject_Z 1). rewrite <- !inject_Z_plus, <- !Zle_Qle. lia.
Qed.

(** against a multiple of the unit *)
Lemma against_integer : forall k, k <> m2 ->
  (Qabs (y - inject_Z m2) < Qabs (y - inject_Z k))%Q \/
  ((Qabs (y - inject_Z m2) == Qabs (y - inject_Z k))%Q /\ Z.even m2 = true /\ Z.even k = false).
Proof.
  intros k Hk. destruct (Qlt_le_dec (Qabs (y - inject_Z m2)) (Qabs (y - inject_Z k))) as [L|L]; [left; exact L|right].
  assert (E : (Qabs (y - inject_Z m2) == 1 # 2)%Q /\ (Qabs (y - inject_Z k) == 1 # 2)%Q /\
              (inject_Z k == inject_Z m2 + 1 \/ inject_Z k == inject_Z m2 - 1)%Q).
  { destruct (int_apart k m2 Hk); qabs; (split; [lra|split; [lra|]]); first [left; lra|right; lra]. }
  destruct E as (E1 & E2 & E3). split; [rewrite E1, E2; reflexivity|]. specialize (Ht E1). split; [exact Ht|].
  assert (K : k = m2 + 1 \/ k = m2 - 1).
  { change 1%Q with (inject_Z 1) in E3. unfold Qminus in E3. rewrite <- inject_Z_opp, <- !inject_Z_plus in E3.
    destruct E3 as [E3|E3]; [left|right]; apply (proj1 (inject_Z_injective _ _)) in E3; lia. }
  destruct K as [-> | ->]; [rewrite Z.add_1_r, Z.even_succ|rewrite Z.sub_1_r, Z.even_pred]; rewrite <- Z.negb_even, Ht; reflexivity.
Qed.

Lemma result_closest : (forall t, round_result s m2 e1 <> S754_infinity t) ->
  closest (sg s (y * expo e1)) (round_result s m2 e1).
Proof.
  intro Hi. destruct (result_real s m2 e1 Hm Hi) as (r & Er & Hr). exists r. split; [exact Er|].
  intros g r' Hg Er'. pose proof (expo_pos e1) as P.
  assert (Q0 : (Qabs (sg s (y * expo e1) - r) == Qabs (y - inject_Z m2) * expo e1)%Q).
  { rewrite Hr, <- scale_abs by exact P. rewrite sg_diff.
    setoid_replace (sg s (sg s (inject_Z m2 * expo e1))) with (inject_Z m2 * expo e1)%Q by (destruct s; cbn [sg]; ring).
    setoid_replace (y * expo e1 - inject_Z m2 * expo e1)%Q with ((y - inject_Z m2) * expo e1)%Q by ring. reflexivity. }
  (* [g] is a multiple [k] of the unit *)
  assert (Mul : forall k, (r' == sg s (inject_Z k * expo e1))%Q -> (Z.even k = false -> ~ even_mantissa g) ->
    (r == r')%Q \/ (Qabs (sg s (y * expo e1) - r) < Qabs (sg s (y * expo e1) - r'))%Q \/
    ((Qabs (sg s (y * expo e1) - r) == Qabs (sg s (y * expo e1) - r'))%Q /\ even_mantissa (round_result s m2 e1) /\ ~ even_mantissa g)).
  { intros k Hk Ho. destruct (Z.eq_dec k m2) as [-> |Hne]; [left; rewrite Hr, Hk; reflexivity|right].
    assert (Q1 : (Qabs (sg s (y * expo e1) - r') == Qabs (y - inject_Z k) * expo e1)%Q).
    { rewrite Hk, <- scale_abs by exact P. rewrite sg_diff.
      setoid_replace (sg s (sg s (inject_Z k * expo e1))) with (inject_Z k * expo e1)%Q by (destruct s; cbn [sg]; ring).
      setoid_replace (y * expo e1 - inject_Z k * expo e1)%Q with ((y - inject_Z k) * expo e1)%Q by ring. reflexivity. }
    destruct (against_integer k Hne) as [L|(E & Ev & Od)].
    - left. rewrite Q0, Q1. apply Qmult_lt_r; assumption.
    - right. rewrite Q0, Q1, E. split; [reflexivity|]. split; [apply result_even; assumption|auto]. }
  destruct g as [s'|s'| |s' m' e']; try discriminate Er'.
  - injection Er' as <-. apply (Mul 0); [|discriminate]. change (inject_Z 0) with 0%Q. destruct s; cbn [sg]; ring.
  - destruct (real_finite s' m' e') as (q & Eq & Hq). rewrite Er' in Eq. injection Eq as <-.
    destruct (Z_le_gt_dec e1 e') as [Le|Gt].
    + apply (Mul ((if s then - signed s' m' else signed s' m') * 2 ^ (e' - e1))).
      * rewrite Hq. replace e' with (e1 + (e' - e1)) at 1 by lia. rewrite expo_add by lia. rewrite inject_Z_mult.
        destruct s; cbn [sg]; [rewrite inject_Z_opp|]; ring.
      * intros Ho Hev. cbn [even_mantissa] in Hev. rewrite Z.even_mul in Ho. apply orb_false_iff in Ho as [Ho _].
        destruct s, s'; cbn [signed Z.opp] in Ho; cbn in Hev, Ho; destruct m'; discriminate.
    + right. left. rewrite Q0.
      pose proof (good_bounds _ _ _ Hg) as (_ & _ & M). specialize (Hlo ltac:(pose proof (good_bounds _ _ _ Hg); lia)).
      assert (R : (Qabs r' < inject_Z (2 ^ 52) * expo e1)%Q).
      { rewrite Hq, scale_abs by apply expo_pos.
        assert (A : (Qabs (inject_Z (signed s' m')) == inject_Z (Z.pos m'))%Q) by (destruct s'; cbn [signed]; reflexivity).
        rewrite A. apply Qlt_le_trans with (inject_Z (2 ^ 53) * expo e')%Q.
        - apply Qmult_lt_r; [apply expo_pos|]. rewrite <- Zlt_Qlt. lia.
        - apply Qle_trans with (inject_Z (2 ^ 52) * expo (e' + 1))%Q.
          + rewrite expo_add by lia. change (2 ^ 53) with (2 ^ 52 * 2 ^ 1). rewrite inject_Z_mult. apply Qle_lteq. right. ring.
          + rewrite !(Qmult_comm (inject_Z (2 ^ 52))). apply Qmult_le_compat_r; [apply expo_mono; lia|]. vm_compute. discriminate. }
      assert (A : (Qabs (y - inject_Z m2) <= y - inject_Z (2 ^ 52))%Q).
      { destruct (Z.eq_dec (2 ^ 52) m2) as [<- |Hne].
        - rewrite Qabs_pos by lra. lra.
        - destruct (against_integer (2 ^ 52) Hne) as [L|(E & _)].
          + rewrite (Qabs_pos (y - inject_Z (2 ^ 52))) in L by lra. lra.
          + rewrite E, (Qabs_pos (y - inject_Z (2 ^ 52))) by lra. lra. }
      apply Qle_lt_trans with ((y - inject_Z (2 ^ 52)) * expo e1)%Q; [apply Qmult_le_compat_r; lra|].
      rewrite sg_diff. assert (As : (Qabs (sg s r') < inject_Z (2 ^ 52) * expo e1)%Q) by (rewrite sg_abs; exact R).
      setoid_replace ((y - inject_Z (2 ^ 52)) * expo e1)%Q with (y * expo e1 - inject_Z (2 ^ 52) * expo e1)%Q by ring.
      set (a := (y * expo e1)%Q) in *. set (b := (inject_Z (2 ^ 52) * expo e1)%Q) in *.
      clearbody a b. generalize (sg s r') As. intros t Ht'. qabs; lra.
Qed.

Lemma result_rounded : double (round_result s m2 e1) -> rounded (sg s (y * expo e1)) (round_result s m2 e1).
Proof.
  intro Hd. pose proof (expo_pos e1) as P.
  assert (Y : (0 <= y * expo e1)%Q) by (apply Qmult_le_0_compat; lra).
  assert (D : {t | round_result s m2 e1 = S754_infinity t} + {forall t, round_result s m2 e1 <> S754_infinity t}).
  { destruct (round_result s m2 e1) eqn:E; try (right; intros; discriminate). left. eauto. }
  destruct D as [(t & E)|Hi].
  - destruct (result_infinite_above t E) as [-> O]. rewrite E. assert (O' : (0 < overflow)%Q) by (vm_compute; reflexivity).
    apply RoOver; [rewrite sg_abs, Qabs_pos by exact Y; exact O|]. destruct s; cbn [sg]; lra.
  - apply RoFinite; [rewrite sg_abs, Qabs_pos by exact Y; apply result_finite_below, Hi|exact Hd|apply result_closest, Hi| |].
    + intro K. assert (s = true) as Es by (destruct s; cbn [sg] in K; [reflexivity|lra]).
      unfold round_result in *. subst s. destruct m2 as [|p|p]; [reflexivity| |lia].
      destruct (Z.pos p <? 2 ^ 53); [destruct (e1 <=? 971)|destruct (e1 <=? 970)]; reflexivity.
    + intro K. assert (s = false) as Es by (destruct s; cbn [sg] in K; [lra|reflexivity]).
      unfold round_result in *. subst s. destruct m2 as [|p|p]; [reflexivity| |lia].
      destruct (Z.pos p <? 2 ^ 53); [destruct (e1 <=? 971)|destruct (e1 <=? 970)]; reflexivity.
Qed.
End result.

Lemma rounded_eq : forall q q' f, (q == q')%Q -> rounded q f -> rounded q' f.
Proof.
  intros q q' f E H. destruct H as [f O D (r & Er & C) S1 S2|s O S].
  - apply RoFinite; [rewrite <- E; exact O|exact D| |rewrite <- E; exact S1|rewrite <- E; exact S2].
    exists r. split; [exact Er|]. intros g r' Hg Hr'. specialize (C g r' Hg Hr'). rewrite !E in C. exact C.
  - apply RoOver; [rewrite <- E; exact O|]. destruct s; rewrite <- E; exact S.
Qed.

Lemma round_aux_rounded : forall s m e l y0, e <= fx (Zdigits2 m + e) -> 0 <= m -> inb m y0 l ->
  rounded (sg s (y0 * expo e)) (binary_round_aux 53 1024 s m e l).
Proof.
  intros s m e l y0 He Hm Hin. pose proof (round_aux_good s m e l He Hm) as G.
  destruct (round_aux_value s m e l y0 He Hm Hin) as (y & m2 & e1 & A1 & A2 & A3 & A4 & A5 & A6 & A7 & A8 & A9 & A10).
  rewrite A10 in *. eapply rounded_eq; [|apply result_rounded with (y := y); assumption].
  destruct s; cbn [sg]; rewrite A2; reflexivity.
Qed.

(** ** The operations *)
Lemma shl_value : forall m e e', e' <= e -> (inject_Z (Z.pos (fst (shl_align m e e'))) * expo e' == inject_Z (Z.pos m) * expo e)%Q.
Proof.
  intros m e e' H. unfold shl_align. destruct (e' - e) as [|d|d] eqn:E; cbn [fst]; [|lia|].
  - replace e' with e by lia. reflexivity.
  - rewrite shift_pos_pow, inject_Z_mult. replace e with (e' + Z.pos d) by lia. rewrite expo_add by lia. ring.
Qed.

Lemma round_rounded : forall s m e, rounded (sg s (inject_Z (Z.pos m) * expo e)) (binary_round 53 1024 s m e).
Proof.
  intros s m e. unfold binary_round.
  remember (fx (Z.pos (digits2_pos m) + e)) as e0 eqn:He0.
  destruct (Z_le_gt_dec e e0) as [L|L].
  - assert (E : shl_align m e e0 = (m, e)) by (unfold shl_align; destruct (e0 - e) eqn:Hd; [reflexivity|reflexivity|lia]).
    rewrite E. apply round_aux_rounded; [cbn [Zdigits2]; lia|lia|reflexivity].
  - pose proof (shl_value m e e0 ltac:(lia)) as V. assert (E : exists m', shl_align m e e0 = (m', e0) /\ Z.pos (digits2_pos m') + e0 = Z.pos (digits2_pos m) + e).
    { unfold shl_align. destruct (e0 - e) as [|d|d] eqn:Hd; [lia|lia|]. exists (shift_pos d m). split; [reflexivity|]. rewrite digits_shift. lia. }
    destruct E as (m' & E & Ed). rewrite E in *. cbn [fst] in V.
    eapply rounded_eq; [|apply round_aux_rounded with (y0 := inject_Z (Z.pos m')); [cbn [Zdigits2]; rewrite Ed; lia|lia|reflexivity]].
    destruct s; cbn [sg]; rewrite V; reflexivity.
Qed.

Lemma zero_rounded : forall q s, (q == 0)%Q -> rounded q (S754_zero s).
Proof.
  intros q s E. apply RoFinite.
  - rewrite E. reflexivity.
  - reflexivity.
  - exists 0%Q. split; [reflexivity|]. intros g r' _ _. destruct (Qeq_dec 0 r') as [Er|Er]; [left; exact Er|right; left].
    rewrite E. qabs; try lra; destruct (Qlt_le_dec r' 0); try lra; exfalso; apply Er; lra.
  - intro K. lra.
  - intro K. lra.
Qed.

Lemma normalize_rounded : forall z e s, rounded (inject_Z z * expo e) (binary_normalize 53 1024 z e s).
Proof.
  intros [|p|p] e s; cbn [binary_normalize].
  - apply zero_rounded. change (inject_Z 0) with 0%Q. ring.
  - eapply rounded_eq; [|apply round_rounded]. reflexivity.
  - eapply rounded_eq; [|apply round_rounded]. cbn [sg]. change (Z.neg p) with (- Z.pos p). rewrite inject_Z_opp. ring.
Qed.

(** a double is the closest to itself *)
Lemma self_rounded : forall f q, double f -> real_of f = Some q -> rounded q f.
Proof.
  intros f q Hd Hq. destruct f as [s|s| |s m e]; try discriminate Hq.
  - injection Hq as <-. apply zero_rounded. reflexivity.
  - pose proof (good_bounds _ _ _ Hd) as (B1 & B2 & B3). destruct (real_finite s m e) as (q' & E & V). rewrite Hq in E. injection E as <-.
    pose proof (expo_pos e) as P.
    assert (M : (0 < inject_Z (Z.pos m))%Q) by reflexivity.
    assert (V' : (q == sg s (inject_Z (Z.pos m) * expo e))%Q).
    { rewrite V. destruct s; cbn [signed sg]; [|reflexivity]. change (Z.neg m) with (- Z.pos m). rewrite inject_Z_opp. ring. }
    assert (PP : (0 < inject_Z (Z.pos m) * expo e)%Q) by (apply Qmult_lt_0_compat; assumption).
    apply RoFinite.
    + rewrite V', sg_abs, Qabs_pos, overflow_eq by lra.
      apply Qle_lt_trans with (inject_Z (2 ^ 53 - 1) * expo 971)%Q.
      * apply Qle_trans with (inject_Z (2 ^ 53 - 1) * expo e)%Q.
        -- apply Qmult_le_compat_r; [|lra]. rewrite <- Zle_Qle. lia.
        -- rewrite !(Qmult_comm (inject_Z (2 ^ 53 - 1))). apply Qmult_le_compat_r; [|vm_compute; discriminate].
           apply expo_mono. apply good_finite in Hd. lia.
      * vm_compute. reflexivity.
    + exact Hd.
    + exists q. split; [exact Hq|]. intros g r' _ _. destruct (Qeq_dec q r') as [Er|Er]; [left; exact Er|right; left].
      qabs; try lra; destruct (Qlt_le_dec q r'); try lra; exfalso; apply Er; lra.
    + intro K. destruct s; [reflexivity|]. cbn [sg] in V'. lra.
    + intro K. destruct s; [|reflexivity]. cbn [sg] in V'. lra.
Qed.

Lemma digits_mul : forall a b, Z.pos (digits2_pos a) + Z.pos (digits2_pos b) - 1 <= Z.pos (digits2_pos (a * b)).
Proof.
  intros a b. destruct (digits_bounds a) as [A _], (digits_bounds b) as [B _], (digits_bounds (a * b)) as [_ C].
  rewrite Pos2Z.inj_mul in C.
  assert (2 ^ (Z.pos (digits2_pos a) - 1 + (Z.pos (digits2_pos b) - 1)) < 2 ^ Z.pos (digits2_pos (a * b))).
  { rewrite Z.pow_add_r by lia.
    assert (0 < 2 ^ (Z.pos (digits2_pos a) - 1)) by (apply Z.pow_pos_nonneg; lia).
    assert (0 < 2 ^ (Z.pos (digits2_pos b) - 1)) by (apply Z.pow_pos_nonneg; lia). nia. }
  apply Z.pow_lt_mono_r_iff in H; lia.
Qed.

Lemma expo_plus : forall a b, (expo (a + b) == expo a * expo b)%Q.
Proof.
  assert (K : forall a b, 0 <= b -> (expo (a + b) == expo a * expo b)%Q).
  { intros a b Hb. rewrite expo_add by exact Hb. unfold expo at 3. destruct (Z.leb_spec 0 b); [ring|lia]. }
  intros a b. destruct (Z_le_gt_dec 0 b) as [L|L]; [apply K, L|].
  pose proof (K (a + b) (- b) ltac:(lia)) as E. replace (a + b + - b) with a in E by lia.
  pose proof (K b (- b) ltac:(lia)) as E0. replace (b + - b) with 0 in E0 by lia. change (expo 0) with 1%Q in E0.
  rewrite E. rewrite <- Qmult_assoc, (Qmult_comm (expo (- b))), <- E0. ring.
Qed.

Lemma mul_finite : forall sx mx ex sy my ey, double (S754_finite sx mx ex) -> double (S754_finite sy my ey) ->
  rounded (sg (xorb sx sy) (inject_Z (Z.pos mx) * expo ex * (inject_Z (Z.pos my) * expo ey)))
    (SFmul 53 1024 (S754_finite sx mx ex) (S754_finite sy my ey)).
Proof.
  intros sx mx ex sy my ey Hx Hy. cbn [SFmul].
  eapply rounded_eq; [|apply round_aux_rounded with (y0 := inject_Z (Z.pos (mx * my)))].
  - assert (E : (inject_Z (Z.pos (mx * my)) * expo (ex + ey) == inject_Z (Z.pos mx) * expo ex * (inject_Z (Z.pos my) * expo ey))%Q).
    { rewrite expo_plus, Pos2Z.inj_mul, inject_Z_mult. ring. }
    destruct (xorb sx sy); cbn [sg]; rewrite E; reflexivity.
  - cbn [Zdigits2]. pose proof (digits_mul mx my) as D. apply good_finite in Hx as [Hx _], Hy as [Hy _]. rewrite fx_eq in *. lia.
  - lia.
  - reflexivity.
Qed.

(** the quotient and where the exact one lies *)
Lemma new_location_inb : forall b q r y, 0 < b -> 0 <= r < b -> (inject_Z b * y == inject_Z (b * q + r))%Q ->
  inb q y (new_location b r).
Proof.
  intros b q r y Hb Hr E.
  assert (B : (0 < inject_Z b)%Q) by (change 0%Q with (inject_Z 0); rewrite <- Zlt_Qlt; exact Hb).
  rewrite inject_Z_plus, inject_Z_mult in E.
  assert (Lt' : forall u v, (inject_Z b * u < inject_Z b * v)%Q -> (u < v)%Q).
  { intros u v H. apply Qmult_lt_l with (inject_Z b); assumption. }
  assert (R2 : forall n, 2 * r < n -> (2 * inject_Z r < inject_Z n)%Q).
  { intros n H. change 2%Q with (inject_Z 2). rewrite <- inject_Z_mult, <- Zlt_Qlt. exact H. }
  assert (R3 : forall n, n < 2 * r -> (inject_Z n < 2 * inject_Z r)%Q).
  { intros n H. change 2%Q with (inject_Z 2). rewrite <- inject_Z_mult, <- Zlt_Qlt. exact H. }
  assert (Rb : (inject_Z r < inject_Z b)%Q) by (rewrite <- Zlt_Qlt; lia).
  assert (R0 : (0 <= inject_Z r)%Q) by (change 0%Q with (inject_Z 0); rewrite <- Zle_Qle; lia).
  assert (C0 : r = 0 -> (y == inject_Z q)%Q).
  { intros ->. change (inject_Z 0) with 0%Q in E. apply Qmult_inj_l with (inject_Z b); lra. }
  assert (Cp : r <> 0 -> (inject_Z q < y)%Q).
  { intro N. apply Lt'. assert (0 < inject_Z r)%Q by (change 0%Q with (inject_Z 0); rewrite <- Zlt_Qlt; lia). lra. }
  assert (Clt : 2 * r < b -> (y < inject_Z q + (1 # 2))%Q).
  { intro H. apply Lt'. specialize (R2 b H). lra. }
  assert (Cgt : b < 2 * r -> (inject_Z q + (1 # 2) < y)%Q).
  { intro H. apply Lt'. specialize (R3 b H). lra. }
  assert (C1 : (y < inject_Z q + 1)%Q) by (apply Lt'; lra).
  assert (Ceq : 2 * r = b -> (y == inject_Z q + (1 # 2))%Q).
  { intro H. apply Qmult_inj_l with (inject_Z b); [lra|]. assert (2 * inject_Z r == inject_Z b)%Q by (rewrite <- H, inject_Z_mult; reflexivity). lra. }
  unfold new_location. destruct (Z.even b) eqn:Ev.
  - unfold new_location_even. destruct (Zeq_bool r 0) eqn:Er; [apply Zeq_bool_eq in Er; apply C0, Er|apply Zeq_bool_neq in Er].
    destruct (Z.compare_spec (2 * r) b); cbn [inb]; auto.
  - unfold new_location_odd. destruct (Zeq_bool r 0) eqn:Er; [apply Zeq_bool_eq in Er; apply C0, Er|apply Zeq_bool_neq in Er].
    destruct (Z.compare_spec (2 * r + 1) b); cbn [inb].
    + split; [auto|apply Clt; lia].
    + split; [auto|apply Clt; lia].
    + split; [|exact C1]. apply Cgt. assert (2 * r <> b) by (intros <-; rewrite Z.even_mul in Ev; discriminate Ev). lia.
Qed.

Lemma div_finite : forall sx mx ex sy my ey, double (S754_finite sx mx ex) -> double (S754_finite sy my ey) ->
  rounded (sg (xorb sx sy) (inject_Z (Z.pos mx) * expo ex / (inject_Z (Z.pos my) * expo ey)))
    (SFdiv 53 1024 (S754_finite sx mx ex) (S754_finite sy my ey)).
Proof.
  intros sx mx ex sy my ey Hx Hy. cbn [SFdiv]. unfold SFdiv_core_binary. cbn [Zdigits2].
  pose proof (good_bounds _ _ _ Hx) as (Dx & _ & _).
  set (d1 := Z.pos (digits2_pos mx)) in *. set (d2 := Z.pos (digits2_pos my)) in *.
  set (e' := Z.min (fx (d1 + ex - (d2 + ey))) (ex - ey)). set (t := ex - ey - e').
  assert (Ht : 0 <= t) by (unfold t, e'; lia).
  set (m' := match t with Z.pos _ => Z.shiftl (Z.pos mx) t | 0 => Z.pos mx | Z.neg _ => 0 end).
  assert (Em : m' = Z.pos mx * 2 ^ t).
  { unfold m'. destruct t as [|d|d]; [cbn; lia| |lia]. apply Z.shiftl_mul_pow2. lia. }
  pose proof (Z_div_mod m' (Z.pos my) ltac:(lia)) as DM. destruct (Z.div_eucl m' (Z.pos my)) as [q r]. destruct DM as [DM Hr].
  assert (Hm' : 0 < m') by (rewrite Em; assert (0 < 2 ^ t) by (apply Z.pow_pos_nonneg; lia); lia).
  assert (Hq : 0 <= q) by nia.
  pose proof (expo_pos ey) as Pe.
  assert (Pm : (0 < inject_Z (Z.pos my))%Q) by reflexivity.
  assert (Y : (inject_Z m' / inject_Z (Z.pos my) * expo e' == inject_Z (Z.pos mx) * expo ex / (inject_Z (Z.pos my) * expo ey))%Q).
  { assert (Ex : (expo ex == expo ey * (expo e' * inject_Z (2 ^ t)))%Q).
    { pose proof (expo_add e' t Ht) as E1. pose proof (expo_plus ey (e' + t)) as E2. rewrite E1 in E2.
      replace (ey + (e' + t)) with ex in E2 by (unfold t; lia). rewrite E2. ring. }
    rewrite Em, inject_Z_mult, Ex. field. split; lra. }
  eapply rounded_eq; [|apply round_aux_rounded with (y0 := (inject_Z m' / inject_Z (Z.pos my))%Q)].
  - destruct (xorb sx sy); cbn [sg]; rewrite Y; reflexivity.
  - destruct (digits_bounds mx) as [A _], (digits_bounds my) as [_ B]. fold d1 in A. fold d2 in B.
    assert (QD : d1 + t - d2 <= 0 \/ d1 + t - d2 <= Zdigits2 q).
    { destruct (Z_le_gt_dec (d1 + t - d2) 0) as [L|L]; [left; exact L|right].
      assert (K : 2 ^ (d1 - 1 + t) <= m') by (rewrite Em, Z.pow_add_r by (unfold d1; lia); apply Z.mul_le_mono_nonneg_r; [apply Z.pow_nonneg; lia|exact A]).
      assert (K2 : m' < (q + 1) * 2 ^ d2) by nia.
      assert (K3 : 2 ^ (d1 - 1 + t - d2) < q + 1 \/ d1 + t - d2 <= 0).
      { destruct (Z_le_gt_dec (d1 + t - d2) 0); [right; assumption|left].
        replace (d1 - 1 + t) with (d1 - 1 + t - d2 + d2) in K by lia. rewrite Z.pow_add_r in K by (unfold d2; lia).
        assert (0 < 2 ^ d2) by (apply Z.pow_pos_nonneg; unfold d2; lia). nia. }
      destruct K3 as [K3|K3]; [|lia].
      destruct q as [|p|p]; [|cbn [Zdigits2]|lia].
      - assert (0 < 2 ^ (d1 - 1 + t - d2)) by (apply Z.pow_pos_nonneg; lia). lia.
      - destruct (digits_bounds p) as [_ C].
        assert (2 ^ (d1 - 1 + t - d2) < 2 ^ Z.pos (digits2_pos p)) by lia. apply Z.pow_lt_mono_r_iff in H; lia. }
    assert (Dq : 0 <= Zdigits2 q) by (destruct q; cbn; lia).
    rewrite fx_eq. unfold t, e' in QD |- *. rewrite fx_eq in *. lia.
  - exact Hq.
  - apply new_location_inb; [lia|exact Hr|]. rewrite <- DM. field. lra.
Qed.

(** ** Sums *)
Definition opposite (f : f64) : f64 := SFopp f.
Lemma opp_double : forall f, double f -> double (opposite f).
Proof. intros [s|s| |s m e] H; exact H. Qed.
Lemma opp_real : forall f q, real_of f = Some q -> exists q', real_of (opposite f) = Some q' /\ (q' == - q)%Q.
Proof.
  intros [s|s| |s m e] q H; try discriminate H.
  - injection H as <-. exists 0%Q. split; reflexivity.
  - destruct (real_finite s m e) as (a & Ea & Va), (real_finite (negb s) m e) as (b & Eb & Vb).
    cbn [opposite SFopp]. rewrite Ea in H. injection H as <-. exists b. split; [exact Eb|]. rewrite Va, Vb.
    destruct s; cbn [signed negb].
    + change (Z.pos m) with (- Z.neg m). rewrite inject_Z_opp. ring.
    + change (Z.neg m) with (- Z.pos m). rewrite inject_Z_opp. ring.
Qed.
Lemma sub_opp : forall x y, SFsub 53 1024 x y = SFadd 53 1024 x (opposite y).
Proof.
  intros [sx|sx| |sx mx ex] [sy|sy| |sy my ey]; cbn [SFsub SFadd opposite SFopp]; try reflexivity;
  destruct sx, sy; reflexivity.
Qed.

Lemma signed_sg : forall s m e, (inject_Z (signed s m) * expo e == sg s (inject_Z (Z.pos m) * expo e))%Q.
Proof.
  intros [] m e; cbn [signed sg]; [|reflexivity]. change (Z.neg m) with (- Z.pos m). rewrite inject_Z_opp. ring.
Qed.

Lemma add_ieee : forall x y, double x -> double y -> real_of x <> None -> real_of y <> None ->
  ieee OpAdd x y (SFadd 53 1024 x y).
Proof.
  intros x y Hx Hy Nx Ny. destruct (real_of x) as [p|] eqn:Ex; [clear Nx|congruence]. destruct (real_of y) as [q|] eqn:Ey; [clear Ny|congruence].
  exists p, q. split; [exact Ex|]. split; [exact Ey|]. split; [intro K; discriminate K|]. cbn [exact_q zero_sign].
  destruct x as [sx|sx| |sx mx ex]; try discriminate Ex; destruct y as [sy|sy| |sy my ey]; try discriminate Ey.
  - injection Ex as <-. injection Ey as <-. split.
    + cbn [SFadd]. destruct (Bool.eqb sx sy); apply zero_rounded; reflexivity.
    + intros s E _. destruct sx, sy; cbn in E; injection E as <-; split; try (intro K; discriminate K); try (intro; split; reflexivity); try (intros [K1 K2]; discriminate).
  - injection Ex as <-. cbn [SFadd]. split; [|intros s E; discriminate E].
    eapply rounded_eq; [|apply self_rounded with (q := q); [exact Hy|exact Ey]]. ring.
  - injection Ey as <-. cbn [SFadd]. split; [|intros s E; discriminate E].
    eapply rounded_eq; [|apply self_rounded with (q := p); [exact Hx|exact Ex]]. ring.
  - destruct (real_finite sx mx ex) as (a & Ea & Va). rewrite Ex in Ea. injection Ea as <-.
    destruct (real_finite sy my ey) as (b & Eb & Vb). rewrite Ey in Eb. injection Eb as <-.
    cbn [SFadd].
    set (ez := Z.min ex ey). set (z := cond_Zopp sx (Z.pos (fst (shl_align mx ex ez))) + cond_Zopp sy (Z.pos (fst (shl_align my ey ez)))).
    assert (V : (inject_Z z * expo ez == p + q)%Q).
    { assert (K : forall s m e, ez <= e -> (inject_Z (cond_Zopp s (Z.pos (fst (shl_align m e ez)))) * expo ez == inject_Z (signed s m) * expo e)%Q).
      { intros s m e He. rewrite signed_sg. destruct s; cbn [cond_Zopp sg]; [rewrite inject_Z_opp|]; rewrite <- (shl_value m e ez He); ring. }
      rewrite Va, Vb. unfold z. rewrite inject_Z_plus, Qmult_plus_distr_l, !K by (unfold ez; lia). reflexivity. }
    split; [eapply rounded_eq; [|apply normalize_rounded]; exact V|].
    intros s E Z0. assert (z = 0).
    { rewrite <- V in Z0. apply Qmult_integral in Z0 as [Z0|Z0]; [|pose proof (expo_pos ez); lra].
      unfold Qeq, inject_Z in Z0. cbn [Qnum Qden] in Z0. lia. }
    rewrite H in E. cbn in E. injection E as <-. split; [intro K; discriminate K|intros [K _]; discriminate K].
Qed.

Lemma ieee_real : forall x y f, ieee OpAdd x (opposite y) f -> ieee OpSub x y f.
Proof.
  intros x y f (p & q & Ep & Eq & _ & R & Z). destruct (opp_real (opposite y) q Eq) as (q' & Eq' & Vq).
  assert (Oy : opposite (opposite y) = y) by (destruct y as [[]|[]| |[]]; reflexivity). rewrite Oy in Eq'.
  exists p, q'. split; [exact Ep|]. split; [exact Eq'|]. split; [intro K; discriminate K|]. cbn [exact_q zero_sign] in *. split.
  - eapply rounded_eq; [|exact R]. rewrite Vq. ring.
  - intros s Es E0. rewrite Z; [|exact Es|rewrite <- E0, Vq; ring].
    split; intros [-> K]; split; try reflexivity; [rewrite <- Oy, K; reflexivity|rewrite K; reflexivity].
Qed.

Lemma sub_ieee : forall x y, double x -> double y -> real_of x <> None -> real_of y <> None ->
  ieee OpSub x y (SFsub 53 1024 x y).
Proof.
  intros x y Hx Hy Nx Ny. rewrite sub_opp. apply ieee_real, add_ieee; [exact Hx|apply opp_double, Hy|exact Nx|].
  destruct (real_of y) as [q|] eqn:E; [|congruence]. destruct (opp_real y q E) as (q' & E' & _). congruence.
Qed.

Lemma mul_ieee : forall x y, double x -> double y -> real_of x <> None -> real_of y <> None ->
  ieee OpMul x y (SFmul 53 1024 x y).
Proof.
  intros x y Hx Hy Nx Ny. destruct (real_of x) as [p|] eqn:Ex; [clear Nx|congruence]. destruct (real_of y) as [q|] eqn:Ey; [clear Ny|congruence].
  exists p, q. split; [exact Ex|]. split; [exact Ey|]. split; [intro K; discriminate K|]. cbn [exact_q zero_sign].
  destruct x as [sx|sx| |sx mx ex]; try discriminate Ex; destruct y as [sy|sy| |sy my ey]; try discriminate Ey.
  - injection Ex as <-. injection Ey as <-. cbn [SFmul]. split; [apply zero_rounded; reflexivity|].
    intros s E _. injection E as <-. exists sx, sy. repeat split; reflexivity.
  - injection Ex as <-. cbn [SFmul]. split; [apply zero_rounded; ring|]. intros s E _. injection E as <-. exists sx, sy. repeat split; reflexivity.
  - injection Ey as <-. cbn [SFmul]. split; [apply zero_rounded; ring|]. intros s E _. injection E as <-. exists sx, sy. repeat split; reflexivity.
  - destruct (real_finite sx mx ex) as (a & Ea & Va). rewrite Ex in Ea. injection Ea as <-.
    destruct (real_finite sy my ey) as (b & Eb & Vb). rewrite Ey in Eb. injection Eb as <-. rewrite signed_sg in Va, Vb.
    set (u := (inject_Z (Z.pos mx) * expo ex)%Q) in *. set (v := (inject_Z (Z.pos my) * expo ey)%Q) in *.
    assert (Pu : (0 < u)%Q) by (apply Qmult_lt_0_compat; [reflexivity|apply expo_pos]).
    assert (Pv : (0 < v)%Q) by (apply Qmult_lt_0_compat; [reflexivity|apply expo_pos]).
    assert (V : (p * q == sg (xorb sx sy) (u * v))%Q) by (rewrite Va, Vb; destruct sx, sy; cbn [xorb sg]; ring).
    split.
    + eapply rounded_eq; [|apply mul_finite; [exact Hx|exact Hy]]. rewrite V. reflexivity.
    + intros s _ E0. exfalso. pose proof (Qmult_lt_0_compat _ _ Pu Pv). rewrite V in E0. destruct (xorb sx sy); cbn [sg] in E0; lra.
Qed.

Lemma div_ieee : forall x y, double x -> double y -> real_of x <> None -> real_of y <> None -> (forall s, y <> S754_zero s) ->
  ieee OpDiv x y (SFdiv 53 1024 x y).
Proof.
  intros x y Hx Hy Nx Ny Y0. destruct (real_of x) as [p|] eqn:Ex; [clear Nx|congruence]. destruct (real_of y) as [q|] eqn:Ey; [clear Ny|congruence].
  exists p, q. split; [exact Ex|]. split; [exact Ey|]. cbn [exact_q zero_sign].
  destruct y as [sy|sy| |sy my ey]; try discriminate Ey; [destruct (Y0 sy eq_refl)|].
  destruct (real_finite sy my ey) as (b & Eb & Vb). rewrite Ey in Eb. injection Eb as <-. rewrite signed_sg in Vb.
  set (v := (inject_Z (Z.pos my) * expo ey)%Q) in *.
  assert (Pv : (0 < v)%Q) by (apply Qmult_lt_0_compat; [reflexivity|apply expo_pos]).
  split; [intros _ E0; rewrite Vb in E0; destruct sy; cbn [sg] in E0; lra|].
  destruct x as [sx|sx| |sx mx ex]; try discriminate Ex.
  - injection Ex as <-. cbn [SFdiv]. split.
    + apply zero_rounded. unfold Qdiv. ring.
    + intros s E _. injection E as <-. exists sx, sy. repeat split; reflexivity.
  - destruct (real_finite sx mx ex) as (a & Ea & Va). rewrite Ex in Ea. injection Ea as <-. rewrite signed_sg in Va.
    set (u := (inject_Z (Z.pos mx) * expo ex)%Q) in *.
    assert (Pu : (0 < u)%Q) by (apply Qmult_lt_0_compat; [reflexivity|apply expo_pos]).
    assert (V : (p / q == sg (xorb sx sy) (u / v))%Q) by (rewrite Va, Vb; destruct sx, sy; cbn [xorb sg]; field; lra).
    split.
    + eapply rounded_eq; [|apply div_finite; [exact Hx|exact Hy]]. rewrite V. reflexivity.
    + intros s _ E0. exfalso. assert (0 < u / v)%Q by (apply Qlt_shift_div_l; [exact Pv|lra]). rewrite V in E0. destruct (xorb sx sy); cbn [sg] in E0; lra.
Qed.

(** ** Infinities *)
Lemma add_inf : forall x y, real_of x = None \/ real_of y = None -> ieee_inf OpAdd x y (SFadd 53 1024 x y).
Proof.
  intros [sx|sx| |sx mx ex] [sy|sy| |sy my ey] H; cbn [real_of] in H; try (destruct H; discriminate); cbn [SFadd];
  try (apply InNan; auto; fail); try (apply InAddRight; cbn; discriminate); try (apply InAddLeft; discriminate).
  destruct sx, sy; cbn [Bool.eqb]; try (apply InAddLeft; discriminate).
  - exact (InAddNan true).
  - exact (InAddNan false).
Qed.

Lemma sub_inf : forall x y, real_of x = None \/ real_of y = None -> ieee_inf OpSub x y (SFsub 53 1024 x y).
Proof.
  intros [sx|sx| |sx mx ex] [sy|sy| |sy my ey] H; cbn [real_of] in H; try (destruct H; discriminate); cbn [SFsub];
  try (apply InNan; auto; fail); try (apply InSubRight; cbn; discriminate); try (apply InSubLeft; discriminate).
  destruct sx, sy; cbn [Bool.eqb]; try (apply InSubLeft; discriminate).
  - exact (InSubNan true).
  - exact (InSubNan false).
Qed.

Lemma mul_inf : forall x y, real_of x = None \/ real_of y = None -> ieee_inf OpMul x y (SFmul 53 1024 x y).
Proof.
  intros [sx|sx| |sx mx ex] [sy|sy| |sy my ey] H; cbn [real_of] in H; try (destruct H; discriminate); cbn [SFmul];
  try (apply InNan; auto; fail).
  - apply InMulNan with sy sx. right. split; reflexivity.
  - apply InMulNan with sx sy. left. split; reflexivity.
  - apply InMul; try reflexivity; [left; reflexivity|intro s; split; discriminate].
  - apply InMul; try reflexivity; [left; reflexivity|intro s; split; discriminate].
  - apply InMul; try reflexivity; [right; reflexivity|intro s; split; discriminate].
Qed.

Lemma div_inf : forall x y, real_of x = None \/ real_of y = None -> ieee_inf OpDiv x y (SFdiv 53 1024 x y).
Proof.
  intros [sx|sx| |sx mx ex] [sy|sy| |sy my ey] H; cbn [real_of] in H; try (destruct H; discriminate); cbn [SFdiv];
  try (apply InNan; auto; fail); try (apply InDivRight; [cbn; discriminate|reflexivity]); try (apply InDivLeft; [cbn; discriminate|reflexivity]).
  apply InDivNan.
Qed.

Lemma finite_nonzero : forall s m e q, real_of (S754_finite s m e) = Some q -> ~ (q == 0)%Q.
Proof.
  intros s m e q E. destruct (real_finite s m e) as (a & Ea & Va). rewrite E in Ea. injection Ea as <-. rewrite signed_sg in Va.
  assert (0 < inject_Z (Z.pos m) * expo e)%Q by (apply Qmult_lt_0_compat; [reflexivity|apply expo_pos]).
  rewrite Va. destruct s; cbn [sg]; lra.
Qed.

Lemma div_zero : forall x s, ieee_inf OpDiv x (S754_zero s) (SFdiv 53 1024 x (S754_zero s)).
Proof.
  intros [sx|sx| |sx mx ex] s; cbn [SFdiv].
  - apply InDivZeros.
  - apply InDivLeft; [discriminate|reflexivity].
  - apply InNan. left. reflexivity.
  - destruct (real_finite sx mx ex) as (a & Ea & _). apply InDivZero with a; [exact Ea|apply (finite_nonzero _ _ _ _ Ea)|reflexivity].
Qed.

(** ** The results are determined *)
Lemma real_same : forall f g r r', double f -> double g -> real_of f = Some r -> real_of g = Some r' -> (r == r')%Q ->
  f = g \/ ((r == 0)%Q /\ exists s s', f = S754_zero s /\ g = S754_zero s').
Proof.
  intros f g r r' Df Dg Ef Eg E. pose proof (compare_real f g r r' Df Dg Ef Eg) as C.
  assert (C' : SFcompare f g = Some Eq) by (rewrite C; f_equal; apply Qeq_alt, E). clear C.
  destruct f as [s|s| |s m e]; try discriminate Ef; destruct g as [s'|s'| |s' m' e']; try discriminate Eg.
  - right. injection Ef as <-. split; [reflexivity|]. exists s, s'. split; reflexivity.
  - destruct s'; discriminate C'.
  - destruct s; discriminate C'.
  - left. cbn [SFcompare] in C'. destruct s, s'; try discriminate C'; destruct (Z.compare_spec e e'); try discriminate C'; subst e';
    injection C' as C'; [apply (f_equal CompOpp) in C'; rewrite CompOpp_involutive in C'|]; apply Pos.compare_eq in C'; rewrite C'; reflexivity.
Qed.

Lemma closest_same : forall q f g, double f -> double g -> closest q f -> closest q g ->
  exists r r', real_of f = Some r /\ real_of g = Some r' /\ (r == r')%Q.
Proof.
  intros q f g Df Dg (r & Er & Hr) (r' & Er' & Hr'). exists r, r'. split; [exact Er|]. split; [exact Er'|].
  destruct (Hr g r' Dg Er') as [K|[K|(K & _ & K1)]]; [exact K| |].
  - destruct (Hr' f r Df Er) as [K'|[K'|(K' & _)]]; [symmetry; exact K'| |]; exfalso; lra.
  - destruct (Hr' f r Df Er) as [K'|[K'|(K' & K2 & _)]]; [symmetry; exact K'| |]; exfalso; [lra|contradiction].
Qed.

Lemma rounded_same : forall q f g, rounded q f -> rounded q g ->
  f = g \/ ((q == 0)%Q /\ exists s s', f = S754_zero s /\ g = S754_zero s').
Proof.
  intros q f g Hf Hg. inversion Hf as [? A1 A2 A3 A4 A5|s A1 A2]; inversion Hg as [? B1 B2 B3 B4 B5|s' B1 B2]; subst.
  - destruct (closest_same q f g A2 B2 A3 B3) as (r & r' & E1 & E2 & E3).
    destruct (real_same f g r r' A2 B2 E1 E2 E3) as [K|(_ & s & s' & K1 & K2)]; [left; exact K|].
    destruct (Qeq_dec q 0) as [Z|Z]; [right; split; [exact Z|exists s, s'; split; assumption]|left].
    destruct (Qlt_le_dec q 0) as [L|L]; [specialize (A4 L); specialize (B4 L)|assert (L' : (0 < q)%Q) by (apply Qle_lteq in L as [L|L]; [exact L|symmetry in L; contradiction]); specialize (A5 L'); specialize (B5 L')];
    subst f g; cbn [sign_of] in *; congruence.
  - exfalso. lra.
  - exfalso. lra.
  - left. destruct s, s'; try reflexivity; exfalso; lra.
Qed.

Lemma zero_sign_same : forall o x y s s', zero_sign o x y s -> zero_sign o x y s' -> s = s'.
Proof.
  intros o x y s s' H H'.
  assert (K : forall P, (s = true <-> P) -> (s' = true <-> P) -> s = s').
  { intros P A B. destruct s, s'; try reflexivity; [symmetry; apply B, A; reflexivity|apply A, B; reflexivity]. }
  assert (K2 : (exists a b, sign_of x = Some a /\ sign_of y = Some b /\ s = xorb a b) -> (exists a b, sign_of x = Some a /\ sign_of y = Some b /\ s' = xorb a b) -> s = s').
  { intros (a & b & A1 & A2 & A3) (a' & b' & B1 & B2 & B3). congruence. }
  destruct o; cbn [zero_sign] in H, H'; try (apply K2; assumption); eapply K; eassumption.
Qed.

Lemma ieee_same : forall o x y f g, ieee o x y f -> ieee o x y g -> f = g.
Proof.
  intros o x y f g (p & q & E1 & E2 & _ & R & Z) (p' & q' & E1' & E2' & _ & R' & Z').
  rewrite E1 in E1'. injection E1' as <-. rewrite E2 in E2'. injection E2' as <-.
  destruct (rounded_same _ _ _ R R') as [K|(K & s & s' & -> & ->)]; [exact K|].
  f_equal. eapply zero_sign_same; [apply Z; [reflexivity|exact K]|apply Z'; [reflexivity|exact K]].
Qed.

Lemma ieee_inf_only : forall o x y f g, ieee o x y f -> ieee_inf o x y g -> False.
Proof.
  intros o x y f g (p & q & E1 & E2 & Nz & _) H. inversion H; subst; try discriminate; try (now destruct H0; subst); 
  try (cbn in E1, E2; congruence).
  - destruct H2; subst; discriminate.
  - destruct H0 as [[-> ->]|[-> ->]]; discriminate.
  - injection E2 as <-. apply Nz; reflexivity.
  - injection E2 as <-. apply Nz; reflexivity.
Qed.

Definition machine_op (o : op) (x y : f64) : f64 := match o with OpDiv => SFdiv 53 1024 x y | _ => ieee_op o x y end.

Lemma inf_machine : forall o x y f, sum_op o \/ o = OpDiv -> ieee_inf o x y f -> f = machine_op o x y.
Proof.
  intros o x y f Ho H. inversion H; subst; unfold machine_op, ieee_op.
  - destruct Ho as [[->|[->| ->]]| ->]; destruct H0; subst; try reflexivity; destruct x as [[]|[]| |[]]; reflexivity.
  - destruct y as [[]|[]| |[]]; destruct s; try reflexivity; try congruence; cbn in *; congruence.
  - destruct x as [[]|[]| |[]]; destruct s; cbn in *; try reflexivity; congruence.
  - destruct s; reflexivity.
  - destruct y as [[]|[]| |[]]; destruct s; try reflexivity; try congruence; cbn in *; congruence.
  - destruct x as [[]|[]| |[]]; destruct s; cbn in *; try reflexivity; congruence.
  - destruct s; reflexivity.
  - destruct (H3 false) as [Xf Yf], (H3 true) as [Xt Yt].
    destruct x as [[]|sx| |sx]; try congruence; destruct y as [[]|sy| |sy]; try congruence; cbn in *; try congruence; try discriminate; destruct H2; congruence.
  - destruct H0 as [[-> ->]|[-> ->]]; reflexivity.
  - destruct y as [sy|sy| |sy]; cbn in *; congruence.
  - destruct x as [sy|sy| |sy]; cbn in *; congruence.
  - reflexivity.
  - destruct x as [sy|sy| |sy]; cbn in *; congruence.
  - reflexivity.
Qed.

Lemma machine_double_op : forall o x y, sum_op o \/ o = OpDiv -> double x -> double y -> double_op o x y (machine_op o x y).
Proof.
  intros o x y Ho Dx Dy. unfold double_op.
  assert (C : (real_of x = None \/ real_of y = None) \/ (real_of x <> None /\ real_of y <> None)).
  { destruct (real_of x), (real_of y); auto; right; split; discriminate. }
  destruct C as [C|[Cx Cy]].
  - right. destruct Ho as [[->|[->| ->]]| ->]; cbn [machine_op ieee_op]; [apply add_inf|apply sub_inf|apply mul_inf|apply div_inf]; exact C.
  - destruct Ho as [[->|[->| ->]]| ->]; cbn [machine_op ieee_op].
    + left. apply add_ieee; assumption.
    + left. apply sub_ieee; assumption.
    + left. apply mul_ieee; assumption.
    + destruct y as [s|s| |s m e]; try (cbn in Cy; congruence); [right; apply div_zero|left]. apply div_ieee; try assumption. intro s0. discriminate.
Qed.

Theorem double_op_is : forall o x y f, sum_op o \/ o = OpDiv -> double x -> double y -> (double_op o x y f <-> f = machine_op o x y).
Proof.
  intros o x y f Ho Dx Dy. split; [|intros ->; apply machine_double_op; assumption].
  intros [H|H]; [|apply inf_machine; assumption].
  destruct (machine_double_op o x y Ho Dx Dy) as [K|K]; [exact (ieee_same _ _ _ _ _ H K)|destruct (ieee_inf_only _ _ _ _ _ H K)].
Qed.

Lemma nearest_rounded : forall z, rounded (inject_Z z) (nearest z).
Proof. intro z. eapply rounded_eq; [|apply normalize_rounded]. change (expo 0) with 1%Q. ring. Qed.

Theorem as_double_is : forall v x, as_double v x <-> float_of v x.
Proof.
  intros v x. split.
  - intros [->|(z & Hz & R & Z)]; [constructor|]. replace x with (nearest z); [constructor; exact Hz|].
    destruct (rounded_same _ _ _ (nearest_rounded z) R) as [K|(K & _)]; [exact K|].
    assert (z = 0) by (unfold Qeq, inject_Z in K; cbn in K; lia). subst z. rewrite Z by reflexivity. reflexivity.
  - intros [f|v' z Hz]; [left; reflexivity|right]. exists z. split; [exact Hz|]. split; [apply nearest_rounded|]. intros ->. reflexivity.
Qed.
