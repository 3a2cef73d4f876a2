(** Laws of arithmetic. *)
From Coq Require Import QArith.
From Verif Require Import Syntax Value Machine SpecOp SpecExpr SpecIndex FloatProofs ArithProofs IndexProofs ExprFinal OpProofs RoundProofs.
Import ListNotations.
Local Open Scope Z_scope.

Lemma SFadd_comm : forall x y, SFadd 53 1024 x y = SFadd 53 1024 y x.
Proof.
  intros [sx|sx| |sx mx ex] [sy|sy| |sy my ey]; cbn [SFadd]; try reflexivity.
  - destruct sx, sy; reflexivity.
  - destruct sx, sy; reflexivity.
  - rewrite (Z.min_comm ey ex), (Z.add_comm (cond_Zopp sy _)). reflexivity.
Qed.
Lemma SFmul_comm : forall x y, SFmul 53 1024 x y = SFmul 53 1024 y x.
Proof.
  intros [sx|sx| |sx mx ex] [sy|sy| |sy my ey]; cbn [SFmul]; try reflexivity; rewrite (xorb_comm sy sx); try reflexivity.
  rewrite (Pos.mul_comm my mx), (Z.add_comm ey ex). reflexivity.
Qed.

Lemma sum_commutes : forall W o a b v, o = OpAdd \/ o = OpMul -> (computes W o [a; b] v <-> computes W o [b; a] v).
Proof.
  assert (H : forall o a b v, o = OpAdd \/ o = OpMul -> sums_to o a b v -> sums_to o b a v).
  { intros o a b v Ho S. destruct S as [x y z Hx Hy R|x y Hf Hx Hy|N].
    - apply SmInt with y x; [exact Hy|exact Hx|]. destruct Ho as [->| ->]; cbn [exact_op] in *; [rewrite Z.add_comm|rewrite Z.mul_comm]; exact R.
    - replace (ieee_op o x y) with (ieee_op o y x); [apply SmFloat; tauto|]. destruct Ho as [->| ->]; cbn [ieee_op]; [apply SFadd_comm|apply SFmul_comm].
    - apply SmOther. tauto. }
  intros W o a b v Ho. assert (So : sum_op o) by (unfold sum_op; tauto).
  rewrite <- (proj2 (sums_exact W o a b So)), <- (proj2 (sums_exact W o b a So)). split; apply H; exact Ho.
Qed.

Lemma int_sum : forall W o a b x y v, sum_op o -> int_of a x -> int_of b y ->
  (computes W o [a; b] v <-> exists z, v = VInt64 z /\ reduces (exact_op o x y) z).
Proof.
  intros W o a b x y v So Hx Hy. rewrite <- (proj2 (sums_exact W o a b So)). split.
  - intro S. destruct S as [x' y' z Hx' Hy' R|x' y' Hf Hx' Hy'|N].
    + same. eauto.
    + exfalso. destruct Hf as [F|F]; [exact (int_not_float _ _ Hx F)|exact (int_not_float _ _ Hy F)].
    + exfalso. destruct N as [N|N]; apply N; eexists; constructor; eassumption.
  - intros (z & -> & R). eapply SmInt; eassumption.
Qed.

Lemma reduces_fun : forall e z z', reduces e z -> reduces e z' -> z = z'.
Proof. intros e z z' (B & k & E) (B' & k' & E'). lia. Qed.
Lemma reduces_ex : forall e, exists z, reduces e z.
Proof.
  intro e. exists ((e + 9223372036854775808) mod 18446744073709551616 - 9223372036854775808). split.
  - pose proof (Z.mod_pos_bound (e + 9223372036854775808) 18446744073709551616). lia.
  - exists ((e + 9223372036854775808) / 18446744073709551616). pose proof (Z.div_mod (e + 9223372036854775808) 18446744073709551616). lia.
Qed.
Lemma reduces_add : forall e k z, reduces e z -> reduces (e + k * 18446744073709551616) z.
Proof. intros e k z (B & j & E). split; [exact B|]. exists (j + k). lia. Qed.

(** + and * of integers are associative, and * distributes over + and - *)
Lemma int_associates : forall W o a b c ab bc v, o = OpAdd \/ o = OpMul ->
  (exists x, int_of a x) -> (exists y, int_of b y) -> (exists z, int_of c z) ->
  computes W o [a; b] ab -> computes W o [b; c] bc -> (computes W o [ab; c] v <-> computes W o [a; bc] v).
Proof.
  intros W o a b c ab bc v Ho (x & Hx) (y & Hy) (z & Hz) H K. assert (So : sum_op o) by (unfold sum_op; tauto).
  apply (int_sum W o a b x y _ So Hx Hy) in H as (p & -> & R). apply (int_sum W o b c y z _ So Hy Hz) in K as (q & -> & S).
  rewrite (int_sum W o (VInt64 p) c p z v So (IoInt64 p) Hz), (int_sum W o a (VInt64 q) x q v So Hx (IoInt64 q)).
  destruct R as (Bp & k & Ek), S as (Bq & j & Ej).
  assert (E : exists m, exact_op o p z = exact_op o x q + m * 18446744073709551616).
  { destruct Ho as [->| ->]; cbn [exact_op] in *; [exists (j - k); lia|].
    exists (x * j - k * z). replace p with (x * y - k * 18446744073709551616) by lia. replace q with (y * z - j * 18446744073709551616) by lia. ring. }
  destruct E as [m E]. rewrite E. split; intros (w & -> & R); exists w; (split; [reflexivity|]).
  - replace (exact_op o x q) with (exact_op o x q + m * 18446744073709551616 + (- m) * 18446744073709551616) by ring. apply reduces_add, R.
  - apply reduces_add, R.
Qed.

Lemma int_distributes : forall W o a b c bc ab ac v, o = OpAdd \/ o = OpSub ->
  (exists x, int_of a x) -> (exists y, int_of b y) -> (exists z, int_of c z) ->
  computes W o [b; c] bc -> computes W OpMul [a; b] ab -> computes W OpMul [a; c] ac ->
  (computes W OpMul [a; bc] v <-> computes W o [ab; ac] v).
Proof.
  intros W o a b c bc ab ac v Ho (x & Hx) (y & Hy) (z & Hz) H K L. assert (So : sum_op o) by (unfold sum_op; tauto).
  assert (Sm : sum_op OpMul) by (unfold sum_op; tauto).
  apply (int_sum W o b c y z _ So Hy Hz) in H as (p & -> & (_ & k & Ek)).
  apply (int_sum W OpMul a b x y _ Sm Hx Hy) in K as (q & -> & (_ & j & Ej)). apply (int_sum W OpMul a c x z _ Sm Hx Hz) in L as (r & -> & (_ & i & Ei)).
  rewrite (int_sum W OpMul a (VInt64 p) x p v Sm Hx (IoInt64 p)), (int_sum W o (VInt64 q) (VInt64 r) q r v So (IoInt64 q) (IoInt64 r)).
  cbn [exact_op] in *.
  assert (E : exists m, x * p = exact_op o q r + m * 18446744073709551616).
  { destruct Ho as [->| ->]; cbn [exact_op] in *.
    - exists (j + i - x * k). replace p with (y + z - k * 18446744073709551616) by lia. replace q with (x * y - j * 18446744073709551616) by lia.
      replace r with (x * z - i * 18446744073709551616) by lia. ring.
    - exists (j - i - x * k). replace p with (y - z - k * 18446744073709551616) by lia. replace q with (x * y - j * 18446744073709551616) by lia.
      replace r with (x * z - i * 18446744073709551616) by lia. ring. }
  destruct E as [m E]. rewrite E. split; intros (w & -> & R); exists w; (split; [reflexivity|]).
  - replace (exact_op o q r) with (exact_op o q r + m * 18446744073709551616 + (- m) * 18446744073709551616) by ring. apply reduces_add, R.
  - apply reduces_add, R.
Qed.

Lemma minus_is_plus : forall W a b nb v, proper b -> ((exists x, int_of a x) /\ (exists y, int_of b y)) \/ (numeric a /\ is_float b) ->
  computes W OpNeg [b] nb -> (computes W OpSub [a; b] v <-> computes W OpAdd [a; nb] v).
Proof.
  intros W a b nb v Pb H N.
  assert (Fb : ~ failure b) by (intros (e & ->); destruct H as [(_ & (y & Hy))|(_ & (f & E))]; [inversion Hy|discriminate E]).
  apply (proj2 (neg_exact W b Fb Pb)) in N. assert (Ss : sum_op OpSub) by (unfold sum_op; tauto). assert (Sa : sum_op OpAdd) by (unfold sum_op; tauto).
  destruct H as [((x & Hx) & (y & Hy))|((x & Hx) & (f & ->))].
  - destruct N as [f ->|n z Nf Hn (_ & k & Ek)]; [inversion Hy|].
    assert (n = y) as -> by (eapply integral_fun; [exact Hn|constructor; exact Hy]).
    rewrite (int_sum W OpSub a b x y v Ss Hx Hy), (int_sum W OpAdd a (VInt64 z) x z v Sa Hx (IoInt64 z)). cbn [exact_op].
    split; intros (w & -> & R); exists w; (split; [reflexivity|]).
    + replace (x + z) with (x - y + (- k) * 18446744073709551616) by lia. apply reduces_add, R.
    + replace (x - y) with (x + z + k * 18446744073709551616) by lia. apply reduces_add, R.
  - destruct N as [f' E|n z Nf Hn R]; [injection E as <-|destruct Nf; eexists; reflexivity].
    rewrite <- (proj2 (sums_exact W OpSub a (VFloat f) Ss)), <- (proj2 (sums_exact W OpAdd a (VFloat (SFopp f)) Sa)).
    assert (A : forall o g u, sums_to o a (VFloat g) u -> u = VFloat (ieee_op o x g)).
    { intros o g u S. destruct S as [i j z _ Hj _|i j _ Hi Hj|[Nn|Nn]]; [inversion Hj|..].
      - same. inversion Hj; subst; [reflexivity|]. match goal with Q : int_of _ _ |- _ => inversion Q end.
      - destruct Nn. eexists; exact Hx.
      - destruct Nn. eexists; constructor. }
    assert (B : forall o g, sums_to o a (VFloat g) (VFloat (ieee_op o x g))) by (intros o g; apply SmFloat; [right; eexists; reflexivity|exact Hx|constructor]).
    assert (E : ieee_op OpSub x f = ieee_op OpAdd x (SFopp f)) by apply sub_opp.
    split; intro S; apply A in S; subst v; [rewrite E|rewrite <- E]; apply B.
Qed.

Lemma int_divides : forall W a b x y q r m, proper a -> proper b -> int_of a x -> int_of b y -> y <> 0 ->
  computes W OpDiv [a; b] q -> computes W OpMod [a; b] r -> computes W OpMul [q; b] m -> computes W OpAdd [m; r] (VInt64 x).
Proof.
  intros W a b x y q r m Pa Pb Hx Hy Ny Hq Hr Hm.
  assert (D : forall o v, div_op o -> computes W o [a; b] v -> exists s t z, divides x y s t /\ reduces (match o with OpDiv => s | _ => t end) z /\ v = VInt64 z).
  { intros o v Ho H. apply (proj2 (divided_exact W o a b Ho Pa Pb)) in H.
    assert (NF : ~ (is_float a \/ is_float b)) by (intros [F|F]; [exact (int_not_float _ _ Hx F)|exact (int_not_float _ _ Hy F)]).
    destruct H as [x' y' s t z Hx' Hy' _ Dv R|x' Hx' Hy'| | | | | |N]; try (destruct NF; assumption).
    - same. exists s, t, z. auto.
    - same. congruence.
    - exfalso. destruct N as [N|N]; apply N; eexists; constructor; eassumption. }
  destruct (D OpDiv q (or_introl eq_refl) Hq) as (s & t & z & (D1 & D2 & D3) & (_ & k & Ek) & ->).
  destruct (D OpMod r (or_intror eq_refl) Hr) as (s' & t' & z' & (D1' & D2' & D3') & (_ & j & Ej) & ->).
  assert (s = s' /\ t = t') as [<- <-].
  { assert (s = s'); [|subst; lia].
    assert (A : y * (s - s') = t' - t) by lia.
    destruct (Z.eq_dec s s') as [|N]; [assumption|exfalso].
    assert (Z.abs (t' - t) < Z.abs y) by (clear - D2 D2' D3 D3' D1 D1'; lia).
    assert (Z.abs y <= Z.abs (t' - t)); [|lia]. rewrite <- A, Z.abs_mul. assert (1 <= Z.abs (s - s')) by lia. nia. }
  assert (Sm : sum_op OpMul) by (unfold sum_op; tauto). assert (Sa : sum_op OpAdd) by (unfold sum_op; tauto).
  apply (int_sum W OpMul (VInt64 z) b z y m Sm (IoInt64 z) Hy) in Hm as (w & -> & (_ & i & Ei)).
  apply (int_sum W OpAdd (VInt64 w) (VInt64 z') w z' _ Sa (IoInt64 w) (IoInt64 z')). exists x. split; [reflexivity|].
  cbn [exact_op] in *. split.
  - clear - Pa Hx. destruct Hx; cbn in Pa; lia.
  - exists (- i - j - k * y). replace w with (z * y - i * 18446744073709551616) by lia.
    replace z with (s - k * 18446744073709551616) by lia. replace z' with (t - j * 18446744073709551616) by lia. rewrite D1. ring.
Qed.

Definition z_tenth : f64 := S754_finite false 7205759403792794 (-56).
Definition z_fifth : f64 := S754_finite false 7205759403792794 (-55).
Definition z_three : f64 := S754_finite false 5404319552844595 (-54).

Lemma floats_do_not_associate : exists a b c ab bc, proper a /\ proper b /\ proper c /\ forall W,
  computes W OpAdd [a; b] ab /\ computes W OpAdd [b; c] bc /\
  forall v w, computes W OpAdd [ab; c] v -> computes W OpAdd [a; bc] w -> computes W OpEQ [v; w] (VBool false).
Proof.
  exists (VFloat z_tenth), (VFloat z_fifth), (VFloat z_three), (VFloat (SFadd 53 1024 z_tenth z_fifth)), (VFloat (SFadd 53 1024 z_fifth z_three)).
  split; [reflexivity|]. split; [reflexivity|]. split; [reflexivity|]. intro W.
  assert (C : forall x y, computes W OpAdd [VFloat x; VFloat y] (VFloat (SFadd 53 1024 x y))).
  { intros x y. apply computes2; [auto|]. reflexivity. }
  split; [apply C|]. split; [apply C|]. intros v w Hv Hw.
  assert (U : forall a b v v', computes W OpAdd [a; b] v -> computes W OpAdd [a; b] v' -> v = v').
  { intros a b u u' H H'. eapply (IndexProofs.computes_unique W OpAdd [a; b]); [exact H|exact H'|split; reflexivity|cbn; lia]. }
  rewrite (U _ _ _ _ Hv (C _ _)), (U _ _ _ _ Hw (C _ _)). apply computes2; [auto|]. reflexivity.
Qed.
