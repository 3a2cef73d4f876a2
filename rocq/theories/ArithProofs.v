(** Arithmetic, logic and comparison operators. *)
From Coq Require Import QArith Qabs.
From Verif Require Import F64 Syntax Value Fns Machine SpecSyntax SpecOp OpProofs SpecExpr FloatProofs.
Local Open Scope Z_scope.

(** ** values as numbers *)
Lemma int_of_cvi : forall W v z, int_of v z -> cvi W v = z /\ isArith v = true /\ isFloat v = false.
Proof. intros W v z H. destruct H; auto. Qed.

Lemma float_of_cvf : forall W v f, float_of v f -> cvf W v = f /\ isArith v = true.
Proof.
  intros W v f H. destruct H as [f|v z H]; [auto|]. destruct H; auto.
Qed.

Lemma arith_cases : forall v, (exists z, int_of v z) \/ is_float v \/ ~ numeric v.
Proof.
  intros v. destruct v as [|[]| z | z | f | | | | | | | |];
    try solve [right; right; intros (x & H); inversion H; subst; match goal with K : int_of _ _ |- _ => inversion K end].
  - left. exists 1. constructor.
  - left. exists 0. constructor.
  - left. exists z. constructor.
  - left. exists z. constructor.
  - right. left. exists f. reflexivity.
Qed.

Lemma int_numeric : forall v z, int_of v z -> float_of v (nearest z).
Proof. intros. apply FoInt. assumption. Qed.

Lemma not_numeric : forall v, ~ numeric v -> isArith v = false.
Proof.
  intros v H. destruct v as [|[]| | | | | | | | | | |]; try reflexivity; exfalso; apply H; eexists;
    first [apply FoFloat | apply FoInt; constructor].
Qed.

Lemma numeric_arith : forall v, numeric v -> isArith v = true.
Proof. intros v (f & H). apply (float_of_cvf (mkWorld (mkText (fun _ => None) (fun _ => false)) (fun _ _ => false) (fun _ _ => []) (fun _ => []) (fun _ => []) (fun _ => 0) (fun _ _ => [])) v f H). Qed.

Lemma arith_nothing : forall v, isArith v = true -> isNothing v = false.
Proof. intros []; try reflexivity; discriminate. Qed.

Lemma wrap_reduces : forall e, reduces e (wrap64 e).
Proof.
  intros e. unfold reduces, wrap64, two63, two64. split.
  - pose proof (Z.mod_pos_bound (e + 9223372036854775808) 18446744073709551616 ltac:(lia)). lia.
  - exists ((e + 9223372036854775808) / 18446744073709551616).
    pose proof (Z.div_mod (e + 9223372036854775808) 18446744073709551616 ltac:(lia)). lia.
Qed.

Lemma reduces_unique : forall e z z', reduces e z -> reduces e z' -> z = z'.
Proof. unfold reduces. intros e z z' [H (k & E)] [H' (k' & E')]. lia. Qed.

Lemma reduces_wrap : forall e z, reduces e z -> z = wrap64 e.
Proof. intros. eapply reduces_unique; [eassumption|apply wrap_reduces]. Qed.

(** ** +, -, * *)
Lemma sums_total : forall o a b, exists v, sums_to o a b v.
Proof.
  intros o a b.
  destruct (arith_cases a) as [(x & Hx)|[(x & ->)|Na]]; destruct (arith_cases b) as [(y & Hy)|[(y & ->)|Nb]];
    try (eexists; apply SmOther; tauto).
  - eexists. eapply SmInt; [eassumption|eassumption|apply wrap_reduces].
  - eexists. eapply SmFloat; [right; exists y; reflexivity | apply FoInt; eassumption | apply FoFloat].
  - eexists. eapply SmFloat; [left; exists x; reflexivity | apply FoFloat | apply FoInt; eassumption].
  - eexists. eapply SmFloat; [left; exists x; reflexivity | apply FoFloat | apply FoFloat].
Qed.


Lemma sums_computes : forall W o a b v, sum_op o -> sums_to o a b v -> computes W o [a; b] v.
Proof.
  intros W o a b v Ho H.
  set (i := match o with OpAdd => add64 | OpSub => sub64 | _ => mul64 end).
  set (f := match o with OpAdd => f_add | OpSub => f_sub | _ => f_mul end).
  assert (A : (if isNothing a || isNothing b then nothing else arith W a b i f) = v).
  { destruct H as [x y z Hx Hy R | x y Hf Hx Hy | Hn].
    - destruct (int_of_cvi W _ _ Hx) as (C1 & A1 & F1). destruct (int_of_cvi W _ _ Hy) as (C2 & A2 & F2).
      rewrite (arith_nothing _ A1), (arith_nothing _ A2). unfold arith.
      rewrite (arith_nothing _ A1), (arith_nothing _ A2), A1, A2, F1, F2, C1, C2. cbn [orb andb negb].
      rewrite (reduces_wrap _ _ R). unfold i. destruct Ho as [->|[->| ->]]; reflexivity.
    - destruct (float_of_cvf W _ _ Hx) as (C1 & A1). destruct (float_of_cvf W _ _ Hy) as (C2 & A2).
      rewrite (arith_nothing _ A1), (arith_nothing _ A2). unfold arith.
      rewrite (arith_nothing _ A1), (arith_nothing _ A2), A1, A2, C1, C2. cbn [orb andb negb].
      replace (isFloat a || isFloat b) with true.
      + unfold f. destruct Ho as [->|[->| ->]]; reflexivity.
      + destruct Hf as [(u & ->)|(u & ->)]; [reflexivity|]. symmetry. apply orb_true_r.
    - unfold arith. destruct (isNothing a || isNothing b); [reflexivity|].
      replace (isArith a && isArith b) with false; [reflexivity|].
      destruct Hn as [Hn|Hn]; rewrite (not_numeric _ Hn); [reflexivity|]. symmetry. apply andb_false_r. }
  apply computes2; [left; destruct Ho as [->|[->| ->]]; reflexivity|].
  rewrite <- A. destruct Ho as [->|[->| ->]]; reflexivity.
Qed.

(** ** / and % *)
Lemma divides_quot : forall x y, y <> 0 -> divides x y (Z.quot x y) (Z.rem x y).
Proof.
  intros x y H. unfold divides. split; [apply Z.quot_rem'|]. split; [apply Z.rem_bound_abs; exact H|].
  destruct (Z.eq_dec (Z.rem x y) 0) as [E|N]; [left; exact E|right]. apply Z.rem_sign_nz; assumption.
Qed.

Lemma divides_unique : forall x y q r q' r', y <> 0 -> divides x y q r -> divides x y q' r' -> q = q' /\ r = r'.
Proof.
  unfold divides. intros x y q r q' r' Hy (E & B & S) (E' & B' & S').
  assert (D : Z.abs (r - r') < Z.abs y).
  { destruct S as [S|S], S' as [S'|S']; try lia.
    }
  assert (y * (q - q') = r' - r) by lia.
  assert (q = q') by (destruct (Z.eq_dec q q'); [assumption|]; nia).
  split; [assumption|]. subst. lia.
Qed.

Lemma quot_range : forall x y, -9223372036854775808 <= x <= 9223372036854775807 -> y <> 0 ->
  -9223372036854775808 <= Z.rem x y <= 9223372036854775807.
Proof.
  intros x y H Hy. pose proof (Z.rem_bound_abs x y Hy).
  destruct (divides_quot x y Hy) as (E & B & S).
  assert (Z.abs (Z.rem x y) <= Z.abs x).
  { destruct S as [S|S]; [rewrite S; lia|]. pose proof (Z.rem_le (Z.abs x) (Z.abs y) ltac:(lia) ltac:(lia)).
    rewrite Z.rem_abs in H1 by assumption. exact H1. }
  lia.
Qed.


Lemma proper_float : forall v x, proper v -> float_of v x -> double x.
Proof.
  intros v x Hp H. destruct H as [f|v z H]; [exact Hp|]. apply nearest_good.
Qed.

Lemma float_divided : forall o a b x y, div_op o -> is_float a \/ is_float b -> float_of a x -> float_of b y ->
  double x -> double y ->
  divided o a b (if f_eqb y f_zero then nothing else VFloat (match o with OpDiv => f_div x y | _ => f_mod x y end)).
Proof.
  intros o a b x y Ho Hf Hx Hy Gx Gy.
  assert (Z : forall s, y = S754_zero s -> divided o a b nothing).
  { intros s ->. eapply DvFloatZero; eassumption. }
  destruct y as [s|s| |s m e].
  - change (f_eqb (S754_zero s) f_zero) with true. cbv iota. apply (Z s). reflexivity.
  - change (f_eqb (S754_infinity s) f_zero) with (match (if s then Lt else Gt) with Eq => true | _ => false end).
    replace (match (if s then Lt else Gt) with Eq => true | _ => false end) with false by (destruct s; reflexivity).
    destruct Ho as [-> | ->].
    + apply DvFloat; try assumption; [reflexivity|discriminate].
    + destruct x as [sx|sx| |sx mx ex].
      * eapply DvRemInf; try eassumption; [reflexivity|discriminate].
      * eapply DvRemNan; try eassumption; [reflexivity| |discriminate]. right; left; eauto.
      * eapply DvRemNan; try eassumption; [reflexivity| |discriminate]. left; reflexivity.
      * apply (DvRemInf OpMod a b (S754_finite sx mx ex) s); try assumption; [reflexivity|]. destruct (real_finite sx mx ex) as (q & E & _). rewrite E; discriminate.
  - change (f_eqb S754_nan f_zero) with false. cbv iota.
    destruct Ho as [-> | ->].
    + apply DvFloat; try assumption; [reflexivity|discriminate].
    + replace (f_mod x S754_nan) with S754_nan by (destruct x; reflexivity).
      eapply DvRemNan; try eassumption; [reflexivity| |discriminate]. auto.
  - change (f_eqb (S754_finite s m e) f_zero) with (match (if s then Lt else Gt) with Eq => true | _ => false end).
    replace (match (if s then Lt else Gt) with Eq => true | _ => false end) with false by (destruct s; reflexivity).
    destruct Ho as [-> | ->].
    + apply DvFloat; try assumption; [reflexivity|discriminate].
    + destruct x as [sx|sx| |sx mx ex].
      * eapply DvRem; try eassumption; [reflexivity|]. apply zero_rem.
      * eapply DvRemNan; try eassumption; [reflexivity| |discriminate]. right; left; eauto.
      * eapply DvRemNan; try eassumption; [reflexivity| |discriminate]. left; reflexivity.
      * eapply DvRem; try eassumption; [reflexivity|]. apply mod_exact; assumption.
Qed.

Definition div_val (W : world) (o : op) (a b : val) : val :=
  divide W a b (match o with OpDiv => quot64 | _ => rem64 end) (match o with OpDiv => f_div | _ => f_mod end).

Lemma divided_val : forall W o a b, div_op o -> proper a -> proper b -> divided o a b (div_val W o a b).
Proof.
  intros W o a b Ho Pa Pb. unfold div_val, divide.
  assert (Fl : forall x y, is_float a \/ is_float b -> float_of a x -> float_of b y ->
    divided o a b (if isNothing a || isNothing b then nothing
      else if negb (isArith a && isArith b) then nothing
      else if isFloat a || isFloat b then
        if f_eqb (cvf W b) f_zero then nothing
        else VFloat ((match o with OpDiv => f_div | _ => f_mod end) (cvf W a) (cvf W b))
      else if cvi W b =? 0 then nothing
      else VInt64 ((match o with OpDiv => quot64 | _ => rem64 end) (cvi W a) (cvi W b)))).
  { intros x y Hf Hx Hy.
    destruct (float_of_cvf W _ _ Hx) as (C1 & A1). destruct (float_of_cvf W _ _ Hy) as (C2 & A2).
    rewrite (arith_nothing _ A1), (arith_nothing _ A2), A1, A2, C1, C2. cbn [orb andb negb].
    replace (isFloat a || isFloat b) with true.
    - assert (K := float_divided o a b x y Ho Hf Hx Hy (proper_float _ _ Pa Hx) (proper_float _ _ Pb Hy)).
      destruct Ho as [-> | ->]; exact K.
    - destruct Hf as [(u & ->)|(u & ->)]; [reflexivity|]. symmetry. apply orb_true_r. }
  destruct (arith_cases a) as [(x & Hx)|[(x & ->)|Na]].
  - destruct (arith_cases b) as [(y & Hy)|[(y & ->)|Nb]].
    + destruct (int_of_cvi W _ _ Hx) as (C1 & A1 & F1). destruct (int_of_cvi W _ _ Hy) as (C2 & A2 & F2).
      rewrite (arith_nothing _ A1), (arith_nothing _ A2), A1, A2, F1, F2, C1, C2. cbn [orb andb negb].
      destruct (Z.eqb_spec y 0) as [->|Hy0].
      * eapply DvIntZero; eassumption.
      * eapply DvInt; try eassumption; [apply divides_quot; assumption|].
        destruct Ho as [-> | ->].
        -- apply wrap_reduces.
        -- unfold rem64. split; [|exists 0; lia]. apply quot_range; [|assumption].
           destruct Hx; cbn [proper] in Pa; lia.
    + eapply Fl; [right; exists y; reflexivity | apply FoInt; eassumption | apply FoFloat].
    + rewrite (not_numeric _ Nb), andb_false_r. cbn [negb].
      destruct (isNothing a || isNothing b); apply DvOther; auto.
  - destruct (arith_cases b) as [(y & Hy)|[(y & ->)|Nb]].
    + eapply Fl; [left; exists x; reflexivity | apply FoFloat | apply FoInt; eassumption].
    + eapply Fl; [left; exists x; reflexivity | apply FoFloat | apply FoFloat].
    + rewrite (not_numeric _ Nb), andb_false_r. cbn [negb].
      destruct (isNothing (VFloat x) || isNothing b); apply DvOther; auto.
  - rewrite (not_numeric _ Na). cbn [andb negb]. destruct (isNothing a || isNothing b); apply DvOther; auto.
Qed.

Lemma div_computes : forall W o a b, div_op o -> computes W o [a; b] (div_val W o a b).
Proof.
  intros W o a b Ho. apply computes2; [left; destruct Ho as [-> | ->]; reflexivity|].
  unfold div_val, divide. destruct Ho as [-> | ->]; cbn [binop]; unfold divide; destruct (isNothing a || isNothing b); reflexivity.
Qed.

(** [divided] is functional *)
Lemma real_unique : forall x y a b, double x -> double y -> real_of x = Some a -> real_of y = Some b -> (a == b)%Q ->
  (exists s, fsign x s /\ fsign y s) -> x = y.
Proof.
  intros x y a b Gx Gy Ea Eb H (s & Sx & Sy).
  assert (C := compare_real _ _ _ _ Gx Gy Ea Eb). apply Qeq_alt in H. rewrite H in C.
  destruct x as [sx|sx| |sx mx ex], y as [sy|sy| |sy my ey]; try discriminate Ea; try discriminate Eb; cbn in Sx, Sy.
  - congruence.
  - cbn in C. destruct sy; discriminate C.
  - cbn in C. destruct sx; discriminate C.
  - assert (sx = sy) by congruence. clear Sx Sy. subst sy.
    cbn [SFcompare] in C. f_equal; destruct sx; destruct (Z.compare_spec ex ey); try discriminate C; try assumption;
      injection C as C; try (apply Pos.compare_eq; exact C).
    change (Pos.compare_cont Eq mx my) with (Pos.compare mx my) in C.
    destruct (Pos.compare_spec mx my); try discriminate C; assumption.
Qed.

Lemma rem_sign : forall x y r, float_rem x y r -> exists s, fsign x s /\ fsign r s.
Proof.
  intros x y r (_ & a & b & c & n & _ & _ & _ & _ & _ & S).
  destruct x, r; try contradiction; eexists; split; cbn; eauto.
Qed.

Lemma fsign_real : forall f s q, fsign f s -> real_of f = Some q -> if s then (q <= 0)%Q else (0 <= q)%Q.
Proof.
  intros [s'|s'| |s' m e] s q S E; cbn in S; try contradiction; subst.
  - injection E as <-. destruct s'; apply Qle_refl.
  - destruct (real_finite s' m e) as (q' & E' & H). rewrite E in E'. injection E' as <-.
    pose proof (expo_pos e) as P. 
    destruct s'; cbn [signed] in H; rewrite H; setoid_replace 0%Q with (inject_Z 0 * expo e)%Q by reflexivity;
      apply Qmult_le_r; try exact P; rewrite <- Zle_Qle; lia.
Qed.

Lemma rem_unique : forall x y r r', float_rem x y r -> float_rem x y r' -> r = r'.
Proof.
  intros x y r r' H H'.
  destruct (rem_sign _ _ _ H) as (s & Sx & Sr). destruct (rem_sign _ _ _ H') as (s' & Sx' & Sr').
  assert (s' = s) by (destruct x; cbn in Sx, Sx'; try contradiction; congruence). subst s'.
  destruct H as (G & a & b & c & n & Ea & Eb & Ec & E & B & _).
  destruct H' as (G' & a' & b' & c' & n' & Ea' & Eb' & Ec' & E' & B' & _).
  rewrite Ea in Ea'. injection Ea' as <-. rewrite Eb in Eb'. injection Eb' as <-.
  eapply real_unique; try eassumption; [|exists s; auto].
  assert (Hc := fsign_real _ _ _ Sr Ec). assert (Hc' := fsign_real _ _ _ Sr' Ec').
  assert (D : (Qabs (c - c') < Qabs b)%Q).
  { apply Qabs_case; intros HH; destruct s.
    - rewrite (Qabs_neg c') in B' by exact Hc'.
      eapply Qle_lt_trans; [|exact B']. setoid_replace (- c')%Q with (0 - c')%Q by ring.
      apply Qplus_le_l. exact Hc.
    - rewrite (Qabs_pos c) in B by exact Hc. eapply Qle_lt_trans; [|exact B].
      setoid_replace c with (c - 0)%Q at 2 by ring. unfold Qminus. apply Qplus_le_r. apply (Qopp_le_compat 0 c'). exact Hc'.
    - rewrite (Qabs_neg c) in B by exact Hc. eapply Qle_lt_trans; [|exact B].
      setoid_replace (- (c - c'))%Q with (- c + c')%Q by ring. setoid_replace (- c)%Q with (- c + 0)%Q at 2 by ring.
      apply Qplus_le_r. exact Hc'.
    - rewrite (Qabs_pos c') in B' by exact Hc'. eapply Qle_lt_trans; [|exact B'].
      setoid_replace (- (c - c'))%Q with (c' + - c)%Q by ring. setoid_replace c' with (c' + 0)%Q at 2 by ring.
      apply Qplus_le_r. apply (Qopp_le_compat 0 c). exact Hc. }
  assert (E2 : (c - c' == b * inject_Z (n' - n))%Q).
  { unfold Z.sub. rewrite inject_Z_plus, inject_Z_opp.
    assert (c == a - b * inject_Z n)%Q by (rewrite E; ring). assert (c' == a - b * inject_Z n')%Q by (rewrite E'; ring).
    rewrite H, H0. ring. }
  assert (n' - n = 0).
  { destruct (Z.eq_dec (n' - n) 0) as [Z0|N0]; [exact Z0|exfalso].
    rewrite E2, Qabs_Qmult in D.
    assert (1 <= Qabs (inject_Z (n' - n)))%Q.
    { change 1%Q with (inject_Z 1). rewrite inject_Z_abs, <- Zle_Qle. lia. }
    assert (Qabs b <= Qabs b * Qabs (inject_Z (n' - n)))%Q.
    { setoid_replace (Qabs b) with (Qabs b * 1)%Q at 1 by ring.
      rewrite !(Qmult_comm (Qabs b)). apply Qmult_le_compat_r; [exact H|apply Qabs_nonneg]. }
    apply (Qlt_irrefl (Qabs b)). eapply Qle_lt_trans; [exact H0|exact D]. }
  rewrite H in E2. change (inject_Z 0) with 0%Q in E2. rewrite Qmult_0_r in E2.
  setoid_replace c with (c' + (c - c'))%Q by ring. rewrite E2. ring.
Qed.

Lemma int_of_fun : forall v x y, int_of v x -> int_of v y -> x = y.
Proof. intros v x y H K. destruct H; inversion K; reflexivity. Qed.
Lemma int_not_float : forall v x, int_of v x -> ~ is_float v.
Proof. intros v x H (f & ->). inversion H. Qed.
Lemma float_of_fun : forall v x y, float_of v x -> float_of v y -> x = y.
Proof.
  intros v x y H K. destruct H as [f|v z H]; inversion K as [f'|v' z' H']; subst; try reflexivity.
  - inversion H'.
  - inversion H.
  - f_equal. eapply int_of_fun; eassumption.
Qed.

Ltac same :=
  repeat match goal with
  | H : int_of ?v ?x, K : int_of ?v ?y |- _ => 
      lazymatch x with y => fail | _ => pose proof (int_of_fun _ _ _ H K); subst; clear K end
  | H : float_of ?v ?x, K : float_of ?v ?y |- _ =>
      lazymatch x with y => fail | _ => pose proof (float_of_fun _ _ _ H K); subst; clear K end
  end.

Lemma divided_fun : forall o a b v w, div_op o -> divided o a b v -> divided o a b w -> v = w.
Proof.
  intros o a b v w Ho H K.
  assert (NF : forall x y, int_of a x -> int_of b y -> is_float a \/ is_float b -> False).
  { intros x y Ha Hb [F|F]; [exact (int_not_float _ _ Ha F)|exact (int_not_float _ _ Hb F)]. }
  assert (NN : forall x y, float_of a x -> float_of b y -> ~ numeric a \/ ~ numeric b -> False).
  { intros x y Ha Hb [F|F]; apply F; eexists; eassumption. }
  assert (NI : forall x y, int_of a x -> int_of b y -> ~ numeric a \/ ~ numeric b -> False).
  { intros x y Ha Hb. apply (NN (nearest x) (nearest y)); apply FoInt; assumption. }
  assert (RZ : forall x y r, float_rem x y r -> (forall s, y <> S754_zero s) /\ (forall s, y <> S754_infinity s) /\
            x <> S754_nan /\ (forall s, x <> S754_infinity s) /\ y <> S754_nan).
  { intros x y r (_ & a' & b' & c & n & Ea & Eb & _ & _ & B & _). 
    repeat split; intros; intros ->; try discriminate Ea; try discriminate Eb.
    injection Eb as <-. change (Qabs 0) with 0%Q in B. apply (Qle_not_lt 0 (Qabs c)); [apply Qabs_nonneg|exact B]. }
  destruct H; destruct K; subst; try congruence; same; try (exfalso; eauto; fail); try congruence; try reflexivity;
    try (exfalso; match goal with R : float_rem ?x ?y ?r |- _ => destruct (RZ x y r R) as (R1 & R2 & R3 & R4 & R5) end;
         repeat match goal with S : _ \/ _ |- _ => destruct S | S : exists _, _ |- _ => destruct S end; subst; congruence);
    try (exfalso; match goal with Z : forall s, S754_zero ?t <> S754_zero s |- _ => apply (Z t); reflexivity end);
    try (exfalso; match goal with S : _ \/ (exists _, _) \/ _, N : real_of _ <> None |- _ =>
      destruct S as [->|[(u & ->)|S]]; [apply N; reflexivity|apply N; reflexivity|discriminate S] end).
  - match goal with N : ?y <> 0, D1 : divides _ ?y ?q ?r, D2 : divides _ ?y ?q' ?r' |- _ =>
      destruct (divides_unique _ _ _ _ _ _ N D1 D2) as [-> ->] end.
    f_equal. eapply reduces_unique; eassumption.
  - f_equal. eapply rem_unique; eassumption.
Qed.

Lemma divided_computes : forall W o a b v, div_op o -> proper a -> proper b -> divided o a b v -> computes W o [a; b] v.
Proof.
  intros W o a b v Ho Pa Pb H. rewrite (divided_fun o a b v _ Ho H (divided_val W o a b Ho Pa Pb)).
  apply div_computes. exact Ho.
Qed.
