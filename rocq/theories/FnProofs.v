(** The predefined functions. *)
From Coq Require Import QArith Qabs Permutation.
From Verif Require Import F64 Syntax Value Fns Machine Eval SpecSyntax CoderProofs MachineProofs SpecTokens SpecGrammar SpecOp OpProofs SpecExpr
  FloatProofs ArithProofs LogicProofs.
Local Open Scope Z_scope.

(** ** strings *)
Lemma has_prefix_spec : forall p s, has_prefix s p = true <-> prefix p s.
Proof.
  induction p as [|y p IH]; intros s; cbn [has_prefix].
  - destruct s; (split; [intros _; eexists; reflexivity|reflexivity]).
  - destruct s as [|x s]; cbn [has_prefix].
    + split; [discriminate|intros (r & E); discriminate E].
    + rewrite andb_true_iff, Z.eqb_eq, IH. split.
      * intros (-> & r & ->). exists r. reflexivity.
      * intros (r & E). injection E as -> ->. split; [reflexivity|exists r; reflexivity].
Qed.

Lemma has_suffix_spec : forall p s, has_suffix s p = true <-> suffix p s.
Proof.
  intros p s. unfold has_suffix. rewrite has_prefix_spec. split; intros (r & E); exists (rev r).
  - rewrite <- (rev_involutive s), E, rev_app_distr, rev_involutive. reflexivity.
  - rewrite E, rev_app_distr. reflexivity.
Qed.

Lemma contains_spec : forall p s, contains_sub s p = true <-> substring p s.
Proof.
  intros p s. induction s as [|x s IH]; cbn [contains_sub]; rewrite orb_true_iff, has_prefix_spec.
  - split.
    + intros [(r & E)|E]; [|discriminate E]. exists [], r. exact E.
    + intros (a & b & E). left. destruct a; [|discriminate E]. exists b. exact E.
  - rewrite IH. split.
    + intros [(r & E)|(a & b & E)]; [exists [], r; exact E|]. exists (x :: a), b. rewrite E. reflexivity.
    + intros (a & b & E). destruct a as [|y a]; [left; exists b; exact E|]. injection E as -> E. right. exists a, b. exact E.
Qed.

Lemma call_known : forall W t f fn args, lookup (b_of f) functions = Some fn ->
  match fn_na fn with Some na => Z.of_nat (length args) = na | None => True end ->
  call W t (b_of f) args = fn_body fn W t args.
Proof.
  intros W t f fn args L N. unfold call. rewrite L. destruct (fn_na fn) as [na|]; [|reflexivity].
  rewrite N, Z.eqb_refl. reflexivity.
Qed.

Ltac by_call := apply calls_call; intros t; reflexivity.

Lemma starts_computes : forall W s p, exists r, calls W "starts_with" [VStr s; VStr p] (VBool r) /\ (r = true <-> prefix p s).
Proof. intros W s p. exists (has_prefix s p). split; [by_call|apply has_prefix_spec]. Qed.
Lemma ends_computes : forall W s p, exists r, calls W "ends_with" [VStr s; VStr p] (VBool r) /\ (r = true <-> suffix p s).
Proof. intros W s p. exists (has_suffix s p). split; [by_call|apply has_suffix_spec]. Qed.
Lemma contains_computes : forall W s p, exists r, calls W "contains" [VStr s; VStr p] (VBool r) /\ (r = true <-> substring p s).
Proof. intros W s p. exists (contains_sub s p). split; [by_call|apply contains_spec]. Qed.
Lemma contains_array : forall W l x, exists r, calls W "contains" [VArr l; x] (VBool r) /\
  (r = true <-> exists el, In el l /\ computes W OpEQ [el; x] (VBool true)).
Proof.
  intros W l x. exists (existsb (fun v => eqVal W v x) l). split; [by_call|].
  rewrite existsb_exists. split; intros (el & H1 & H2); exists el; (split; [exact H1|]); apply eq_true; exact H2.
Qed.

Lemma predicate_failure : forall W f a b, In f ["starts_with"; "ends_with"; "contains"]%string ->
  ~ (exists s p, a = VStr s /\ b = VStr p) -> (f = "contains"%string -> forall l, a <> VArr l) ->
  exists k, calls W f [a; b] (VErr k).
Proof.
  intros W f a b Hf H Hc. cbn [In] in Hf.
  assert (S : stringArgs [a; b] = None).
  { destruct a, b; try reflexivity. exfalso. apply H. eauto. }
  destruct Hf as [<-|[<-|[<-|[]]]].
  - exists KFailure. apply calls_call. intros t. change (OK (E := rerr) (match stringArgs [a; b] with None => VErr KFailure | Some (a, b) => VBool (has_prefix a b) end, t) = OK (VErr KFailure, t)).
    rewrite S. reflexivity.
  - exists KFailure. apply calls_call. intros t. change (OK (E := rerr) (match stringArgs [a; b] with None => VErr KFailure | Some (a, b) => VBool (has_suffix a b) end, t) = OK (VErr KFailure, t)).
    rewrite S. reflexivity.
  - exists KType. apply calls_call. intros t. change (OK (E := rerr) (fn_contains W a b, t) = OK (VErr KType, t)). do 2 f_equal.
    destruct a; try reflexivity; [|exfalso; eapply Hc; reflexivity]. destruct b; try reflexivity. exfalso. apply H. eauto.
Qed.

(** ** length *)
Lemma in_rng_spec : forall lo hi c, in_rng lo hi c = true <-> lo <= c <= hi.
Proof. intros. unfold in_rng. rewrite andb_true_iff, !Z.leb_le. tauto. Qed.
Lemma in_rng_false : forall lo hi c, in_rng lo hi c = false <-> c < lo \/ hi < c.
Proof. intros. destruct (in_rng lo hi c) eqn:E; [apply in_rng_spec in E|]; split; try discriminate; try lia.
  intros _. unfold in_rng in E. apply andb_false_iff in E. rewrite !Z.leb_gt in E. lia. Qed.

Lemma surrogate_range : forall c, surrogate c = false <-> c < 55296 \/ 57343 < c.
Proof.
  intros c. unfold surrogate, high_surrogate, low_surrogate.
  rewrite orb_false_iff, !andb_false_iff, !Z.leb_gt. lia.
Qed.

Ltac rng := repeat match goal with
  | |- context [in_rng ?l ?h ?c] =>
      first [ replace (in_rng l h c) with true by (symmetry; apply in_rng_spec; lia)
            | replace (in_rng l h c) with false by (symmetry; apply in_rng_false; lia) ]
  end.

Lemma rune_size_utf8 : forall c e s, utf8 c e -> surrogate c = false -> rune_size (e ++ s) = length e.
Proof.
  intros c e s H Hs. apply surrogate_range in Hs. destruct H; cbn [app rune_size length].
  - rng. reflexivity.
  - rng. reflexivity.
  - rng. destruct (Z.eqb_spec (224 + a) 224); destruct (Z.eqb_spec (224 + a) 237); rng; reflexivity.
  - rng. destruct (Z.eqb_spec (240 + a) 240); destruct (Z.eqb_spec (240 + a) 244); rng; reflexivity.
Qed.

Lemma rune_size_cases : forall b s, rune_size (b :: s) = 1%nat \/
  exists c e r, utf8 c e /\ surrogate c = false /\ b :: s = e ++ r /\ rune_size (b :: s) = length e.
Proof.
  intros b s. cbn [rune_size].
  destruct (in_rng 194 223 b) eqn:R2.
  - destruct s as [|c1 s]; [auto|]. destruct (in_rng 128 191 c1) eqn:R; [|auto]. right.
    apply in_rng_spec in R2. apply in_rng_spec in R.
    exists ((b - 192) * 64 + (c1 - 128)), [b; c1], s. split; [|split; [apply surrogate_range; lia|split; reflexivity]].
    replace [b; c1] with [192 + (b - 192); 128 + (c1 - 128)] by (do 2 (f_equal; try lia)). apply Utf8_2; lia.
  - destruct (in_rng 224 239 b) eqn:R3.
    + destruct s as [|c1 [|c2 s]]; try (left; reflexivity).
      destruct (in_rng (if b =? 224 then 160 else 128) (if b =? 237 then 159 else 191) c1) eqn:R; [|left; reflexivity].
      destruct (in_rng 128 191 c2) eqn:R'; [|left; reflexivity]. right. cbn [andb].
      apply in_rng_spec in R3. apply in_rng_spec in R. apply in_rng_spec in R'.
      exists (((b - 224) * 64 + (c1 - 128)) * 64 + (c2 - 128)), [b; c1; c2], s.
      assert (B : 128 <= c1 <= 191) by (destruct (b =? 224), (b =? 237); lia).
      assert (L : b = 224 -> 160 <= c1) by (intros ->; exact (proj1 R)).
      assert (H : b = 237 -> c1 <= 159) by (intros ->; exact (proj2 R)).
      split; [|split; [apply surrogate_range|split; reflexivity]].
      * replace [b; c1; c2] with [224 + (b - 224); 128 + (c1 - 128); 128 + (c2 - 128)] by (do 3 (f_equal; try lia)). apply Utf8_3; lia.
      * lia.
    + destruct (in_rng 240 244 b) eqn:R4; [|left; reflexivity].
      destruct s as [|c1 [|c2 [|c3 s]]]; try (left; reflexivity).
      destruct (in_rng (if b =? 240 then 144 else 128) (if b =? 244 then 143 else 191) c1) eqn:R; [|left; reflexivity].
      destruct (in_rng 128 191 c2) eqn:R'; [|left; reflexivity].
      destruct (in_rng 128 191 c3) eqn:R''; [|left; reflexivity]. right. cbn [andb].
      apply in_rng_spec in R4. apply in_rng_spec in R. apply in_rng_spec in R'. apply in_rng_spec in R''.
      exists ((((b - 240) * 64 + (c1 - 128)) * 64 + (c2 - 128)) * 64 + (c3 - 128)), [b; c1; c2; c3], s.
      assert (B : 128 <= c1 <= 191) by (destruct (b =? 240), (b =? 244); lia).
      assert (L : b = 240 -> 144 <= c1) by (intros ->; exact (proj1 R)).
      assert (H : b = 244 -> c1 <= 143) by (intros ->; exact (proj2 R)).
      split; [|split; [apply surrogate_range|split; reflexivity]].
      * replace [b; c1; c2; c3] with [240 + (b - 240); 128 + (c1 - 128); 128 + (c2 - 128); 128 + (c3 - 128)] by (do 4 (f_equal; try lia)).
        apply Utf8_4; lia.
      * lia.
Qed.

Lemma utf8_length : forall c e, utf8 c e -> (1 <= length e)%nat.
Proof. intros c e H. destruct H; cbn; lia. Qed.

Lemma rune_count_code : forall s n, code_points s n -> forall fuel, (length s <= fuel)%nat -> rune_count_aux fuel s = n.
Proof.
  intros s n H. induction H as [|c e s n Hu Hs H IH|b s n Hb H IH]; intros fuel L.
  - destruct fuel; reflexivity.
  - assert (K := utf8_length _ _ Hu). assert (E := rune_size_utf8 c e s Hu Hs). rewrite app_length in L.
    destruct fuel as [|fuel]; [lia|].
    destruct (e ++ s) as [|x xs] eqn:EE; [destruct e; [cbn in K; lia|discriminate EE]|].
    cbn [rune_count_aux]. rewrite E, <- EE, skipn_app, skipn_all, Nat.sub_diag. cbn [skipn app].
    rewrite IH by lia. lia.
  - cbn [length] in L. destruct fuel as [|fuel]; [lia|]. cbn [rune_count_aux].
    destruct (rune_size_cases b s) as [E|(c & e & r & Hu & Hs & E & _)]; [|exfalso; exact (Hb c e r Hu Hs E)].
    rewrite E. cbn [skipn]. rewrite IH by lia. lia.
Qed.

Lemma code_points_total : forall n s, (length s <= n)%nat -> exists k, code_points s k.
Proof.
  induction n as [|n IH]; intros [|b s] L; try (exists 0; constructor); [cbn in L; lia|]. cbn [length] in L.
  destruct (Z_lt_ge_dec b 0) as [N|N]; [|destruct (Z_lt_ge_dec b 128) as [M|M]].
  - destruct (IH s) as (k & Hk); [lia|]. exists (k + 1). apply CpByte; [|exact Hk].
    intros c e r Hu Hs E. apply (f_equal (hd 0)) in E. destruct Hu; cbn [app hd] in E; lia.
  - destruct (IH s) as (k & Hk); [lia|]. exists (k + 1).
    apply (CpRune b [b] s k); [apply Utf8_1; lia|apply surrogate_range; lia|exact Hk].
  - destruct (rune_size_cases b s) as [E|(c & e & r & Hu & Hs & E & _)].
    + destruct (IH s) as (k & Hk); [lia|]. exists (k + 1). apply CpByte; [|exact Hk].
      intros c e r Hu Hs Ee. assert (K := rune_size_utf8 c e r Hu Hs). rewrite <- Ee, E in K.
      destruct Hu; cbn [length] in K; try discriminate K. apply (f_equal (hd 0)) in Ee. cbn [app hd] in Ee. lia.
    + assert (K := utf8_length _ _ Hu). destruct (IH r) as (k & Hk).
      { apply (f_equal (@length Z)) in E. cbn [length] in E. rewrite app_length in E. lia. }
      exists (k + 1). rewrite E. exact (CpRune c e r k Hu Hs Hk).
Qed.

(** x.length *)

Lemma length_string : forall W s n, code_points s n ->
  calls W "length" [VStr s] (VInt64 n) /\ dot_length W (VStr s) (VInt64 n).
Proof.
  intros W s n H. assert (E : rune_count s = n) by (apply rune_count_code; [exact H|lia]). split.
  - apply calls_call. intros t. change (OK (E := rerr) (VInt64 (rune_count s), t) = OK (VInt64 n, t)). rewrite E. reflexivity.
  - apply computes2; [auto|]. change (Some (OK (E := rerr) (VInt64 (rune_count s))) = Some (OK (VInt64 n))). rewrite E. reflexivity.
Qed.
Lemma length_array : forall W l, calls W "length" [VArr l] (VInt64 (Z.of_nat (length l))) /\
  dot_length W (VArr l) (VInt64 (Z.of_nat (length l))).
Proof. intros W l. split; [by_call|]. apply computes2; [auto|reflexivity]. Qed.
Lemma length_object : forall W m, calls W "length" [VObj m] (VInt64 (Z.of_nat (length m))) /\
  dot_length W (VObj m) (VInt64 (Z.of_nat (length m))).
Proof. intros W l. split; [by_call|]. apply computes2; [auto|reflexivity]. Qed.
Lemma length_other : forall W v, (forall s, v <> VStr s) -> (forall l, v <> VArr l) -> (forall m, v <> VObj m) ->
  calls W "length" [v] VNil /\ dot_length W v (VErr KFailure).
Proof.
  intros W v H1 H2 H3. split.
  - apply calls_call. intros t. change (OK (E := rerr) (fn_length v, t) = OK (VNil, t)). do 2 f_equal.
    destruct v; try reflexivity; exfalso; [eapply H1|eapply H2|eapply H3]; reflexivity.
  - apply computes2; [auto|]. destruct v; try reflexivity; exfalso; [eapply H1|eapply H2|eapply H3]; reflexivity.
Qed.

(** ** sum, prod, avg *)
Lemma arith_loop_floats : forall W f a fs, Forall2 float_of a fs -> forall i acc,
  exists r, arith_loop W f i acc a = VFloat r /\
    ((forall i x y, (0 < i)%nat -> f i x y = f 1%nat x y) -> (0 < i)%nat -> r = fold_left (f 1%nat) fs acc).
Proof.
  intros W f a fs H. induction H as [|v x a fs Hv H IH]; intros i acc; cbn [arith_loop fold_left].
  - eexists; split; [reflexivity|auto].
  - destruct (float_of_cvf W _ _ Hv) as (C & A). rewrite A, C. cbn [negb].
    destruct (IH (S i) (f i acc x)) as (r & E & Hr). exists r. split; [exact E|].
    intros Hf Hi. rewrite <- (Hf i) by exact Hi. apply Hr; [exact Hf|lia].
Qed.

Lemma arith_loop_bad : forall W f a, Exists (fun v => ~ numeric v) a -> forall i acc, arith_loop W f i acc a = VErr KType.
Proof.
  intros W f a H. induction H as [v a H|v a H IH]; intros i acc; cbn [arith_loop].
  - rewrite (not_numeric _ H). reflexivity.
  - destruct (negb (isArith v)); [reflexivity|apply IH].
Qed.

Lemma sum_computes : forall W a fs, Forall2 float_of a fs ->
  calls W "sum" [VArr a] (VFloat (fold_left (SFadd 53 1024) fs (S754_zero false))).
Proof.
  intros W a fs H. apply calls_call. intros t. change (OK (E := rerr) (fn_sum W (VArr a), t) = OK (VFloat (fold_left (SFadd 53 1024) fs (S754_zero false)), t)).
  do 2 f_equal. destruct H as [|v x a fs Hv H]; [reflexivity|]. cbn [fn_sum arithArrayOp].
  destruct (arith_loop_floats W (fun _ r el => f_add r el) _ _ (Forall2_cons _ _ Hv H) 1%nat f_zero) as (r & E & Hr).
  rewrite (Hr ltac:(reflexivity) ltac:(lia)) in E. etransitivity; [|exact E]. clear E Hr.
  (* the fold ignores the index *)
  assert (G : forall a i j acc, arith_loop W (fun _ r el => f_add r el) i acc a = arith_loop W (fun _ r el => f_add r el) j acc a).
  { induction a0 as [|u a0 IH]; intros i j acc; cbn [arith_loop]; [reflexivity|]. destruct (negb (isArith u)); [reflexivity|apply IH]. }
  apply G.
Qed.

Lemma prod_computes : forall W v a x fs, float_of v x -> Forall2 float_of a fs ->
  calls W "prod" [VArr (v :: a)] (VFloat (fold_left (SFmul 53 1024) fs x)).
Proof.
  intros W v a x fs Hv H. apply calls_call. intros t.
  change (OK (E := rerr) (arith_loop W (fun i r el => if (0 <? i)%nat then f_mul r el else el) 0 f_zero (v :: a), t) =
          OK (VFloat (fold_left (SFmul 53 1024) fs x), t)).
  do 2 f_equal. destruct (float_of_cvf W _ _ Hv) as (C & A). cbn [arith_loop]. rewrite A, C. cbn [negb Nat.ltb Nat.leb].
  destruct (arith_loop_floats W (fun i r el => if (0 <? i)%nat then f_mul r el else el) _ _ H 1%nat x) as (r & E & Hr).
  etransitivity; [exact E|]. rewrite Hr; [reflexivity| |lia]. intros [|i] u w Hi; [lia|reflexivity].
Qed.

Lemma avg_computes : forall W a fs, Forall2 float_of a fs ->
  calls W "avg" [VArr a] (VFloat (SFdiv 53 1024 (fold_left (SFadd 53 1024) fs (S754_zero false)) (nearest (Z.of_nat (length a))))).
Proof.
  intros W a fs H. apply calls_call. intros t.
  change (OK (E := rerr) (fn_avg W (VArr a), t) =
    OK (VFloat (SFdiv 53 1024 (fold_left (SFadd 53 1024) fs (S754_zero false)) (nearest (Z.of_nat (length a)))), t)).
  do 2 f_equal. cbn [fn_avg].
  assert (G : forall acc, avg_loop W acc a = Some (fold_left (SFadd 53 1024) fs acc)).
  { induction H as [|v x a fs Hv H IH]; intros acc; cbn [avg_loop fold_left]; [reflexivity|].
    destruct (float_of_cvf W _ _ Hv) as (C & A). rewrite A, C. cbn [negb]. apply IH. }
  rewrite (G f_zero). reflexivity.
Qed.

Lemma fold_bad : forall W f a, In f ["sum"; "prod"; "avg"]%string -> Exists (fun v => ~ numeric v) a -> calls W f [VArr a] (VErr KType).
Proof.
  intros W f a Hf H.
  assert (Ha : a <> []) by (destruct H; discriminate).
  cbn [In] in Hf. destruct Hf as [<-|[<-|[<-|[]]]]; apply calls_call; intros t.
  - change (OK (E := rerr) (fn_sum W (VArr a), t) = OK (VErr KType, t)). do 2 f_equal. unfold fn_sum, arithArrayOp.
    destruct a; [congruence|]. apply arith_loop_bad. exact H.
  - change (OK (E := rerr) (fn_prod W (VArr a), t) = OK (VErr KType, t)). do 2 f_equal. unfold fn_prod, arithArrayOp.
    destruct a; [congruence|]. apply arith_loop_bad. exact H.
  - change (OK (E := rerr) (fn_avg W (VArr a), t) = OK (VErr KType, t)). do 2 f_equal. cbn [fn_avg].
    assert (G : forall acc, avg_loop W acc a = None).
    { clear Ha. induction H as [v a H|v a H IH]; intros acc; cbn [avg_loop].
      - rewrite (not_numeric _ H). reflexivity.
      - destruct (negb (isArith v)); [reflexivity|apply IH]. }
    rewrite G. reflexivity.
Qed.

Lemma fold_not_array : forall W f v, In f ["sum"; "prod"; "avg"]%string -> (forall l, v <> VArr l) -> calls W f [v] (VErr KType).
Proof.
  intros W f v Hf H. cbn [In] in Hf.
  destruct Hf as [<-|[<-|[<-|[]]]]; apply calls_call; intros t; destruct v; try reflexivity; exfalso; eapply H; reflexivity.
Qed.

(** ** min and max *)

(** the two ways of passing the values *)

Lemma minmax_passes : forall W fa fs args l, passes args l -> fn_minmax W fa fs args = minMaxArray W l fa fs.
Proof. intros W fa fs args l H. destruct H; reflexivity. Qed.

Definition better (mx : bool) (x y : f64) : bool := if mx then f_ltb y x else f_ltb x y.

Lemma sf_trans : forall x y z, x <> S754_nan -> y <> S754_nan -> z <> S754_nan ->
  f_ltb x y = false -> f_ltb y z = false -> f_ltb x z = false.
Proof.
  assert (P : forall a b c : positive, Pos.compare a b <> Lt -> Pos.compare b c <> Lt -> Pos.compare a c <> Lt).
  { intros a b c H1 H2 H3. rewrite Pos.compare_nlt_iff in H1, H2. rewrite Pos.compare_lt_iff in H3. lia. }
  intros [s|s| |s m e] [s'|s'| |s' m' e'] [s2|s2| |s2 m2 e2] Nx Ny Nz H1 H2; try congruence;
    unfold f_ltb, SFltb in *; cbn [SFcompare] in *;
    try (destruct s; try destruct s'; try destruct s2; try reflexivity; try discriminate; fail).
  destruct s, s', s2; try reflexivity; try discriminate;
    destruct (Z.compare_spec e e'); destruct (Z.compare_spec e' e2); destruct (Z.compare_spec e e2); subst; try lia; try discriminate; try reflexivity;
    change (Pos.compare_cont Eq) with Pos.compare in *.
  - destruct (Pos.compare_spec m m'); destruct (Pos.compare_spec m' m2); destruct (Pos.compare_spec m m2); subst; try discriminate; try reflexivity; lia.
  - destruct (Pos.compare_spec m m'); destruct (Pos.compare_spec m' m2); destruct (Pos.compare_spec m m2); subst; try discriminate; try reflexivity; lia.
Qed.

Lemma f_ltb_antisym : forall x y, f_ltb x y = true -> f_ltb y x = false.
Proof. intros x y. unfold f_ltb, SFltb. rewrite (f_swap x y). destruct (SFcompare x y) as [[]|]; cbn; congruence. Qed.
Lemma f_ltb_refl : forall x, f_ltb x x = false.
Proof. intros x. destruct (f_ltb x x) eqn:E; [|reflexivity]. assert (K := f_ltb_antisym _ _ E). congruence. Qed.
Lemma f_ltb_lt : forall x y, f_ltb x y = false <-> ~ f_lt x y.
Proof. intros x y. unfold f_ltb, SFltb, f_lt. destruct (SFcompare x y) as [[]|]; split; congruence. Qed.

Definition beats (mx : bool) (r x : f64) : Prop := if mx then f_ltb r x = false else f_ltb x r = false.
Definition arithf (mx : bool) := if mx then maxArith else minArith.

Lemma minmax_loop : forall W mx a fs, Forall2 float_of a fs -> Forall (fun x => x <> S754_nan) fs -> forall i acc,
  acc <> S754_nan ->
  exists r, arith_loop W (arithf mx) (S i) acc a = VFloat r /\ In r (acc :: fs) /\ (forall x, In x (acc :: fs) -> beats mx r x) /\ r <> S754_nan.
Proof.
  intros W mx a fs H. induction H as [|v x a fs Hv H IH]; intros HN i acc Ha; cbn [arith_loop].
  - exists acc. split; [reflexivity|]. split; [left; reflexivity|]. split; [|exact Ha].
    intros x [<-|[]]. unfold beats. destruct mx; apply f_ltb_refl.
  - destruct (float_of_cvf W _ _ Hv) as (C & A). rewrite A, C. cbn [negb].
    assert (Nx := Forall_inv HN). assert (HN' := Forall_inv_tail HN). cbn beta in Nx.
    set (acc' := arithf mx (S i) acc x).
    assert (K : (acc' = acc \/ acc' = x) /\ beats mx acc' acc /\ beats mx acc' x /\ acc' <> S754_nan).
    { unfold acc', arithf, maxArith, minArith, beats. destruct mx; cbn [Nat.eqb orb].
      - destruct (f_ltb acc x) eqn:E; repeat split; auto using f_ltb_refl, f_ltb_antisym.
      - destruct (f_ltb x acc) eqn:E; repeat split; auto using f_ltb_refl, f_ltb_antisym. }
    destruct K as (K1 & K2 & K3 & K4).
    destruct (IH HN' (S i) acc' K4) as (r & E & Hin & Hb & Nr). exists r. split; [exact E|].
    split; [|split; [|exact Nr]].
    + destruct Hin as [<-|Hin]; [destruct K1 as [->| ->]; cbn; auto|cbn; auto].
    + assert (B := Hb acc' (or_introl eq_refl)).
      assert (T : forall y, y <> S754_nan -> beats mx acc' y -> beats mx r y).
      { unfold beats in *. intros y Ny Hy. destruct mx; [exact (sf_trans r acc' y Nr K4 Ny B Hy)|exact (sf_trans y acc' r Ny K4 Nr Hy B)]. }
      intros y [<-|[<-|Hy]]; [apply T; assumption|apply T; assumption|]. apply Hb. right. exact Hy.
Qed.

Lemma minmax_numbers : forall W (mx : bool) (args : list val) l fs, passes args l -> Forall2 float_of l fs -> Forall (fun x => x <> S754_nan) fs ->
  match l with v :: _ => is_number v | [] => False end ->
  exists r, calls W (if mx then "max" else "min") args (VFloat r) /\ In r fs /\ forall x, In x fs -> beats mx r x.
Proof.
  intros W mx args l fs HP H HN Hn.
  destruct l as [|v a]; [contradiction|]. inversion H as [|? x ? fs' Hv H']; subst. inversion HN as [|? ? Nx HN']; subst.
  destruct (minmax_loop W mx a fs' H' HN' 0%nat x Nx) as (r & E & Hin & Hb & _).
  exists r. split; [|split; assumption]. apply calls_call. intros t.
  assert (G : forall fs, fn_minmax W (arithf mx) fs args = VFloat r).
  { intros fs. rewrite (minmax_passes W _ _ args _ HP). 
    assert (G : minMaxArray W (v :: a) (arithf mx) fs = arith_loop W (arithf mx) 0 f_zero (v :: a))
      by (destruct v; try contradiction; reflexivity).
    rewrite G. cbn [arith_loop]. destruct (float_of_cvf W _ _ Hv) as (C & A). rewrite A, C. cbn [negb].
    replace (arithf mx 0 f_zero x) with x by (destruct mx; reflexivity). exact E. }
  destruct mx.
  - transitivity (OK (E := rerr) (fn_minmax W maxArith maxString args, t)); [reflexivity|]. do 2 f_equal. apply (G maxString).
  - transitivity (OK (E := rerr) (fn_minmax W minArith minString args, t)); [reflexivity|]. do 2 f_equal. apply (G minString).
Qed.

Lemma string_loop_min : forall ss i acc, exists r,
  string_loop minString (S i) acc (map VStr ss) = VStr r /\ In r (acc :: ss) /\ forall x, In x (acc :: ss) -> bltb x r = false.
Proof.
  induction ss as [|s ss IH]; intros i acc; cbn [map string_loop].
  - exists acc. split; [reflexivity|]. split; [left; reflexivity|]. intros x [<-|[]]. apply bltb_false. auto.
  - set (acc' := minString (S i) acc s).
    assert (K : (acc' = acc \/ acc' = s) /\ bltb acc acc' = false /\ bltb s acc' = false).
    { unfold acc', minString. cbn [Nat.eqb orb]. destruct (bltb s acc) eqn:E; repeat split; auto; apply bltb_false; auto.
      left. apply bltb_lex. exact E. }
    destruct K as (K1 & K2 & K3).
    destruct (IH (S i) acc') as (r & E & Hin & Hb). exists r. split; [exact E|].
    assert (T : forall x, bltb x acc' = false -> bltb x r = false).
    { assert (B := Hb acc' (or_introl eq_refl)). intros x Hx. apply bltb_false in B. apply bltb_false in Hx. apply bltb_false.
      destruct B as [B| ->]; destruct Hx as [Hx| ->]; auto. left. eapply lex_trans; eassumption. }
    split.
    + destruct Hin as [<-|Hin]; [destruct K1 as [->| ->]; cbn; auto|cbn; auto].
    + intros y [<-|[<-|Hy]]; [apply T; exact K2|apply T; exact K3|]. apply Hb. right. exact Hy.
Qed.

(** both "min" and "max" of strings: maxString is minString *)
Lemma minmax_strings : forall W (mx : bool) args l ss, passes args l -> l = map VStr ss -> ss <> [] ->
  exists r, calls W (if mx then "max" else "min") args (VStr r) /\ In r ss /\ forall x, In x ss -> r = x \/ lex_lt r x.
Proof.
  intros W mx args l ss HP -> Hn. destruct ss as [|s ss]; [congruence|].
  destruct (string_loop_min ss 0%nat s) as (r & E & Hin & Hb). exists r.
  split; [|split; [exact Hin|]].
  - apply calls_call. intros t.
    assert (G : forall fa, fn_minmax W fa minString args = VStr r).
    { intros fa. rewrite (minmax_passes W _ _ args _ HP). exact E. }
    destruct mx.
    + transitivity (OK (E := rerr) (fn_minmax W maxArith minString args, t)); [reflexivity|]. rewrite G. reflexivity.
    + transitivity (OK (E := rerr) (fn_minmax W minArith minString args, t)); [reflexivity|]. rewrite G. reflexivity.
  - intros x Hx. specialize (Hb x Hx). apply bltb_false in Hb. tauto.
Qed.

(** neither all numbers nor all strings *)
Lemma minmax_bad : forall W (mx : bool) args l, passes args l -> l <> [] ->
  match l with
  | VStr _ :: a => Exists (fun v => forall s, v <> VStr s) a
  | v :: a => ~ is_number v \/ Exists (fun v => ~ numeric v) a
  | [] => False
  end -> calls W (if mx then "max" else "min") args (VErr KType).
Proof.
  intros W mx args l HP Hn H. apply calls_call. intros t.
  assert (G : forall fa fs, minMaxArray W l fa fs = VErr KType).
  { intros fa fs. destruct l as [|v a]; [congruence|].
    assert (Num : Exists (fun v => ~ numeric v) a -> arith_loop W fa 0 f_zero (v :: a) = VErr KType).
    { intros X. apply arith_loop_bad. right. exact X. }
    assert (Str : forall s, Exists (fun v => forall s, v <> VStr s) a -> string_loop fs 0 [] (VStr s :: a) = VErr KType).
    { intros s X. cbn [string_loop]. generalize 1%nat (fs 0%nat [] s). clear Num H HP Hn. induction X as [v0 a X|v0 a X IH]; intros i acc.
      - destruct v0; try reflexivity. exfalso; eapply X; reflexivity.
      - cbn [string_loop]. destruct v0; try reflexivity. apply IH. }
    destruct v; try reflexivity; try (apply Num; destruct H as [H|H]; [exfalso; apply H; exact I|exact H]).
    apply Str. exact H. }
  destruct mx.
  - transitivity (OK (E := rerr) (fn_minmax W maxArith maxString args, t)); [reflexivity|].
    rewrite (minmax_passes W _ _ args _ HP), G. reflexivity.
  - transitivity (OK (E := rerr) (fn_minmax W minArith minString args, t)); [reflexivity|].
    rewrite (minmax_passes W _ _ args _ HP), G. reflexivity.
Qed.

Lemma minmax_empty : forall W (mx : bool) args, args = [] \/ args = [VArr []] -> calls W (if mx then "max" else "min") args VNil.
Proof. intros W mx args H. destruct mx; destruct H as [-> | ->]; by_call. Qed.

(** ** abs, ceil, floor, to_number *)
Lemma abs_int64 : forall W z, -9223372036854775808 <= z <= 9223372036854775807 ->
  calls W "abs" [VInt64 z] (if z =? -9223372036854775808 then VErr KOverflow else VInt64 (Z.abs z)).
Proof.
  intros W z H. apply calls_call. intros t.
  transitivity (OK (E := rerr) (fn_abs (VInt64 z), t)); [reflexivity|]. do 2 f_equal. unfold fn_abs.
  destruct (Z.ltb_spec z 0).
  - destruct (Z.eqb_spec z (-9223372036854775808)) as [->|N]; [reflexivity|].
    assert (E : neg64 z = - z).
    { unfold neg64. symmetry. apply reduces_wrap. split; [lia|exists 0; lia]. }
    cbv zeta. rewrite E. destruct (Z.ltb_spec (- z) 0); [lia|]. f_equal. lia.
  - destruct (Z.eqb_spec z (-9223372036854775808)); [lia|]. f_equal. lia.
Qed.

Lemma abs_int : forall W z, -9223372036854775808 <= z <= 9223372036854775807 ->
  calls W "abs" [VInt z] (if z =? -9223372036854775808 then VInt64 z else VInt64 (Z.abs z)).
Proof.
  intros W z H. apply calls_call. intros t.
  transitivity (OK (E := rerr) (fn_abs (VInt z), t)); [reflexivity|]. do 2 f_equal. unfold fn_abs.
  destruct (Z.ltb_spec z 0).
  - destruct (Z.eqb_spec z (-9223372036854775808)) as [->|N]; [reflexivity|].
    assert (E : neg64 z = - z).
    { unfold neg64. symmetry. apply reduces_wrap. split; [lia|exists 0; lia]. }
    rewrite E. f_equal. lia.
  - destruct (Z.eqb_spec z (-9223372036854775808)); [lia|]. f_equal. lia.
Qed.

Lemma abs_float : forall W f, exists g, calls W "abs" [VFloat f] (VFloat g) /\
  (forall q, real_of f = Some q -> exists q', real_of g = Some q' /\ (q' == Qabs q)%Q) /\
  (forall s, f = S754_infinity s -> g = S754_infinity false) /\ (f = S754_nan -> g = S754_nan).
Proof.
  intros W f. exists (if f_ltb f f_zero then f_neg f else f). split; [|split; [|split]].
  - apply calls_call. intros t. transitivity (OK (E := rerr) (fn_abs (VFloat f), t)); [reflexivity|]. do 2 f_equal. unfold fn_abs.
    destruct (f_ltb f f_zero); reflexivity.
  - intros q E. destruct f as [s|s| |s m e]; try discriminate E.
    + injection E as <-. exists 0%Q. split; reflexivity.
    + destruct (real_opp _ _ E) as (q' & E' & H'). destruct (real_finite s m e) as (q0 & E0 & H0). rewrite E in E0. injection E0 as <-.
      pose proof (expo_pos e) as P.
      destruct s; cbn [f_ltb SFltb SFcompare f_zero].
      * exists q'. split; [exact E'|]. rewrite H', Qabs_neg; [reflexivity|].
        rewrite H0. setoid_replace 0%Q with (inject_Z 0 * expo e)%Q by reflexivity.
        apply Qmult_le_r; [exact P|]. rewrite <- Zle_Qle. cbn. lia.
      * exists q. split; [exact E|]. rewrite Qabs_pos; [reflexivity|].
        rewrite H0. setoid_replace 0%Q with (inject_Z 0 * expo e)%Q by reflexivity.
        apply Qmult_le_r; [exact P|]. rewrite <- Zle_Qle. cbn. lia.
  - intros s ->. destruct s; reflexivity.
  - intros ->. reflexivity.
Qed.

Lemma abs_other : forall W f v, In f ["abs"; "ceil"; "floor"; "to_number"]%string -> ~ is_number v ->
  (f = "to_number"%string -> forall s, v <> VStr s) -> calls W f [v] (VErr KType).
Proof.
  intros W f v Hf Hv Hs. cbn [In] in Hf. destruct Hf as [<-|[<-|[<-|[<-|[]]]]]; apply calls_call; intros t;
    destruct v; try reflexivity; try (exfalso; apply Hv; exact I). exfalso; eapply Hs; reflexivity.
Qed.

Lemma round_int : forall W f v, In f ["ceil"; "floor"; "to_number"]%string -> (exists z, v = VInt z \/ v = VInt64 z) -> calls W f [v] v.
Proof.
  intros W f v Hf (z & [-> | ->]); cbn [In] in Hf; destruct Hf as [<-|[<-|[<-|[]]]]; by_call.
Qed.

Lemma floor_computes : forall W f q, double f -> real_of f = Some q -> exists g n,
  calls W "floor" [VFloat f] (VFloat g) /\ whole g n /\ (inject_Z n <= q)%Q /\ (q < inject_Z (n + 1))%Q.
Proof.
  intros W f q G E. exists (f_floor f). destruct f as [s|s| |s m e]; try discriminate E.
  - exists 0. injection E as <-. split; [by_call|]. split; [exists 0%Q; split; reflexivity|]. split; [discriminate|reflexivity].
  - destruct (floor_exact s m e G) as (n & q' & Hw & E' & H1 & H2). rewrite E in E'. injection E' as <-.
    exists n. split; [by_call|]. auto.
Qed.

Lemma ceil_computes : forall W f q, double f -> real_of f = Some q -> exists g n,
  calls W "ceil" [VFloat f] (VFloat g) /\ whole g n /\ (inject_Z (n - 1) < q)%Q /\ (q <= inject_Z n)%Q.
Proof.
  intros W f q G E. exists (f_ceil f). destruct f as [s|s| |s m e]; try discriminate E.
  - exists 0. injection E as <-. split; [by_call|]. split; [exists 0%Q; split; [destruct s; reflexivity|reflexivity]|]. split; [reflexivity|discriminate].
  - destruct (ceil_exact s m e G) as (n & q' & Hw & E' & H1 & H2). rewrite E in E'. injection E' as <-.
    exists n. split; [by_call|]. auto.
Qed.

Lemma round_special : forall W f x, In f ["ceil"; "floor"]%string -> real_of x = None -> calls W f [VFloat x] (VFloat x).
Proof.
  intros W f x Hf E. destruct x as [s|[]| |s m e]; try discriminate E.
  - cbn [In] in Hf. destruct Hf as [<-|[<-|[]]]; by_call.
  - cbn [In] in Hf. destruct Hf as [<-|[<-|[]]]; by_call.
  - cbn [In] in Hf. destruct Hf as [<-|[<-|[]]]; by_call.
Qed.

Lemma to_number_string : forall W s, calls W "to_number" [VStr s]
  (match o_parse_float (w_text W) s with Some f => VFloat f | None => VErr (KNumber s) end).
Proof. intros. by_call. Qed.
Lemma to_number_float : forall W f, calls W "to_number" [VFloat f] (VFloat f).
Proof. intros. by_call. Qed.

(** ** calls *)
Lemma call_unknown : forall W id args, (forall n a, In (n, a) function_table -> id <> b_of n) ->
  raises W OpCall (VName id :: args) (RNoFunction id).
Proof.
  intros W id args H. apply raises_call. intros t. unfold call.
  assert (L : lookup id functions = None).
  { assert (Hn : forall n, In n (map fst function_table) -> beqb id (b_of n) = false).
    { intros n Hi. apply in_map_iff in Hi. destruct Hi as ([n' a] & <- & Hi). cbn [fst].
      destruct (beqb id (b_of n')) eqn:E; [|reflexivity]. apply beqb_eq in E. exfalso. exact (H _ _ Hi E). }
    unfold functions. cbn [lookup].
    repeat match goal with
    | |- context [beqb id (b_of ?n)] => rewrite (Hn n) by (cbn [map fst function_table In]; tauto)
    end. reflexivity. }
  rewrite L. reflexivity.
Qed.

Lemma call_arity : forall W f n args, In (f, Some n) function_table -> length args <> n ->
  raises W OpCall (VName (b_of f) :: args) (RArgCount (b_of f) (Z.of_nat n) (Z.of_nat (length args))).
Proof.
  intros W f n args H Hn. apply raises_call. intros t.
  assert (L : exists fn, lookup (b_of f) functions = Some fn /\ fn_na fn = Some (Z.of_nat n)).
  { cbn [In function_table] in H.
    repeat match goal with X : _ \/ _ |- _ => destruct X as [X|X] end; try contradiction; try discriminate H;
      injection H as <- <-; eexists; split; reflexivity. }
  destruct L as (fn & L & N). unfold call. rewrite L, N.
  destruct (Z.eqb_spec (Z.of_nat (length args)) (Z.of_nat n)); [lia|reflexivity].
Qed.

Lemma call_value : forall W f a args, In (f, a) function_table -> match a with Some n => length args = n | None => True end ->
  forall t, exists v t', operates W t OpCall (VName (b_of f) :: args) (OK (v, t')) /\ (f <> "keys"%string -> t' = t).
Proof.
  intros W f a args H Ha t.
  assert (K : exists v t', call W t (b_of f) args = OK (v, t') /\ (f <> "keys"%string -> t' = t)).
  { cbn [In function_table] in H.
    repeat match goal with X : _ \/ _ |- _ => destruct X as [X|X] end; try contradiction; injection H as <- <-.
    all: try solve [eexists; eexists; split; [reflexivity|auto]].
    all: try solve [destruct args as [|x [|y [|]]]; try discriminate Ha; eexists; eexists; split; [reflexivity|auto]].
    destruct args as [|x [|]]; try discriminate Ha. destruct x; eexists; eexists; (split; [reflexivity|congruence]). }
  destruct K as (v & t' & E & Ht). exists v, t'. split; [|exact Ht].
  assert (A : apply_op W t OpCall (VName (b_of f) :: args) = OK (v, t')) by (cbn [apply_op]; exact E).
  rewrite <- A. apply operates_apply; [cbn; lia|rewrite A; discriminate].
Qed.
