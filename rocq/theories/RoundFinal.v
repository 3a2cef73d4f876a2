(** Floating-point operators and functions of the language against exact arithmetic. *)
From Coq Require Import QArith Qabs.
From Verif Require Import Syntax Value Machine MachineProofs SpecOp SpecExpr SpecRound FloatProofs ArithProofs IndexProofs ExprFinal RoundProofs.
Import ListNotations.
Local Open Scope Z_scope.

Lemma double_op_double : forall o x y f, double_op o x y f -> double f.
Proof.
  intros o x y f [(p & q & _ & _ & _ & R & _)|H].
  - inversion R; subst; [assumption|reflexivity].
  - inversion H; subst; reflexivity.
Qed.

Lemma as_double_double : forall v x, proper v -> as_double v x -> double x.
Proof.
  intros v x Hv [->|(z & _ & R & _)]; [exact Hv|]. inversion R; subst; [assumption|reflexivity].
Qed.

Lemma operators_rounded : forall W o a b x y, sum_op o \/ o = OpDiv /\ (forall s, y <> S754_zero s) ->
  proper a -> proper b -> is_float a \/ is_float b -> as_double a x -> as_double b y ->
  (exists f, double_op o x y f) /\ forall v, computes W o [a; b] v <-> exists f, v = VFloat f /\ double_op o x y f.
Proof.
  intros W o a b x y Ho Pa Pb Fl Hx Hy.
  pose proof (as_double_double a x Pa Hx) as Dx. pose proof (as_double_double b y Pb Hy) as Dy.
  assert (Ho' : sum_op o \/ o = OpDiv) by tauto.
  split; [exists (machine_op o x y); apply machine_double_op; assumption|].
  apply as_double_is in Hx, Hy.
  assert (C : computes W o [a; b] (VFloat (machine_op o x y))).
  { destruct Ho as [Hs|[-> Hz]].
    - apply sums_exact; [exact Hs|]. replace (machine_op o x y) with (ieee_op o x y) by (destruct Hs as [->|[->| ->]]; reflexivity).
      apply SmFloat; assumption.
    - apply divided_exact; [left; reflexivity|exact Pa|exact Pb|]. apply DvFloat; auto. }
  intro v. split.
  - intro H. exists (machine_op o x y). split; [|apply machine_double_op; assumption].
    apply (computes_unique W o [a; b]); [exact H|exact C| |cbn; lia].
    destruct Ho' as [[->|[->| ->]]| ->]; split; reflexivity.
  - intros (f & -> & Hf). apply double_op_is in Hf; [|assumption..]. subst f. exact C.
Qed.

Lemma in_turn_is : forall o l x f, sum_op o \/ o = OpDiv -> double x -> Forall double l ->
  (in_turn o x l f <-> f = fold_left (machine_op o) l x) .
Proof.
  intros o l x f Ho Dx Hl. revert x Dx. induction Hl as [|y l Dy Hl IH]; intros x Dx; cbn [fold_left].
  - split; [intro H; inversion H; reflexivity|intros ->; constructor].
  - pose proof (machine_double_op o x y Ho Dx Dy) as M. pose proof (double_op_double _ _ _ _ M) as Dm. split.
    + intro H. inversion H as [|? ? z ? ? Hz Ht]; subst. apply double_op_is in Hz; [|assumption..]. subst z. apply IH in Ht; assumption.
    + intros ->. econstructor; [exact M|]. apply IH; [exact Dm|reflexivity].
Qed.

Lemma folds_rounded : forall W a fs, Forall proper a -> Forall2 as_double a fs ->
  (forall v, calls W "sum" [VArr a] v <-> exists f, v = VFloat f /\ in_turn OpAdd (S754_zero false) fs f) /\
  (forall v, calls W "prod" [VArr a] v <->
     match fs with [] => v = VNil | x :: r => exists f, v = VFloat f /\ in_turn OpMul x r f end) /\
  (forall v, calls W "avg" [VArr a] v <-> exists s n f, v = VFloat f /\ in_turn OpAdd (S754_zero false) fs s /\
     as_double (VInt64 (Z.of_nat (length a))) n /\ double_op OpDiv s n f).
Proof.
  intros W a fs Pa Ha.
  assert (Df : Forall double fs).
  { revert Pa. induction Ha as [|v x a fs Hv Ha IH]; intro Pa; [constructor|]. inversion Pa; subst. constructor; [eapply as_double_double; eassumption|auto]. }
  assert (Ha' : Forall2 float_of a fs) by (clear - Ha; induction Ha; constructor; [apply as_double_is|]; assumption).
  destruct (folds_exact W a fs Ha') as (Cs & Cp & Ca).
  assert (U : forall f v w, calls W f [VArr a] v -> calls W f [VArr a] w -> v = w).
  { intros f v w H K. apply (computes_unique W OpCall (VName (b_of f) :: [VArr a])); [exact H|exact K|cbn; lia|cbn; lia]. }
  set (s := fold_left (SFadd 53 1024) fs (S754_zero false)) in *.
  assert (Ts : forall f, in_turn OpAdd (S754_zero false) fs f <-> f = s).
  { intro f. apply in_turn_is; [left; left; reflexivity|reflexivity|exact Df]. }
  assert (Ds : double s).
  { pose proof (proj2 (Ts s) eq_refl) as T. clear - T. assert (G : forall x l f, double x -> in_turn OpAdd x l f -> double f).
    { intros x l f Hx T'. induction T'; [exact Hx|]. apply IHT'. eapply double_op_double; eassumption. }
    eapply G; [|exact T]. reflexivity. }
  split; [|split].
  - intro v. split; [intro H; exists s; split; [eapply U; eassumption|apply Ts; reflexivity]|].
    intros (f & -> & Hf). apply Ts in Hf. subst f. exact Cs.
  - intro v. destruct fs as [|x r].
    + split; [intro H; eapply U; eassumption|intros ->; exact Cp].
    + inversion Df as [|? ? Dx Dr]; subst.
      assert (Tp : forall f, in_turn OpMul x r f <-> f = fold_left (SFmul 53 1024) r x).
      { intro f. apply in_turn_is; [left; right; right; reflexivity|exact Dx|exact Dr]. }
      split; [intro H; exists (fold_left (SFmul 53 1024) r x); split; [eapply U; eassumption|apply Tp; reflexivity]|].
      intros (f & -> & Hf). apply Tp in Hf. subst f. exact Cp.
  - intro v.
    assert (Dn : double_op OpDiv s (nearest (Z.of_nat (length a))) (SFdiv 53 1024 s (nearest (Z.of_nat (length a))))).
    { apply (machine_double_op OpDiv); [right; reflexivity|exact Ds|apply nearest_good]. }
    split.
    + intro H. exists s, (nearest (Z.of_nat (length a))), (SFdiv 53 1024 s (nearest (Z.of_nat (length a)))).
      split; [eapply U; eassumption|]. split; [apply Ts; reflexivity|]. split; [|exact Dn].
      apply as_double_is. constructor. constructor.
    + intros (s' & n & f & -> & Hs & Hn & Hf). apply Ts in Hs. subst s'. apply as_double_is in Hn.
      assert (n = nearest (Z.of_nat (length a))) by (inversion Hn as [|? z Hz]; subst; inversion Hz; subst; reflexivity). subst n.
      apply (double_op_is OpDiv) in Hf; [|right; reflexivity|exact Ds|apply nearest_good]. subst f. exact Ca.
Qed.

(** at most one double is the result *)
Lemma double_op_same : forall o x y f g, sum_op o \/ o = OpDiv -> double x -> double y ->
  double_op o x y f -> double_op o x y g -> f = g.
Proof.
  intros o x y f g Ho Dx Dy Hf Hg. apply double_op_is in Hf, Hg; try assumption. congruence.
Qed.
