(** Operators and functions: the lemmas the properties are instances of. *)
From Coq Require Import Permutation QArith Qabs.
From Verif Require Import Syntax Value Program Machine Fns SpecSelect SpecRun SpecOp SpecExpr OpProofs FloatProofs ArithProofs
  LogicProofs FnProofs WalkProofs StepProofs MachineProofs Eval.
Local Open Scope Z_scope.

Lemma sums_exact : forall W o a b, sum_op o ->
  (exists v, sums_to o a b v) /\ forall v, sums_to o a b v <-> computes W o [a; b] v.
Proof.
  intros W o a b H. split; [apply sums_total|]. intros v. split; [apply sums_computes; exact H|].
  intros C. destruct (sums_total o a b) as [w K].
  assert (w = v); [|subst; exact K].
  apply (computes_unique W o [a; b]); [reflexivity|apply sums_computes; assumption|exact C].
Qed.

Lemma divided_exact : forall W o a b, div_op o -> proper a -> proper b ->
  (exists v, divided o a b v) /\ forall v, divided o a b v <-> computes W o [a; b] v.
Proof.
  intros W o a b H Pa Pb. split; [exists (div_val W o a b); apply divided_val; assumption|].
  intros v. split; [apply divided_computes; assumption|].
  intros C. assert (K := divided_val W o a b H Pa Pb).
  assert (E : div_val W o a b = v); [|rewrite <- E; exact K].
  apply (computes_unique W o [a; b]); [reflexivity|apply div_computes; exact H|exact C].
Qed.

Lemma min_over_minus_one : forall W b, b = VInt64 (-1) \/ b = VInt (-1) ->
  computes W OpDiv [VInt64 (-9223372036854775808); b] (VInt64 (-9223372036854775808)) /\
  computes W OpMod [VInt64 (-9223372036854775808); b] (VInt64 0).
Proof.
  intros W b H. split; apply divided_computes.
  - left; reflexivity.
  - cbn. lia.
  - destruct H; subst; cbn; lia.
  - apply (DvInt OpDiv _ _ (-9223372036854775808) (-1) 9223372036854775808 0).
    + constructor.
    + destruct H; subst; constructor.
    + discriminate.
    + split; [reflexivity|split; [reflexivity|left; reflexivity]].
    + split; [lia|]. exists 1. reflexivity.
  - right; reflexivity.
  - cbn. lia.
  - destruct H; subst; cbn; lia.
  - apply (DvInt OpMod _ _ (-9223372036854775808) (-1) 9223372036854775808 0).
    + constructor.
    + destruct H; subst; constructor.
    + discriminate.
    + split; [reflexivity|split; [reflexivity|left; reflexivity]].
    + split; [lia|]. exists 0. reflexivity.
Qed.

Lemma or_exact : forall W a b v, or_value W a b v <-> computes W OpOr [a; b] v.
Proof.
  intros. split; [apply or_computes|]. intros C. destruct (or_total W a b) as [w K].
  assert (w = v); [|subst; exact K].
  apply (computes_unique W OpOr [a; b]); [reflexivity|apply or_computes; exact K|exact C].
Qed.
Lemma and_exact : forall W a b v, and_value W a b v <-> computes W OpAnd [a; b] v.
Proof.
  intros. split; [apply and_computes|]. intros C. destruct (and_total W a b) as [w K].
  assert (w = v); [|subst; exact K].
  apply (computes_unique W OpAnd [a; b]); [reflexivity|apply and_computes; exact K|exact C].
Qed.
Lemma not_exact : forall W a, exists r, computes W OpNot [a] (VBool r) /\ (r = true <-> falsy W a).
Proof.
  intros W a. destruct (not_computes W a) as [[F C]|[F C]].
  - exists true. split; [exact C|tauto].
  - exists false. split; [exact C|]. split; [discriminate|tauto].
Qed.
Lemma logic_exact : forall W a b v,
  (or_value W a b v <-> computes W OpOr [a; b] v) /\ (and_value W a b v <-> computes W OpAnd [a; b] v) /\
  exists r, computes W OpNot [a] (VBool r) /\ (r = true <-> falsy W a).
Proof. intros. split; [apply or_exact|split; [apply and_exact|apply not_exact]]. Qed.

Lemma compares_exact : forall W o a b, rel_op o -> ~ failure a -> ~ failure b ->
  (exists P, compares o a b P) /\
  forall P, compares o a b P -> exists r, computes W o [a; b] (VBool r) /\ (r = true <-> P).
Proof. intros. split; [apply compares_total|]. intros P K. apply compares_computes; assumption. Qed.

Lemma float_order : forall x y p q, double x -> double y -> real_of x = Some p -> real_of y = Some q ->
  (f_lt x y <-> (p < q)%Q) /\ (f_eq x y <-> (p == q)%Q).
Proof.
  intros x y p q Dx Dy Rx Ry. unfold f_lt, f_eq. rewrite (compare_real x y p q Dx Dy Rx Ry).
  rewrite Qlt_alt, Qeq_alt. split; split; intro H; [congruence|rewrite H; reflexivity|congruence|rewrite H; reflexivity].
Qed.
Lemma nan_order : forall x y, x = S754_nan \/ y = S754_nan -> ~ f_lt x y /\ ~ f_eq x y.
Proof.
  intros x y [H|H]; subst; unfold f_lt, f_eq; [|destruct x as [[]|[]| |[] ? ?]]; cbn; split; discriminate.
Qed.
Lemma infinite_order : forall x q, real_of x = Some q ->
  f_lt (S754_infinity true) x /\ f_lt x (S754_infinity false) /\ f_lt (S754_infinity true) (S754_infinity false).
Proof. intros [[]|[]| |[] m e] q H; try discriminate H; repeat split; reflexivity. Qed.

Lemma prod_empty : forall W, calls W "prod" [VArr []] VNil.
Proof. intros W. by_call. Qed.

Lemma folds_exact : forall W a fs, Forall2 float_of a fs ->
  calls W "sum" [VArr a] (VFloat (fold_left (SFadd 53 1024) fs (S754_zero false))) /\
  calls W "prod" [VArr a] (match fs with [] => VNil | x :: r => VFloat (fold_left (SFmul 53 1024) r x) end) /\
  calls W "avg" [VArr a] (VFloat (SFdiv 53 1024 (fold_left (SFadd 53 1024) fs (S754_zero false)) (nearest (Z.of_nat (length a))))).
Proof.
  intros W a fs H. split; [apply sum_computes; exact H|]. split; [|apply avg_computes; exact H].
  destruct H as [|v x a fs Hv Ha]; [apply prod_empty|]. apply prod_computes; assumption.
Qed.
Lemma folds_fail : forall W f v, In f ["sum"; "prod"; "avg"]%string ->
  (forall l, v = VArr l -> Exists (fun x => ~ numeric x) l) -> exists k, calls W f [v] (VErr k).
Proof.
  intros W f v Hf H. exists KType. destruct v; try (apply fold_not_array; [exact Hf|discriminate]).
  apply fold_bad; [exact Hf|]. apply H; reflexivity.
Qed.

Lemma keys_computes : forall W t m, orders_ok W -> exists ks,
  operates W t OpCall [VName (b_of "keys"); VObj m] (OK (VArr (map VStr ks), S t)) /\ Permutation ks (map fst m).
Proof.
  intros W t m Ho. exists (map fst (reorder (w_perm W t (length m)) m)). split.
  - change (operates W t OpCall (VName (b_of "keys") :: [VObj m])
      (OK (VArr (map VStr (map fst (reorder (w_perm W t (length m)) m))), S t))).
    assert (E : call W t (b_of "keys") [VObj m] = OK (VArr (map VStr (map fst (reorder (w_perm W t (length m)) m))), S t)).
    { rewrite map_map. reflexivity. }
    rewrite <- E. change (call W t (b_of "keys") [VObj m]) with (apply_op W t OpCall [VName (b_of "keys"); VObj m]).
    apply operates_apply; [cbn; lia|]. change (call W t (b_of "keys") [VObj m] <> OutOfFuel). rewrite E. discriminate.
  - apply Permutation_map. apply reorder_perm. apply Ho.
Qed.
Lemma keys_other : forall W v, (forall m, v <> VObj m) -> calls W "keys" [v] (VErr KType).
Proof. intros W v H. destruct v; try by_call. destruct (H m eq_refl). Qed.

Lemma tokenize_computes : forall W s p,
  calls W "tokenize" [VStr s; VStr p]
    (if o_re_ok (w_text W) p then VArr (map VStr (w_re_split W p s)) else VErr (KRegexp p)).
Proof. intros W s p. by_call. Qed.
Lemma tokenize_other : forall W a b, ~ (exists s p, a = VStr s /\ b = VStr p) -> calls W "tokenize" [a; b] (VErr KType).
Proof.
  intros W a b H. destruct a; try by_call. destruct b; try by_call. destruct H. eauto.
Qed.

(** ** min and max *)
Lemma max_numbers : forall W args l fs, passes args l -> Forall2 float_of l fs -> Forall (fun x => x <> S754_nan) fs ->
  match l with v :: _ => is_number v | [] => False end ->
  (exists r, calls W "max" args (VFloat r) /\ In r fs /\ forall x, In x fs -> ~ f_lt r x) /\
  (exists r, calls W "min" args (VFloat r) /\ In r fs /\ forall x, In x fs -> ~ f_lt x r).
Proof.
  intros W args l fs P F N H. split.
  - destruct (minmax_numbers W true args l fs P F N H) as (r & C & I & B). exists r. split; [exact C|split; [exact I|]].
    intros x Hx. apply f_ltb_lt. exact (B x Hx).
  - destruct (minmax_numbers W false args l fs P F N H) as (r & C & I & B). exists r. split; [exact C|split; [exact I|]].
    intros x Hx. apply f_ltb_lt. exact (B x Hx).
Qed.
Lemma min_strings : forall W args l ss, passes args l -> l = map VStr ss -> ss <> [] ->
  exists r, calls W "min" args (VStr r) /\ In r ss /\ forall x, In x ss -> r = x \/ lex_lt r x.
Proof. intros W. exact (minmax_strings W false). Qed.
Lemma max_strings_min : forall W args l ss, passes args l -> l = map VStr ss -> ss <> [] ->
  exists r, calls W "max" args (VStr r) /\ In r ss /\ forall x, In x ss -> r = x \/ lex_lt r x.
Proof. intros W. exact (minmax_strings W true). Qed.
Lemma minmax_other : forall W f, In f ["max"; "min"]%string ->
  calls W f [] VNil /\ calls W f [VArr []] VNil /\ (forall v, (forall l, v <> VArr l) -> calls W f [v] (VErr KType)) /\
  (forall args l, passes args l ->
    match l with
    | VStr _ :: a => Exists (fun v => forall s, v <> VStr s) a
    | v :: a => ~ is_number v \/ Exists (fun v => ~ numeric v) a
    | [] => False
    end -> calls W f args (VErr KType)).
Proof.
  assert (G : forall W (mx : bool), let f := (if mx then "max" else "min")%string in
    calls W f [] VNil /\ calls W f [VArr []] VNil /\ (forall v, (forall l, v <> VArr l) -> calls W f [v] (VErr KType)) /\
    (forall args l, passes args l ->
      match l with
      | VStr _ :: a => Exists (fun v => forall s, v <> VStr s) a
      | v :: a => ~ is_number v \/ Exists (fun v => ~ numeric v) a
      | [] => False
      end -> calls W f args (VErr KType))).
  { intros W mx f. split; [apply minmax_empty; auto|]. split; [apply minmax_empty; auto|]. split.
    - intros v H. unfold f. destruct mx; destruct v; try by_call; exfalso; eapply H; reflexivity.
    - intros args l P H. apply (minmax_bad W mx args l P); [intros ->; exact H|exact H]. }
  intros W f [<-|[<-|[]]]; [apply (G W true)|apply (G W false)].
Qed.
Lemma max_strings_wrong : exists W args l ss r x, passes args l /\ l = map VStr ss /\ calls W "max" args (VStr r) /\
  In x ss /\ lex_lt r x.
Proof.
  exists (mkWorld (mkText (fun _ => None) (fun _ => true)) (fun _ _ => false) (fun _ _ => []) (fun _ => []) (fun _ => [])
    (fun _ => 0) (fun _ n => seq 0 n)).
  exists [VStr (b_of "a"); VStr (b_of "b")], [VStr (b_of "a"); VStr (b_of "b")], [b_of "a"; b_of "b"], (b_of "a"), (b_of "b").
  split; [constructor|]. split; [reflexivity|]. split; [by_call|]. split; [right; left; reflexivity|].
  apply LxByte. reflexivity.
Qed.

(** the number returned for integers is the double nearest to it: not always the integer *)
Lemma max_rounds : forall W, calls W "max" [VArr [VInt64 9007199254740993]] (VFloat (S754_finite false 4503599627370496 1)) /\
  real_of (S754_finite false 4503599627370496 1) = Some (inject_Z 9007199254740992).
Proof. intros W. split; [|reflexivity]. by_call. Qed.

(** ** abs *)
Lemma abs_exact : forall W v, proper v ->
  (forall z, v = VInt64 z -> calls W "abs" [v] (if z =? -9223372036854775808 then VErr KOverflow else VInt64 (Z.abs z))) /\
  (forall z, v = VInt z -> z <> -9223372036854775808 -> calls W "abs" [v] (VInt64 (Z.abs z))) /\
  (forall f, v = VFloat f -> exists g, calls W "abs" [v] (VFloat g) /\
     (forall q, real_of f = Some q -> exists q', real_of g = Some q' /\ (q' == Qabs q)%Q) /\
     (forall s, f = S754_infinity s -> g = S754_infinity false) /\ (f = S754_nan -> g = S754_nan)) /\
  (~ is_number v -> calls W "abs" [v] (VErr KType)).
Proof.
  intros W v P. split; [|split; [|split]].
  - intros z ->. apply abs_int64. exact P.
  - intros z -> Hz. assert (K := abs_int W z P). destruct (Z.eqb_spec z (-9223372036854775808)); [contradiction|exact K].
  - intros f ->. apply abs_float.
  - intros H. apply abs_other; [left; reflexivity|exact H|discriminate].
Qed.
Lemma abs_wrong : forall W, calls W "abs" [VInt (-9223372036854775808)] (VInt64 (-9223372036854775808)).
Proof. intros W. by_call. Qed.

Lemma round_exact_all : forall W f,  In f ["ceil"; "floor"]%string ->
  (forall z, calls W f [VInt z] (VInt z) /\ calls W f [VInt64 z] (VInt64 z)) /\
  (forall x, real_of x = None -> calls W f [VFloat x] (VFloat x)) /\
  (forall x q, double x -> real_of x = Some q -> exists g n, calls W f [VFloat x] (VFloat g) /\ whole g n /\
     (if String.eqb f "floor" then (inject_Z n <= q)%Q /\ (q < inject_Z (n + 1))%Q
      else (inject_Z (n - 1) < q)%Q /\ (q <= inject_Z n)%Q)) /\
  (forall v, ~ is_number v -> calls W f [v] (VErr KType)).
Proof.
  intros W f Hf.
  assert (H4 : In f ["ceil"; "floor"; "to_number"]%string) by (cbn in Hf |- *; tauto).
  assert (H5 : In f ["abs"; "ceil"; "floor"; "to_number"]%string) by (cbn in Hf |- *; tauto).
  split; [|split; [|split]].
  - intros z. split; apply round_int; eauto.
  - intros x Hx. apply round_special; assumption.
  - intros x q D R. destruct Hf as [<-|[<-|[]]]; cbn [String.eqb].
    + apply (ceil_computes W x q D R).
    + apply (floor_computes W x q D R).
  - intros v Hv. apply abs_other; [exact H5|exact Hv|].
    intros ->. destruct Hf as [Hf|[Hf|[]]]; discriminate Hf.
Qed.
Lemma to_number_exact : forall W v,
  calls W "to_number" [v]
    (match v with
     | VInt _ | VInt64 _ | VFloat _ => v
     | VStr s => match o_parse_float (w_text W) s with Some f => VFloat f | None => VErr (KNumber s) end
     | _ => VErr KType
     end).
Proof. intros W v. destruct v; by_call. Qed.

Lemma match_errors : forall W a b, ~ failure a -> ~ failure b ->
  (forall pat, b = VStr pat -> o_re_ok (w_text W) pat = false -> raises W OpMatch [a; b] (RBadRegexp pat)) /\
  ((forall p, b <> VRegexp p) -> (forall p, b <> VStr p) -> raises W OpMatch [a; b] (RMatchRight b)) /\
  (forall pat, (forall s, a <> VStr s) -> b = VRegexp pat \/ (b = VStr pat /\ o_re_ok (w_text W) pat = true) ->
     raises W OpMatch [a; b] (RMatchLeft a)).
Proof.
  intros W a b Ha Hb. split; [|split].
  - intros pat -> Hp. apply match_bad; assumption.
  - intros H1 H2. apply match_right; assumption.
  - intros pat H1 H2. apply match_left with pat; assumption.
Qed.

Lemma length_exact : forall W,
  (forall s, exists n, code_points s n /\ calls W "length" [VStr s] (VInt64 n) /\ dot_length W (VStr s) (VInt64 n)) /\
  (forall l, calls W "length" [VArr l] (VInt64 (Z.of_nat (length l))) /\ dot_length W (VArr l) (VInt64 (Z.of_nat (length l)))) /\
  (forall m, calls W "length" [VObj m] (VInt64 (Z.of_nat (length m))) /\ dot_length W (VObj m) (VInt64 (Z.of_nat (length m)))) /\
  (forall v, (forall s, v <> VStr s) -> (forall l, v <> VArr l) -> (forall m, v <> VObj m) ->
     calls W "length" [v] VNil /\ dot_length W v (VErr KFailure)).
Proof.
  intros W. split; [|split; [|split]].
  - intros s. destruct (code_points_total (length s) s (le_n _)) as [n H]. exists n. split; [exact H|]. apply length_string; exact H.
  - apply length_array.
  - apply length_object.
  - apply length_other.
Qed.
