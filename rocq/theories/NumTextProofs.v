(** Integers and their texts. *)
From Verif Require Import Syntax Value SpecOp SpecSelect SpecExpr SpecIndex EqProofs IndexProofs.
Import ListNotations.
Local Open Scope Z_scope.

Lemma int_text_decimal : forall z, -9223372036854775808 <= z <= 9223372036854775807 -> int_text (decimal z) z.
Proof. intros z H. apply parse_int_spec, parse_decimal. exact H. Qed.

Lemma int_against_text : forall W v z s, v = VInt z \/ v = VInt64 z ->
  (computes W OpEQ [v; VStr s] (VBool true) <->
     int_text s z \/ (z = 0 /\ (s = [] \/ ((forall n, ~ int_text s n) /\ o_parse_float (w_text W) s <> None)))) /\
  (forall r, computes W OpEQ [v; VStr s] (VBool r) <-> computes W OpEQ [VStr s; v] (VBool r)).
Proof.
  intros W v z s Hv.
  assert (E : eqVal W v (VStr s) = (if badNum W s false then false else z =? cvi W (VStr s))).
  { destruct Hv as [->| ->]; cbn [eqVal typeOf jsType_beq negb eq_mixed isFloat cvs]; destruct (badNum W s false); reflexivity. }
  assert (E' : eqVal W (VStr s) v = eqVal W v (VStr s)).
  { rewrite E. destruct Hv as [->| ->]; cbn [eqVal typeOf jsType_beq negb eq_mixed isFloat cvs]; destruct (badNum W s false); try reflexivity; apply Z.eqb_sym. }
  split.
  - rewrite computes_eq, E.
    destruct s as [|c s].
    + cbn [badNum cvi]. split.
      * intro H. injection H as H. symmetry in H. apply Z.eqb_eq in H. right. auto.
      * intros [H|[-> _]]; [|reflexivity]. apply parse_int_spec in H. discriminate H.
    + cbn [badNum negb andb]. cbn [cvi]. destruct (parse_int (c :: s)) as [n|] eqn:Ep.
      * assert (Hn : int_text (c :: s) n) by (apply parse_int_spec; exact Ep). split.
        -- intro H. injection H as H. symmetry in H. apply Z.eqb_eq in H. subst n. left. exact Hn.
        -- intros [H|(-> & [H|[H _]])]; [|discriminate H|destruct (H n Hn)].
           apply parse_int_spec in H. rewrite Ep in H. injection H as ->. rewrite Z.eqb_refl. reflexivity.
      * assert (Hn : forall n, ~ int_text (c :: s) n) by (intros n K; apply parse_int_spec in K; congruence).
        unfold parse_float. destruct (o_parse_float (w_text W) (c :: s)) as [f|] eqn:Ef; split.
        -- intro H. injection H as H. symmetry in H. apply Z.eqb_eq in H. right. split; [exact H|]. right. split; [exact Hn|discriminate].
        -- intros [H|(-> & _)]; [destruct (Hn _ H)|reflexivity].
        -- intro H. discriminate H.
        -- intros [H|(_ & [H|[_ H]])]; [destruct (Hn _ H)|discriminate H|congruence].
  - intro r. rewrite !computes_eq, E'. reflexivity.
Qed.
