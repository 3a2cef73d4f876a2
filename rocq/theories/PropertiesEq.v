(** Properties of == and != (C35-C37, C68).  [at_same_place P a b]: [P] holds of the values found in
    [a] and [b] by following the same indices and member names. *)
From Verif Require Import Syntax Value SpecDoc SpecSelect SpecExpr SpecOp SpecIndex SpecEq SpecLoose LogicProofs EqProofs LooseProofs Examples.
Local Open Scope Z_scope.

(** ** C35 *)
(** v == v is true for documents without json.Numbers and NaNs. *)
Theorem C35_reflexive_partial : forall W v,
  (forall x, within x v -> json_node x /\ (forall s, x <> VNum s) /\ x <> VFloat S754_nan) ->
  computes W OpEQ [v; v] (VBool true).
Proof. exact reflexive_computes. Qed.
Print Assumptions C35_reflexive_partial.

(** Those are the only documents that do not equal themselves. *)
Theorem C35_exact : forall W v, doc v -> exists r, computes W OpEQ [v; v] (VBool r) /\
  (r = true <-> forall x, within x v -> (forall s, x <> VNum s) /\ x <> VFloat S754_nan).
Proof. exact reflexive_exactly. Qed.
Print Assumptions C35_exact.

(** A json.Number does not equal itself. *)
Theorem C35_refuted : forall W s, computes W OpEQ [VNum s; VNum s] (VBool false).
Proof. exact num_computes. Qed.
Print Assumptions C35_refuted.

Example C35_ex : (forall x, within x x_doc -> json_node x /\ (forall s, x <> VNum s) /\ x <> VFloat S754_nan) /\
  computes x_world OpEQ [x_doc; x_doc] (VBool true).
Proof.
  assert (H : forall x, within x x_doc -> json_node x /\ (forall s, x <> VNum s) /\ x <> VFloat S754_nan).
  { intros x Hx. split; [apply (x_doc_ok x Hx)|].
    repeat match goal with
    | H : within _ (VObj _) |- _ => inversion H; subst; clear H
    | H : within _ (VArr _) |- _ => inversion H; subst; clear H
    | H : within _ x_doc |- _ => unfold x_doc in H
    | H : In _ (_ :: _) |- _ => destruct H as [H|H]
    | H : In _ [] |- _ => destruct H
    | H : (_, _) = (_, _) |- _ => injection H as <- <-
    | H : _ = ?e |- _ => is_var e; subst e
    | H : within _ _ |- _ => inversion H; subst; clear H
    end; split; discriminate. }
  split; [exact H|]. apply reflexive_computes. exact H.
Qed.

(** [1.5, json.Number("7")] is a document *)
Example C35_exact_ex : doc (VArr [VFloat x_half; VNum (b_of "7")]) /\ within (VNum (b_of "7")) (VArr [VFloat x_half; VNum (b_of "7")]) /\
  computes x_world OpEQ [VArr [VFloat x_half; VNum (b_of "7")]; VArr [VFloat x_half; VNum (b_of "7")]] (VBool false).
Proof.
  split; [apply docb_doc; vm_compute; reflexivity|]. split; [eapply WElem; [right; left; reflexivity|constructor]|].
  apply computes_eq. reflexivity.
Qed.

(** ** C36 *)
(** a == b gives the same answer as b == a, if no objects at the same place in both have null
    members. *)
Theorem C36_symmetric_partial : forall W a b v, at_same_place sym_ok a b ->
  (computes W OpEQ [a; b] v <-> computes W OpEQ [b; a] v).
Proof. exact symmetric_computes. Qed.
Print Assumptions C36_symmetric_partial.

(** Arrays are equal if they have equal elements. *)
Theorem C36_arrays : forall W l l',
  computes W OpEQ [VArr l; VArr l'] (VBool true) <-> Forall2 (fun x y => computes W OpEQ [x; y] (VBool true)) l l'.
Proof. exact arrays_computes. Qed.
Print Assumptions C36_arrays.

(** Objects are equal exactly if they have as many members and each member of the left one is
    equal to the right one's of that name or, if there is none, is null. *)
Theorem C36_objects : forall W m m', NoDup (map fst m') ->
  computes W OpEQ [VObj m; VObj m'] (VBool true) <->
  length m = length m' /\
  forall k v, In (k, v) m ->
    (forall w, In (k, w) m' -> computes W OpEQ [v; w] (VBool true)) /\ (~ In k (map fst m') -> nullish v).
Proof. exact objects_computes. Qed.
Print Assumptions C36_objects.

(** {"a": null} == {"b": true} but not {"b": true} == {"a": null}. *)
Theorem C36_refuted : exists a b, doc a /\ doc b /\ forall W,
  computes W OpEQ [a; b] (VBool true) /\ computes W OpEQ [b; a] (VBool false).
Proof. exact asymmetric. Qed.
Print Assumptions C36_refuted.

Example C36_objects_ex : NoDup (map fst [(b_of "b", VBool true)]) /\
  computes x_world OpEQ [VObj [(b_of "a", VNil)]; VObj [(b_of "b", VBool true)]] (VBool true) /\
  nullish VNil /\ ~ In (b_of "a") (map fst [(b_of "b", VBool true)]).
Proof.
  split; [cbn; constructor; [intros []|constructor]|]. split; [apply computes_eq; reflexivity|]. split; [left; reflexivity|].
  intros [H|[]]. discriminate H.
Qed.

(** {"x": [1]} and {"x": 1} *)
Example C36_ex : at_same_place sym_ok (VObj [(b_of "x", VArr [VInt64 1])]) (VObj [(b_of "x", VInt64 1)]) /\
  computes x_world OpEQ [VObj [(b_of "x", VArr [VInt64 1])]; VObj [(b_of "x", VInt64 1)]] (VBool true) /\
  computes x_world OpEQ [VObj [(b_of "x", VInt64 1)]; VObj [(b_of "x", VArr [VInt64 1])]] (VBool true).
Proof.
  split; [|split; apply eq_true; reflexivity].
  intros p x y Hx Hy. destruct p as [|k p].
  - inversion Hx; inversion Hy; subst.
    assert (D : forall v : val, NoDup (map fst [(b_of "x", v)])) by (intros v; cbn; constructor; [intros []|constructor]).
    assert (N : forall v, ~ nullish v -> no_null_members (VObj [(b_of "x", v)])).
    { intros v Hv m k u E Hin. injection E as <-. destruct Hin as [Hin|[]]. injection Hin as <- <-. exact Hv. }
    split; [intros m E; injection E as <-; apply D|]. split; [intros m E; injection E as <-; apply D|].
    split; apply N; intros [E|[? E]]; discriminate.
  - inversion Hy as [| |m k' e q z Hin He]; subst. destruct Hin as [Hin|[]]. injection Hin as <- <-.
    inversion He; subst. inversion Hx as [| |m k' e q z Hin He']; subst. destruct Hin as [Hin|[]]. injection Hin as <-.
    inversion He'; subst. repeat split; intros ?; discriminate.
Qed.

(** ** C37 *)
(** a == b is the value of the Abstract Equality Comparison, with arrays and objects compared
    by value, for values that are [fair]: no json.Numbers, no null members, no integer beside
    the text of a fraction, and beside strings, numbers and Booleans only arrays that are empty
    or hold an integer, or beside a string another. *)
Theorem C37_ecma_partial : forall W a b, reads_integers W -> at_same_place (fair W) a b ->
  exists r, computes W OpEQ [a; b] (VBool r) /\ computes W OpNE [a; b] (VBool (negb r)) /\ (r = true <-> ecma W a b).
Proof. exact ecma_computes. Qed.
Print Assumptions C37_ecma_partial.

(** != is always the negation of ==. *)
Theorem C37_negation : forall W a b r, computes W OpEQ [a; b] (VBool r) <-> computes W OpNE [a; b] (VBool (negb r)).
Proof. exact ne_negates. Qed.
Print Assumptions C37_negation.

(** 0 == "1.5" is true and [1,2] == "1,2" is false. *)
Theorem C37_refuted : exists W, reads_integers W /\
  (computes W OpEQ [VInt64 0; VStr (b_of "1.5")] (VBool true) /\ ~ ecma W (VInt64 0) (VStr (b_of "1.5"))) /\
  (computes W OpEQ [VArr [VInt64 1; VInt64 2]; VStr (b_of "1,2")] (VBool false) /\
   ecma W (VArr [VInt64 1; VInt64 2]) (VStr (b_of "1,2"))).
Proof. exact not_ecma. Qed.
Print Assumptions C37_refuted.

(** {"x": [7], "y": true} and {"y": "1", "x": 7} *)
Example C37_ex : exists W, reads_integers W /\
  at_same_place (fair W) (VObj [(b_of "x", VArr [VInt64 7]); (b_of "y", VBool true)])
    (VObj [(b_of "y", VStr (b_of "1")); (b_of "x", VInt64 7)]) /\
  ecma W (VObj [(b_of "x", VArr [VInt64 7]); (b_of "y", VBool true)])
    (VObj [(b_of "y", VStr (b_of "1")); (b_of "x", VInt64 7)]).
Proof. exact fair_example. Qed.

(** ** C68 *)
(** What == and != are for all values, documents or not: [loose] lists the conversions. *)
Theorem C68_equality : forall W a b, (forall x, within x b -> distinct_names x) ->
  exists r, computes W OpEQ [a; b] (VBool r) /\ computes W OpNE [a; b] (VBool (negb r)) /\ (r = true <-> loose W a b).
Proof. exact loose_computes. Qed.
Print Assumptions C68_equality.

(** {"a": [null], "b": 0, "c": {}} and {"b": "1.5", "c": {}, "a": 0} *)
Example C68_ex :
  let a := VObj [(b_of "a", VArr [VNil]); (b_of "b", VInt64 0); (b_of "c", VObj [])] in
  let b := VObj [(b_of "b", VStr (b_of "1.5")); (b_of "c", VObj []); (b_of "a", VInt64 0)] in
  (forall x, within x b -> distinct_names x) /\ loose x_world a b /\ computes x_world OpEQ [a; b] (VBool true).
Proof.
  intros a b. assert (D : forall x, within x b -> distinct_names x).
  { assert (Db : doc b) by (apply docb_doc; vm_compute; reflexivity).
    intros x Hx m ->. exact (proj1 (Db _ Hx)). }
  split; [exact D|]. split; [|apply computes_eq; reflexivity]. apply eq_loose; [exact D|reflexivity].
Qed.

(** [[7]] == "[object Object]" holds, and {} == "[object Object]" does not. *)
Example C68_object_ex : forall W,
  loose W (VArr [VArr [VInt64 7]]) (VStr (b_of "[object Object]")) /\ ~ loose W (VObj []) (VStr (b_of "[object Object]")).
Proof.
  intros W. assert (D : forall x, within x (VStr (b_of "[object Object]")) -> distinct_names x).
  { intros x Hx m ->. inversion Hx. }
  split; [apply LsMixed, MxOneText, WdOther; left; left; eauto|].
  intros H. apply (eq_loose W _ _ D) in H. discriminate H.
Qed.
