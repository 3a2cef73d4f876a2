(** Properties of errors, of member and index operators in expressions, and of the values
    expressions give (C40, C56, C57). *)
From Verif Require Import Syntax SpecSyntax Machine Coder SpecDoc SpecSelect SpecRun SpecCode SpecOp SpecExpr Parser Api
  SpecTokens SpecGrammar SpecText SpecSem SpecIndex ErrorProofs IndexProofs ValidProofs OpProofs TextProofs SemFinal Eval MachineProofs Examples.
Local Open Scope Z_scope.

Ltac eval_it := split; [discriminate|]; exists 200%nat; vm_compute; reflexivity.

(** ** C40 *)
(** An error has a reason ([blames]) in an expression of the path, for some @ that is null or
    in the document: a call of an unknown function or with a wrong number of arguments, or =~,
    in or nin with operands of the wrong kind. *)
Theorem C40_reason : forall TX s ss jp W t root err, accepted TX s ss jp -> fits jp -> orders_ok W -> doc root ->
  JP_Eval W t jp root (Fail err) ->
  exists x dot, occurs ss x /\ (dot = VNil \/ within dot root) /\ blames W root dot x err.
Proof. exact text_blame. Qed.
Print Assumptions C40_reason.

(** A path without calls, =~, in and nin gives no error. *)
Theorem C40_none : forall TX s ss jp W t root err, accepted TX s ss jp -> fits jp -> orders_ok W -> doc root ->
  (forall o kids, occurs ss (EInner o kids) -> may_fail o = false) -> ~ JP_Eval W t jp root (Fail err).
Proof. exact text_no_error. Qed.
Print Assumptions C40_none.

Example C40_ex : let s := b_of "$..[?(@.b =~ @.c)]" in let root := VArr [VObj [(b_of "b", VInt64 3); (b_of "c", VStr (b_of "x"))]] in
  accepted x_text s (steps_of s) (jp_of s) /\ fits (jp_of s) /\ orders_ok x_world /\ doc root /\
  JP_Eval x_world 0 (jp_of s) root (Fail (RMatchLeft (VInt64 3))).
Proof.
  split; [apply acceptedb_ok; vm_compute; reflexivity|]. split; [vm_compute; reflexivity|]. split; [exact x_world_ok|].
  split; [apply docb_doc; vm_compute; reflexivity|eval_it].
Qed.
Example C40_ex_count : let s := b_of "$[(contains('a'))]" in
  accepted x_text s (steps_of s) (jp_of s) /\ fits (jp_of s) /\
  JP_Eval x_world 0 (jp_of s) x_doc (Fail (RArgCount (b_of "contains") 2 1)).
Proof.
  split; [apply acceptedb_ok; vm_compute; reflexivity|]. split; [vm_compute; reflexivity|eval_it].
Qed.
Example C40_ex_none : let s := b_of "$[?(@.b < 2 && !@.c)]" in
  accepted x_text s (steps_of s) (jp_of s) /\ forall o kids, occurs (steps_of s) (EInner o kids) -> may_fail o = false.
Proof.
  split; [apply acceptedb_ok; vm_compute; reflexivity|].
  intros o kids (s & e & Hs & He & Hx). vm_compute in Hs.
  destruct Hs as [<-|[]]. destruct He as [He|[]]. injection He as <-.
  repeat match goal with
  | H : part_of _ (EInner _ _) |- _ => inversion H; subst; clear H; [reflexivity|]
  | H : part_of _ _ |- _ => solve [inversion H]
  | H : In _ (_ :: _) |- _ => destruct H as [<-|H]
  | H : In _ [] |- _ => destruct H
  end.
Qed.

(** ** C56 *)
(** a.k is the member k of the object a, a failure if there is none or a is no object
    (k is not "length": C44; a is not a failure: C32). *)
Theorem C56_member : forall W a k, ~ failure a -> sized a -> k <> b_of "length" ->
  (exists v, dotted a k v) /\ forall v, dotted a k v <-> computes W OpDot [a; VName k] v.
Proof. exact dot_exact. Qed.
Print Assumptions C56_member.

(** a[i] is the element of the array a at the integer that i converts to, counted from the end
    if negative, or the member of the object a that i names. *)
Theorem C56_index : forall W a i, ~ failure a -> ~ failure i -> (forall s, i <> VSlice s) -> sized a -> proper i ->
  (exists v, indexed W a i v) /\ forall v, indexed W a i v <-> computes W OpIndex [a; i] v.
Proof. exact index_exact. Qed.
Print Assumptions C56_index.

(** -a changes the sign of a float and is the negated integer that anything else converts to. *)
Theorem C56_minus : forall W a, ~ failure a -> proper a ->
  (exists v, negated W a v) /\ forall v, negated W a v <-> computes W OpNeg [a] v.
Proof. exact neg_exact. Qed.
Print Assumptions C56_minus.

(** [e, ...] is the array of the values, failures included. *)
Theorem C56_array : forall W l, computes W OpArray l (VArr l).
Proof. exact array_exact. Qed.
Print Assumptions C56_array.

Example C56_ex : let a := VArr [VInt64 7; VStr (b_of "x"); VNil] in let i := VStr (b_of "-2") in
  ~ failure a /\ ~ failure i /\ sized a /\ proper i /\
  integral x_world i (-2) /\ element [VInt64 7; VStr (b_of "x"); VNil] (-2) (VStr (b_of "x")) /\
  computes x_world OpIndex [a; i] (VStr (b_of "x")) /\
  computes x_world OpNeg [VInt64 (-9223372036854775808)] (VInt64 (-9223372036854775808)) /\
  dotted x_doc (b_of "d") (VFloat x_half).
Proof.
  cbn zeta. split; [intros [k E]; discriminate|]. split; [intros [k E]; discriminate|]. split; [cbn; lia|]. split; [exact I|].
  split; [eapply IgText; [left; reflexivity|]; apply (ItMinus [50]); [discriminate|repeat constructor; unfold digit; lia|vm_compute; discriminate]|].
  split; [eapply (ElSome _ _ 1); [reflexivity|cbn; lia]|].
  split; [apply computes2; [left; reflexivity|vm_compute; reflexivity]|].
  split; [apply computes1; [left; reflexivity|vm_compute; reflexivity]|].
  eapply DtObj; [reflexivity|]. apply MbSome. right. right. left. reflexivity.
Qed.

(** ** C57 *)
(** In what an expression gives, floats are binary64 numbers and objects are objects of the
    document; values that only the compiler makes do not occur. *)
Theorem C57_values : forall W root dot e v, (forall s f, o_parse_float (w_text W) s = Some f -> double f) ->
  doc root -> doc dot -> wf_expr e -> (forall f, part_of (EFloat f) e -> double f) -> means W root dot e (OK v) ->
  forall x, within x v ->
  match x with
  | VFloat f => double f
  | VObj m => within (VObj m) root \/ within (VObj m) dot
  | VSlice _ => False
  | _ => True
  end.
Proof. exact means_valid. Qed.
Print Assumptions C57_values.

(** [@ / 3.0, $] for @ = 1.5 *)
Example C57_ex : let e := EInner OpArray [EInner OpDiv [ECurrent; EFloat (f_of_Z 3)]; ERoot] in
  doc x_doc /\ doc (VFloat x_half) /\ wf_expr e /\
  means x_world x_doc (VFloat x_half) e (OK (VArr [VFloat (S754_finite false 4503599627370496 (-53)); x_doc])).
Proof.
  cbn zeta. split; [exact x_doc_ok|]. split; [apply docb_doc; reflexivity|].
  split; [repeat constructor; cbn; discriminate|].
  assert (Y : forall o vs v, inner_ok o (length vs) -> Z.of_nat (length vs) < 4194304 -> Eval.apply_op x_world 0 o vs = OK (v, 0%nat) ->
    yields x_world o vs (OK v)).
  { intros o vs v Ho Hl H. split; [exact Hl|]. exists (w_perm x_world), 0%nat, (OK (v, 0%nat)). split; [exact x_world_ok|]. split; [|reflexivity].
    rewrite <- H. apply operates_apply; [exact Ho|rewrite H; discriminate]. }
  eapply MnInner.
  - constructor; [|constructor; [apply MnLeaf; constructor|constructor]].
    eapply MnInner; [constructor; [apply MnLeaf; constructor|constructor; [apply MnLeaf; constructor|constructor]]|].
    apply Y; [split; reflexivity|cbn; lia|vm_compute; reflexivity].
  - apply Y; [exact I|cbn; lia|vm_compute; reflexivity].
Qed.
