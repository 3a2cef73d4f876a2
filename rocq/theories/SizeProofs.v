(** The size of the code of a path, compared with the length of its text. *)
From Verif Require Import Syntax Program SpecCode Coder CoderProofs CodeProofs Lexer Parser Machine Api ParserExact EvalProofs
  SpecSyntax SpecGrammar.
Local Open Scope nat_scope.

Section size.
Variable tf : bytes -> option f64.
Variable re : bytes -> bool.
Variable lax : bool.

Definition tok_size (t : gtok) : nat :=
  match t with GPunct p => length p | GEnd => 0 | _ => 1 end.

Lemma tok1_size : forall ps dash s t r, tok1 ps dash s t r -> tok_size t + length r <= length s.
Proof.
  intros ps dash s t r H. destruct H; simpl; rewrite ?app_length; simpl; try lia.
Qed.

Lemma nonempty_length : forall A (l : list A), l <> [] -> 1 <= length l.
Proof. intros A [|x l] H; simpl; [congruence|lia]. Qed.

Lemma etok_size : forall s t r, etok tf lax s t r -> tok_size t + length r <= length s.
Proof.
  intros s t r H. destruct H; rewrite ?app_length; simpl; rewrite ?app_length; simpl;
    repeat match goal with K : ?ds <> [] |- _ => apply nonempty_length in K end; try lia.
  pose proof (tok1_size _ _ _ _ _ H0). lia.
Qed.

Lemma ptok_size : forall s t r, ptok lax s t r -> tok_size t + length r <= length s.
Proof.
  intros s t r H. destruct H; rewrite ?app_length; simpl; rewrite ?app_length; simpl;
    repeat match goal with K : ?ds <> [] |- _ => apply nonempty_length in K end; try lia.
  pose proof (tok1_size _ _ _ _ _ H0). lia.
Qed.

Lemma punct_size : forall s p r, punct tf lax s p r -> 1 + length r <= length s.
Proof.
  intros s p r H. pose proof (etok_size _ _ _ H) as L. simpl in L.
  assert (1 <= length (b_of p)); [|lia].
  unfold punct in H. remember (GPunct (b_of p)) as t eqn:E.
  destruct H as [w s t r W H| | | |]; try discriminate.
  destruct H as [|p' r' [Hin _]| |]; try discriminate. injection E as <-.
  simpl in Hin. repeat (destruct Hin as [<-|Hin]; [simpl; lia|]). destruct Hin.
Qed.

Lemma binary_size : forall s o k r, binary_op tf lax s o k r -> 1 + length r <= length s.
Proof.
  intros s o k r [s0 p0 o0 k0 r0 Hin H|? ? H|? ? H]; apply etok_size in H; simpl in H; auto.
  assert (1 <= length p0); [|lia]. simpl in Hin.
  repeat (destruct Hin as [Hin|Hin]; [injection Hin as <- <- <-; simpl; lia|]). destruct Hin.
Qed.

Ltac toks := repeat match goal with
  | K : punct _ _ _ _ _ |- _ => apply punct_size in K
  | K : ppunct _ _ _ _ |- _ => apply ptok_size in K; simpl in K
  | K : etok _ _ _ _ _ |- _ => apply etok_size in K; simpl in K
  | K : ptok _ _ _ _ |- _ => apply ptok_size in K; simpl in K
  | K : binary_op _ _ _ _ _ _ |- _ => apply binary_size in K
  end.


Notation W e s r := (length (list_expr e) + length r <= length s).
Lemma g_size : (forall k s e r, g_expr tf re lax k s e r -> W e s r) /\
  (forall s e r, g_unary tf re lax s e r -> W e s r) /\
  (forall s e r, g_postfix tf re lax s e r -> W e s r) /\
  (forall s e r, g_atom tf re lax s e r -> W e s r) /\
  (forall c s l r, g_list tf re lax c s l r -> length (flat_map list_expr l) + 1 + length r <= length s) /\
  (forall s l r, g_items tf re lax s l r -> length (flat_map list_expr l) + length r <= length s).
Proof.
  apply g_expr_mutind; intros; auto; toks; subst;
    cbn [list_expr flat_map] in *; rewrite ?app_nil_r, ?app_length in *; cbn [length] in *; try lia.
  unfold name_expr. repeat destruct (beqb _ _); cbn [list_expr length]; lia.
Qed.

Lemma expr_size : forall k s e r, g_expr tf re lax k s e r -> W e s r.
Proof. exact (proj1 g_size). Qed.

Ltac go := repeat (toks; match goal with
  | K : g_expr _ _ _ _ _ _ _ |- _ => apply expr_size in K
  end); toks.

Lemma paren_size : forall s e r, g_paren tf re lax s e r -> length (list_expr e) + 2 + length r <= length s.
Proof. intros s e r []. go. lia. Qed.
Lemma obound_size : forall s b r, g_obound tf re lax s b r -> length r <= length s.
Proof.
  intros s b r [|? ? ? [? ? ? H|? ? ? H]]; auto; [go|apply paren_size in H]; lia.
Qed.
Lemma slice_size : forall s b r, g_slice tf re lax s b r -> 1 + length r <= length s.
Proof.
  intros s b r []; go; repeat match goal with K : g_obound _ _ _ _ _ _ |- _ => apply obound_size in K end; lia.
Qed.
Lemma elem_size : forall s b r, g_elem tf re lax s b r -> length (list_arg b) + length r <= length s.
Proof.
  intros s b r []; go; try match goal with K : g_slice _ _ _ _ _ _ |- _ => apply slice_size in K end; cbn [list_arg length]; lia.
Qed.
Lemma elems_size : forall s l r, g_elems tf re lax s l r ->
  length (flat_map list_arg l) + length r <= length s.
Proof.
  intros s l r H. induction H as [? ? ? K|? ? ? ? ? ? K K2 _ IH]; apply elem_size in K; go;
    cbn [flat_map]; rewrite ?app_length; cbn [length]; lia.
Qed.
Lemma sub_size : forall s st r, g_subscript tf re lax s st r ->
  length (flat_map list_arg (st_args st)) + length r <= length s.
Proof.
  intros s st r []; go; cbn [st_args flat_map list_arg]; rewrite ?app_nil_r; cbn [length];
    try match goal with
    | K : g_paren _ _ _ _ _ _ |- _ => apply paren_size in K
    | K : g_elem _ _ _ _ _ _ |- _ => apply elem_size in K
    | K : g_elems _ _ _ _ _ _ |- _ => apply elems_size in K
    end; lia.
Qed.
Lemma member_size : forall s st r, g_member tf re lax s st r ->
  length (flat_map list_arg (st_args st)) + length r <= length s /\ 1 + length r <= length s.
Proof.
  intros s st r []; go; cbn [st_args flat_map list_arg]; rewrite ?app_nil_r; cbn [length];
    try match goal with
    | K : g_paren _ _ _ _ _ _ |- _ => apply paren_size in K
    end; lia.
Qed.

(** what a step adds to its arguments *)
Lemma list_step_length : forall at_ st, length (list_step at_ st) =
  length (flat_map list_arg (st_args st)) + match loop_of (st_op st) with Some _ => 3 | None => 1 end.
Proof.
  intros. unfold list_step, list_body. destruct (loop_of (st_op st)); cbn [length];
    rewrite ?app_length; cbn [length]; lia.
Qed.
Lemma sub_filter : forall s st r, g_subscript tf re lax s st r -> loop_of (st_op st) <> None ->
  length (flat_map list_arg (st_args st)) + 2 + length r <= length s.
Proof.
  intros s st r [] L; simpl in L; try congruence. go.
  cbn [st_args flat_map list_arg]; rewrite ?app_nil_r. lia.
Qed.
Lemma member_plain : forall s st r, g_member tf re lax s st r -> loop_of (st_op st) = None.
Proof. intros s st r []; reflexivity. Qed.

Lemma step_size : forall at_ s st r, g_step tf re lax s st r ->
  3 * length (list_step at_ st) + 4 * length r <= 4 * length s.
Proof.
  intros at_ s st r H. rewrite list_step_length.
  destruct H as [s m st r K H|s m st m' r K H K2|s m st r K H|s n m st m' r K K1 H K2]; go.
  - pose proof (member_plain _ _ _ H) as L. rewrite L. apply member_size in H. lia.
  - destruct (loop_of (st_op st)) eqn:L.
    + apply sub_filter in H; [lia|congruence].
    + apply sub_size in H. lia.
  - apply member_size in H. cbn [st_args nested]. destruct (loop_of _); lia.
  - apply sub_size in H. cbn [st_args nested]. destruct (loop_of _); lia.
Qed.

Lemma path_size : forall s ss, g_path tf re lax s ss ->
  forall at_, 3 * length (list_path at_ ss) + 4 <= 4 * length s.
Proof.
  intros s ss (m & K & H). toks.
  assert (G : forall at_, 3 * length (list_path at_ ss) <= 4 * length m).
  { clear K. induction H as [|s' st m' p Hst _ IH]; intro at_; cbn [list_path length]; [lia|].
    rewrite app_length. pose proof (step_size at_ _ _ _ Hst).
    specialize (IH (at_ + Z.of_nat (length (list_step at_ st)))%Z). lia. }
  intro at_. specialize (G at_). lia.
Qed.
End size.

(** a text of at most 3 MiB has code that fits *)
Lemma text_size : forall TX s ss p, is_bytes s -> literal_floats (o_parse_float TX) ->
  ParsePath TX s = OK ss -> Compile ss = OK p -> 3 * length (p_orders p) + 4 <= 4 * length s.
Proof.
  intros TX s ss p Hb Hl Hp Hc. pose proof (path_wf TX Hl s ss Hb Hp) as Hwf.
  rewrite (compile_length ss p Hwf Hc). apply (path_exact TX s Hb) in Hp. eapply path_size; eauto.
Qed.

Lemma text_fits : forall TX s ss p, is_bytes s -> literal_floats (o_parse_float TX) ->
  ParsePath TX s = OK ss -> Compile ss = OK p -> (Z.of_nat (length s) <= 3145728)%Z ->
  (prog_size p < indexTop)%Z.
Proof.
  intros TX s ss p Hb Hl Hp Hc Hs. pose proof (text_size TX s ss p Hb Hl Hp Hc) as H.
  unfold prog_size. change indexTop with 4194304%Z. lia.
Qed.
