(** Every tree that is read from a text can be written down again. *)
From Verif Require Import Syntax SpecGrammar SpecSyntax SpecPrint LexProofs LexProofs2 LexProofs3 LexProofs4
  GrammarProofs PrintProofs.
Local Open Scope Z_scope.

Lemma bytes_app : forall a b, is_bytes (a ++ b) <-> is_bytes a /\ is_bytes b.
Proof. intros. apply Forall_app. Qed.

Lemma utf8_bytes : forall r, is_bytes (utf8_encode r).
Proof.
  intro r. unfold utf8_encode, is_bytes.
  destruct (Z.ltb_spec r 0); cbn [orb]; [repeat (constructor; [lia|]); constructor|].
  destruct (Z.ltb_spec 1114111 r); cbn [orb]; [repeat (constructor; [lia|]); constructor|].
  destruct (_ && _)%bool; [repeat (constructor; [lia|]); constructor|].
  pose proof (Z.mod_pos_bound r 64). pose proof (Z.mod_pos_bound (r / 64) 64).
  pose proof (Z.mod_pos_bound (r / 4096) 64).
  destruct (Z.ltb_spec r 128); [constructor; [lia|constructor]|].
  destruct (Z.ltb_spec r 2048).
  { pose proof (Z.div_lt_upper_bound r 64 32). pose proof (Z.div_pos r 64).
    repeat (constructor; [lia|]); constructor. }
  destruct (Z.ltb_spec r 65536).
  { pose proof (Z.div_lt_upper_bound r 4096 16). pose proof (Z.div_pos r 4096).
    repeat (constructor; [lia|]); constructor. }
  pose proof (Z.div_lt_upper_bound r 262144 5). pose proof (Z.div_pos r 262144).
  repeat (constructor; [lia|]); constructor.
Qed.

Lemma replacement_bytes : is_bytes replacement.
Proof. unfold is_bytes, replacement. repeat (constructor; [lia|]); constructor. Qed.

Lemma run_value_bytes : forall rs p, is_bytes (run_value p rs).
Proof.
  induction rs as [|r rs IH]; intros [h|]; cbn [run_value]; try apply replacement_bytes; try constructor.
  - destruct (_ && _)%bool; rewrite ?bytes_app; auto using utf8_bytes, replacement_bytes.
  - destruct (surrogate r); [apply IH|]. apply bytes_app. auto using utf8_bytes.
Qed.

Lemma str_body_bytes : forall q t v, str_body q t v -> is_bytes t -> is_bytes v.
Proof.
  intros q t v H. induction H as [|c t v N1 N2 N3 H IH|u rs t v Hu Hn H IH]; intro B.
  - constructor.
  - inversion B; subst. constructor; auto. apply IH. assumption.
  - apply bytes_app in B as [_ B]. apply bytes_app. auto using run_value_bytes.
Qed.
Lemma str_open_bytes : forall q t v, str_open q t v -> is_bytes t -> is_bytes v.
Proof.
  intros q t v H. induction H as [u rs Hu _|c t v N1 N2 N3 H IH|u rs t v Hu Hn H IH]; intro B.
  - apply run_value_bytes.
  - inversion B; subst. constructor; auto. apply IH. assumption.
  - apply bytes_app in B as [_ B]. apply bytes_app. auto using run_value_bytes.
Qed.

Lemma re_body_end : forall t v, re_body t v -> forall u, v <> u ++ [92].
Proof.
  intros t v H. induction H as [|t v H IH|c t v N K H IH]; intros u E.
  - destruct u; discriminate.
  - destruct u as [|x u]; [discriminate|]. injection E as _ E. exact (IH u E).
  - destruct u as [|x u].
    + injection E as -> ->. destruct (K eq_refl) as [K1 _]. inversion H; congruence.
    + injection E as _ E. exact (IH u E).
Qed.

Lemma re_body_bytes : forall t v, re_body t v -> is_bytes t -> is_bytes v.
Proof.
  intros t v H. induction H as [|t v H IH|c t v N K H IH]; intro B; [constructor| |].
  - inversion B as [|? ? _ B']; inversion B' as [|? ? B1 B2]; subst. constructor; auto. apply IH. assumption.
  - inversion B; subst. constructor; auto. apply IH. assumption.
Qed.

Section writable.
Variable ft : f64 -> bytes.
Variable tf : bytes -> option f64.
Variable re : bytes -> bool.
Variable lax : bool.

Hypothesis Hft : prints_literals ft tf.
Notation wr := (writable ft tf re).

Definition tokw (dash : bool) (t : gtok) : Prop :=
  match t with
  | GStr v => is_bytes v
  | GName n => identifier dash n
  | GInt z => path_int z /\ (dash = false -> 0 <= z)
  | GReal f => real_text (ft f) /\ tf (ft f) = Some f
  | _ => True
  end.

Lemma cons_bytes : forall c s, is_bytes (c :: s) -> is_bytes s.
Proof. intros c s H. inversion H; assumption. Qed.

Lemma tok1_w : forall ps dash s t r, tok1 ps dash s t r -> is_bytes s -> is_bytes r /\ tokw dash t.
Proof.
  intros ps dash s t r [|p r' _|q t' v r' Hq H|c t' r' H1 H2 H3] B; simpl.
  - auto.
  - apply bytes_app in B. tauto.
  - apply cons_bytes, bytes_app in B as [B1 B2]. apply cons_bytes in B2. split; auto.
    eapply str_body_bytes; eauto.
  - apply cons_bytes, bytes_app in B as [B1 B2]. split; auto. exists c, t'. auto.
Qed.

Lemma etok_w : forall s t r, etok tf lax s t r -> is_bytes s -> is_bytes r /\ tokw false t.
Proof.
  intros s t r H B. destruct H as [w s t r W H|w ds r W D1 D2 N V|w ds fs r f W D1 D2 D3 N V
    |w ds fs ex r f W D1 D2 D3 E N V|w q t v L W Q O].
  - apply bytes_app in B as [_ B]. eapply tok1_w; eauto.
  - rewrite !bytes_app in B. split; [tauto|]. simpl. pose proof (dec_val_nonneg _ D2). unfold path_int. lia.
  - rewrite !bytes_app in B. split; [tauto|]. simpl. eapply Hft; eauto. constructor; assumption.
  - rewrite !bytes_app in B. split; [tauto|]. simpl. eapply Hft; eauto. constructor; assumption.
  - rewrite !bytes_app in B. split; [constructor|]. simpl. destruct B as [_ B]. apply cons_bytes in B.
    eapply str_open_bytes; eauto.
Qed.
Lemma ptok_w : forall s t r, ptok lax s t r -> is_bytes s -> is_bytes r /\ tokw true t.
Proof.
  intros s t r H B. destruct H as [w s t r W H|w ds r W D1 D2 N V|w w' ds r W W' D1 D2 N V|w q t v L W Q O].
  - apply bytes_app in B as [_ B]. eapply tok1_w; eauto.
  - rewrite !bytes_app in B. split; [tauto|]. simpl. pose proof (dec_val_nonneg _ D2). unfold path_int.
    split; [lia|discriminate].
  - apply bytes_app in B as [_ B]. apply cons_bytes in B. rewrite !bytes_app in B. split; [tauto|].
    simpl. pose proof (dec_val_nonneg _ D2). unfold path_int. split; [lia|discriminate].
  - rewrite !bytes_app in B. split; [constructor|]. simpl. destruct B as [_ B]. apply cons_bytes in B.
    eapply str_open_bytes; eauto.
Qed.
Lemma bin_w : forall s o k r, binary_op tf lax s o k r -> is_bytes s -> is_bytes r /\ is_binary o = true.
Proof.
  intros s o k r [s0 p0 o0 k0 r0 Hin H|? ? H|? ? H] B; apply etok_w in H as [H _]; auto. split; auto.
  simpl in Hin. repeat (destruct Hin as [Hin|Hin]; [injection Hin as <- <- <-; reflexivity|]). destruct Hin.
Qed.

Notation W s r P := (is_bytes s -> is_bytes r /\ P).

Lemma g_wr : (forall k s e r, g_expr tf re lax k s e r -> W s r (wr e)) /\
  (forall s e r, g_unary tf re lax s e r -> W s r (wr e)) /\
  (forall s e r, g_postfix tf re lax s e r -> W s r (wr e)) /\
  (forall s e r, g_atom tf re lax s e r -> W s r (wr e)) /\
  (forall c s l r, g_list tf re lax c s l r -> W s r (Forall wr l)) /\
  (forall s l r, g_items tf re lax s l r -> W s r (Forall wr l)).
Proof.
  apply g_expr_mutind; intros; unfold punct in *; auto;
    repeat match goal with
    | K : binary_op _ _ _ _ _ _, B : is_bytes _ |- _ => apply bin_w in K as [? ?]; [|assumption]
    | K : etok _ _ ?s _ _, B : is_bytes ?s |- _ => apply etok_w in K as [? K]; [|assumption]; simpl in K
    | K : is_bytes ?s -> _ /\ _, B : is_bytes ?s |- _ => specialize (K B); destruct K as [? ?]
    end.
  - split; auto. apply WrBinary; auto.
  - split; auto. apply WrUnary; auto.
  - split; auto. apply WrUnary; auto.
  - split; auto. match goal with K : wr (EName _) |- _ => inversion K; subst end. apply WrCall; auto.
  - split; auto. apply WrBinary; auto.
  - split; auto. apply WrDot; auto.
  - subst. match goal with K : is_bytes (_ ++ _) |- _ => apply bytes_app in K as [? K]; apply cons_bytes in K end.
    split; auto. apply WrRegexp; auto; [eapply re_body_bytes|eapply re_body_end]; eauto.
  - split; auto. constructor.
  - split; auto. constructor.
  - split; auto.
  - split; auto. apply WrArray; auto.
  - split; auto. unfold name_expr.
    destruct (beqb n (b_of "true")) eqn:E1; [constructor|].
    destruct (beqb n (b_of "false")) eqn:E2; [constructor|].
    destruct (beqb n (b_of "null")) eqn:E3; [constructor|].
    constructor; auto. intros [->|[->| ->]]; discriminate.
  - split; auto. constructor. unfold path_int in *. lia.
  - split; auto. constructor; tauto.
  - split; auto. constructor; assumption.
  - split; auto.
  - split; auto.
  - split; auto.
  - split; auto.
Qed.

Lemma expr_w : forall k s e r, g_expr tf re lax k s e r -> W s r (wr e).
Proof. exact (proj1 g_wr). Qed.
Lemma script_w : forall s e, g_script tf re lax s e -> is_bytes s -> wr e.
Proof. intros s e (r & H & _) B. eapply expr_w; eauto. Qed.

Ltac go := repeat match goal with
  | K : ppunct _ ?s _ _, B : is_bytes ?s |- _ => apply ptok_w in K as [? _]; [|exact B]
  | K : ptok _ ?s _ _, B : is_bytes ?s |- _ => apply ptok_w in K as [? K]; [|exact B]; simpl in K
  | K : g_expr _ _ _ _ ?s _ _, B : is_bytes ?s |- _ => apply expr_w in K as [? K]; [|exact B]
  end.

Lemma paren_w : forall s e r, g_paren tf re lax s e r -> W s r (wr e).
Proof. intros s e r [] B. go. auto. Qed.
Lemma obound_w : forall s b r, g_obound tf re lax s b r -> W s r (writable_obound ft tf re b).
Proof.
  intros s b r [|? ? ? [? ? ? H|? ? ? H]] B; simpl; auto.
  - go. split; auto. constructor. tauto.
  - apply paren_w in H as [? ?]; auto. split; auto. constructor. assumption.
Qed.
Lemma slice_w : forall s b r, g_slice tf re lax s b r ->
  W s r (writable_obound ft tf re (sl_start b) /\ writable_obound ft tf re (sl_end b) /\
         writable_obound ft tf re (sl_stride b)).
Proof.
  intros s b r [? a m m' b' r' H1 H2 H3|? a m m' b' n n' c r' H1 H2 H3 H4 H5] B;
  repeat (go; match goal with K : g_obound _ _ _ ?s _ _, B : is_bytes ?s |- _ => apply obound_w in K as [? K]; [|exact B] end);
  simpl; auto.
Qed.
Lemma elem_w : forall s b r, g_elem tf re lax s b r -> W s r (writable_elem ft tf re b).
Proof.
  intros s b r [? ? ? H|? ? ? H|? ? ? H|? ? ? H] B; go.
  - split; auto. constructor. tauto.
  - split; auto. constructor. assumption.
  - split; auto. constructor. assumption.
  - apply slice_w in H as [? (? & ? & ?)]; auto. split; auto. constructor; assumption.
Qed.
Lemma elems_w : forall s b r, g_elems tf re lax s b r -> W s r (Forall (writable_elem ft tf re) b).
Proof.
  intros s b r H. induction H as [? ? ? K|? ? ? ? ? ? K K2 _ IH]; intro B; apply elem_w in K as [? K]; auto.
  go. destruct IH as [? ?]; auto.
Qed.
Lemma nested_w : forall o l, writable_step ft tf re (mkStep o l) ->
  In o [OpWild; OpMember; OpSelect; OpUnion; OpFilter] -> writable_step ft tf re (nested (mkStep o l)).
Proof. intros o l H Ho. apply WrNest; auto. simpl in *. intuition (subst; discriminate). Qed.

Lemma sub_w : forall s b r, g_subscript tf re lax s b r ->
  W s r (writable_step ft tf re b /\ writable_step ft tf re (nested b)).
Proof.
  assert (N : forall o l, In o [OpWild; OpMember; OpSelect; OpUnion; OpFilter] -> writable_step ft tf re (mkStep o l) ->
    writable_step ft tf re (mkStep o l) /\ writable_step ft tf re (nested (mkStep o l))).
  { intros. split; auto. apply nested_w; auto. }
  intros s b r [? ? H|? ? ? ? ? H1 H2 H3|? ? ? H|? ? ? H|? ? ? H H'] B; go.
  - split; auto. apply N; [simpl; tauto|]. constructor.
  - split; auto. apply N; [simpl; tauto|]. constructor. assumption.
  - apply paren_w in H as [? ?]; auto. split; auto. apply N; [simpl; tauto|]. apply WrSelectExpr. assumption.
  - apply elem_w in H as [? ?]; auto. split; auto. apply N; [simpl; tauto|]. apply WrSelect. assumption.
  - apply elems_w in H as [? ?]; auto. split; auto. apply N; [simpl; tauto|]. apply WrUnion; assumption.
Qed.
Lemma member_w : forall s b r, g_member tf re lax s b r ->
  W s r (writable_step ft tf re b /\ writable_step ft tf re (nested b)).
Proof.
  assert (N : forall o l, In o [OpWild; OpMember; OpSelect; OpUnion; OpFilter] -> writable_step ft tf re (mkStep o l) ->
    writable_step ft tf re (mkStep o l) /\ writable_step ft tf re (nested (mkStep o l))).
  { intros. split; auto. apply nested_w; auto. }
  intros s b r [? ? H|? ? ? H|? ? ? H|? ? ? H] B; go.
  - split; auto. apply N; [simpl; tauto|]. constructor.
  - split; auto. apply N; [simpl; tauto|]. do 2 constructor. assumption.
  - split; auto. apply N; [simpl; tauto|]. do 2 constructor. tauto.
  - apply paren_w in H as [? ?]; auto. split; auto. apply N; [simpl; tauto|]. do 2 constructor. assumption.
Qed.
Lemma step_w : forall s b r, g_step tf re lax s b r -> W s r (writable_step ft tf re b).
Proof.
  intros s b r [? ? ? ? K H|? ? ? ? ? K H K2|? ? ? ? K H|? ? ? ? ? ? K K1 H K2] B; go;
    (apply member_w in H as [? [? ?]] || apply sub_w in H as [? [? ?]]); auto; go; auto.
Qed.
Lemma path_w : forall s p, g_path tf re lax s p -> is_bytes s -> writable_path ft tf re p.
Proof.
  intros s p (m & K & H) B. go. revert H0. induction H as [|s' st m' p' Hst _ IH]; intro B'; constructor.
  - eapply step_w; eauto.
  - apply IH. eapply step_w; eauto.
Qed.
End writable.
