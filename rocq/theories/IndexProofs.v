(** Proofs about .name, [index], unary minus and array literals. *)
From Coq Require Import QArith Permutation.
From Verif Require Import SpecSyntax Machine Eval SpecDoc SpecSelect SpecTokens SpecGrammar LexProofs
  SpecRun RunProofs SelectProofs WalkProofs MachineProofs CoderProofs SpecCode SliceProofs ExprProofs SpecOp OpProofs SpecExpr ArithProofs SpecSem SemProofs SemFinal UniqueProofs SpecIndex.
Local Open Scope Z_scope.

Lemma dec_acc_inv : forall s a n, dec_acc a s = Some n -> Forall digit s.
Proof.
  induction s as [|c s IH]; intros a n H; [constructor|]. cbn [dec_acc] in H. destruct (is_dec_digit c) eqn:E; [|discriminate].
  constructor; [|eapply IH; exact H]. unfold is_dec_digit in E. unfold digit. lia.
Qed.

Lemma parse_udec_spec : forall s n, parse_udec s = Some n <-> s <> [] /\ Forall digit s /\ n = dec_val s.
Proof.
  intros s n. split.
  - intro H. unfold parse_udec in H. destruct s as [|c s]; [discriminate|]. split; [discriminate|].
    pose proof (dec_acc_inv _ _ _ H) as F. split; [exact F|]. rewrite dec_acc_digits in H by exact F. injection H as <-. reflexivity.
  - intros (H & F & ->). unfold parse_udec. destruct s as [|c s]; [contradiction|]. rewrite dec_acc_digits by exact F. reflexivity.
Qed.

Lemma parse_int_spec : forall s z, parse_int s = Some z <-> int_text s z.
Proof.
  intros s z. split.
  - intro H. destruct s as [|c s]; [discriminate|]. cbn [parse_int] in H. unfold two63 in H.
    destruct (Z.eqb_spec c 45) as [->|N5].
    + cbn [orb Z.eqb Pos.eqb] in H. destruct (parse_udec s) as [n|] eqn:E; [|discriminate].
      apply parse_udec_spec in E as (E1 & E2 & ->). destruct (_ <=? _) eqn:El; [|discriminate]. injection H as <-.
      apply ItMinus; [assumption|assumption|lia].
    + rewrite orb_false_r in H. destruct (Z.eqb_spec c 43) as [->|N3].
      * destruct (parse_udec s) as [n|] eqn:E; [|discriminate].
        apply parse_udec_spec in E as (E1 & E2 & ->). destruct (_ <? _) eqn:El; [|discriminate]. injection H as <-.
        apply (ItPlus [43]); [auto|assumption|assumption|lia].
      * destruct (parse_udec (c :: s)) as [n|] eqn:E; [|discriminate].
        apply parse_udec_spec in E as (E1 & E2 & ->). destruct (_ <? _) eqn:El; [|discriminate]. injection H as <-.
        apply (ItPlus []); [auto|assumption|assumption|lia].
  - intro H. destruct H as [sign ds Hs Hn Hd Hv|ds Hn Hd Hv].
    + assert (E : parse_udec ds = Some (dec_val ds)) by (apply parse_udec_spec; auto).
      destruct Hs as [->| ->].
      * cbn [app]. rewrite parse_int_digits by assumption. destruct (_ <? _) eqn:El; [reflexivity|lia].
      * cbn [app parse_int Z.eqb Pos.eqb orb]. rewrite E. unfold two63. destruct (_ <? _) eqn:El; [reflexivity|lia].
    + assert (E : parse_udec ds = Some (dec_val ds)) by (apply parse_udec_spec; auto).
      cbn [parse_int Z.eqb Pos.eqb orb]. rewrite E. unfold two63. destruct (_ <=? _) eqn:El; [reflexivity|lia].
Qed.

Lemma int_text_range : forall s z, int_text s z -> -9223372036854775808 <= z <= 9223372036854775807.
Proof.
  intros s z H. destruct H as [sign ds _ _ Hd Hv|ds _ Hd Hv]; apply dec_val_nonneg in Hd; lia.
Qed.

Lemma int_text_fun : forall s z z', int_text s z -> int_text s z' -> z = z'.
Proof. intros s z z' H H'. apply parse_int_spec in H, H'. congruence. Qed.

Lemma cvi_integral : forall W v, integral W v (cvi W v).
Proof.
  intros W v.
  assert (Ht : forall s, v = VStr s \/ v = VNum s -> integral W v (match parse_int s with Some n => n | None => 0 end)).
  { intros s Hs. destruct (parse_int s) as [n|] eqn:E.
    - eapply IgText; [exact Hs|]. apply parse_int_spec. exact E.
    - eapply IgNoText; [exact Hs|]. intros n Hn. apply parse_int_spec in Hn. congruence. }
  assert (Hn : (match v with VBool _ | VInt _ | VInt64 _ | VFloat _ | VStr _ | VNum _ => False | _ => True end) -> integral W v 0).
  { intro H. apply IgOther; [|intros s ->; exact H|intros s ->; exact H].
    intros [f Hf]. inversion Hf as [|? z Hz]; subst; [exact H|]. inversion Hz; subst; exact H. }
  destruct v; cbn [cvi]; try (apply Hn; exact I).
  - apply IgInt. destruct b; constructor.
  - apply IgInt. constructor.
  - apply IgInt. constructor.
  - apply IgFloat. apply f2i_truncated.
  - destruct s as [|c s]; [|apply Ht; left; reflexivity]. pose proof (Ht [] (or_introl eq_refl)) as H. exact H.
  - apply Ht. right. reflexivity.
Qed.

Lemma numeric_text : forall v s, v = VStr s \/ v = VNum s -> ~ numeric v.
Proof.
  intros v s H [f Hf]. inversion Hf as [|? z Hz]; subst; [destruct H; discriminate|].
  inversion Hz; subst; destruct H; discriminate.
Qed.
Lemma int_numeric : forall v z, int_of v z -> numeric v.
Proof. intros v z H. eexists. apply FoInt. exact H. Qed.

Lemma integral_fun : forall W v n n', integral W v n -> integral W v n' -> n = n'.
Proof.
  intros W v n n' H H'.
  destruct H as [v n H|f n H|v s n Hs H|v s Hs H|v H Hs Hn]; inversion H' as [? ? G|? ? G|? s' ? Gs G|? s' Gs G|? G Gs Gn]; subst.
  - inversion H; subst; inversion G; reflexivity.
  - inversion H.
  - apply int_numeric in H. exfalso. exact (numeric_text _ _ Gs H).
  - apply int_numeric in H. exfalso. exact (numeric_text _ _ Gs H).
  - apply int_numeric in H. contradiction.
  - inversion G.
  - eapply truncated_fun; eassumption.
  - destruct Gs; discriminate.
  - destruct Gs; discriminate.
  - exfalso. apply G. eexists. constructor.
  - apply int_numeric in G. exfalso. exact (numeric_text _ _ Hs G).
  - destruct Hs; discriminate.
  - assert (s' = s) by (destruct Hs, Gs; congruence). subst s'. eapply int_text_fun; eassumption.
  - assert (s' = s) by (destruct Hs, Gs; congruence). subst s'. exfalso. exact (G _ H).
  - exfalso. destruct Hs; [exact (Gs _ H0)|exact (Gn _ H0)].
  - apply int_numeric in G. exfalso. exact (numeric_text _ _ Hs G).
  - destruct Hs; discriminate.
  - assert (s' = s) by (destruct Hs, Gs; congruence). subst s'. exfalso. exact (H _ G).
  - reflexivity.
  - reflexivity.
  - apply int_numeric in G. contradiction.
  - exfalso. apply H. eexists. constructor.
  - exfalso. destruct Gs; [exact (Hs _ H0)|exact (Hn _ H0)].
  - reflexivity.
  - reflexivity.
Qed.

Lemma cvi_range : forall W v, proper v -> -9223372036854775808 <= cvi W v <= 9223372036854775807.
Proof.
  intros W v H. destruct v; cbn [cvi proper] in *; try lia.
  - destruct b; lia.
  - unfold f2i. destruct (f_trunc f) as [z|].
    + destruct (in_int64b z) eqn:E; [apply in_int64b_spec in E; exact E|apply wrap_reduces].
    + apply wrap_reduces.
  - destruct s as [|c s]; [lia|]. destruct (parse_int (c :: s)) eqn:E; [|lia]. apply parse_int_spec in E. eapply int_text_range; eauto.
  - destruct (parse_int s) eqn:E; [|lia]. apply parse_int_spec in E. eapply int_text_range; eauto.
Qed.

Lemma mapKey_named : forall W v, ~ failure v -> (forall s, v <> VSlice s) -> named W v (mapKey W v).
Proof.
  intros W v H Hs. destruct v; cbn [mapKey]; try constructor.
  - destruct b; constructor.
  - rewrite sprint_int_decimal. constructor.
  - rewrite sprint_int_decimal. constructor.
  - rewrite sprint_int_decimal. constructor. apply f2i_truncated.
  - exfalso. exact (Hs s eq_refl).
  - exfalso. apply H. eexists. reflexivity.
Qed.

Lemma member_lookup : forall m k, NoDup (map fst m) ->
  member m k (match lookup k m with Some v => v | None => VErr KFailure end).
Proof.
  intros m k Hm. destruct (lookup k m) as [v|] eqn:E.
  - apply MbSome. clear Hm. induction m as [|[k' v'] m IH]; cbn [lookup] in E; [discriminate|].
    destruct (beqb k k') eqn:Ek; [|right; auto]. injection E as ->. apply beqb_eq in Ek. subst k'. left. reflexivity.
  - apply MbNone. clear Hm. induction m as [|[k' v'] m IH]; cbn [lookup] in E; [intros []|].
    destruct (beqb k k') eqn:Ek; [discriminate|]. intros [Hk|Hi]; [|exact (IH E Hi)].
    cbn [fst] in Hk. subst k'. rewrite (proj2 (beqb_eq k k) eq_refl) in Ek. discriminate.
Qed.

Lemma member_fun : forall m k v v', NoDup (map fst m) -> member m k v -> member m k v' -> v = v'.
Proof.
  intros m k v v' Hm H H'. destruct H as [v H|H], H' as [v' H'|H']; try reflexivity.
  - clear - Hm H H'. induction m as [|[k1 v1] m IH]; [destruct H|]. cbn [map fst] in Hm. apply NoDup_cons_iff in Hm as [Hn Hm].
    destruct H as [H|H], H' as [H'|H'].
    + congruence.
    + injection H as -> ->. exfalso. apply Hn. apply in_map_iff. exists (k, v'). auto.
    + injection H' as -> ->. exfalso. apply Hn. apply in_map_iff. exists (k, v). auto.
    + auto.
  - exfalso. apply H'. apply in_map_iff. exists (k, v). auto.
  - exfalso. apply H. apply in_map_iff. exists (k, v'). auto.
Qed.

Lemma element_fun : forall l n v v', element l n v -> element l n v' -> v = v'.
Proof.
  intros l n v v' H H'. destruct H as [k v H E|H], H' as [k' v' H' E'|H']; try reflexivity.
  - assert (k < length l)%nat by (apply nth_error_Some; congruence). assert (k' < length l)%nat by (apply nth_error_Some; congruence).
    assert (k = k') by lia. congruence.
  - assert (k < length l)%nat by (apply nth_error_Some; congruence). lia.
  - assert (k' < length l)%nat by (apply nth_error_Some; congruence). lia.
Qed.

Lemma computes_unique : forall W o vs v v', computes W o vs v -> computes W o vs v' -> inner_ok o (length vs) -> Z.of_nat (length vs) < 4194304 -> v = v'.
Proof.
  intros W o vs v v' H H' Ho Hl. specialize (H 0%nat). specialize (H' 0%nat).
  apply (operates_inv W 0%nat o vs _ Ho Hl) in H. apply (operates_inv W 0%nat o vs _ Ho Hl) in H'. congruence.
Qed.

Lemma exact_of : forall (P Q : val -> Prop) v, P v -> Q v -> (forall x, P x -> x = v) -> (forall x, Q x -> x = v) ->
  (exists v, P v) /\ forall v, P v <-> Q v.
Proof.
  intros P Q v HP HQ FP FQ. split; [eauto|]. intro x. split; intro H; [apply FP in H|apply FQ in H]; subst x; assumption.
Qed.

Lemma dot_exact : forall W a k, ~ failure a -> sized a -> k <> b_of "length" ->
  (exists v, dotted a k v) /\ forall v, dotted a k v <-> computes W OpDot [a; VName k] v.
Proof.
  intros W a k Ha Hs Hk.
  set (r := match a with VObj m => match lookup k m with Some v => v | None => VErr KFailure end | _ => VErr KFailure end).
  assert (HC : computes W OpDot [a; VName k] r).
  { apply computes2; [right; reflexivity|]. cbn [binop]. unfold op_dot, nothing.
    assert (En : isNothing a = false) by (destruct a; try reflexivity; exfalso; apply Ha; eexists; reflexivity).
    rewrite En. cbn [isNothing orb]. destruct (beqb k (b_of "length")) eqn:Ek; [apply beqb_eq in Ek; contradiction|].
    unfold r. destruct a; reflexivity. }
  assert (HD : dotted a k r).
  { unfold r. destruct a; try (apply DtOther; discriminate). eapply DtObj; [reflexivity|]. apply member_lookup. exact Hs. }
  eapply exact_of; [exact HD|exact HC| |].
  - intros x Hx. destruct HD as [m v E M|E], Hx as [m' v' E' M'|E']; subst; try reflexivity.
    + injection E' as <-. eapply member_fun; eauto.
    + exfalso. exact (E' m eq_refl).
    + exfalso. exact (E m' eq_refl).
  - intros x Hx. eapply computes_unique; [exact Hx|exact HC|reflexivity|cbn; lia].
Qed.

Lemma index_exact : forall W a i, ~ failure a -> ~ failure i -> (forall s, i <> VSlice s) -> sized a -> proper i ->
  (exists v, indexed W a i v) /\ forall v, indexed W a i v <-> computes W OpIndex [a; i] v.
Proof.
  intros W a i Ha Hi Hsl Hs Hp.
  assert (Ea : isNothing a = false) by (destruct a; try reflexivity; exfalso; apply Ha; eexists; reflexivity).
  assert (Ei : isNothing i = false) by (destruct i; try reflexivity; exfalso; apply Hi; eexists; reflexivity).
  enough (G : exists r, computes W OpIndex [a; i] r /\ indexed W a i r).
  { destruct G as (r & HC & HD). eapply exact_of; [exact HD|exact HC| |].
    - intros x Hx. destruct HD as [l n v E I M|m k v E N M|E1 E2], Hx as [l' n' v' E' I' M'|m' k' v' E' N' M'|E1' E2']; subst;
        try discriminate; try reflexivity; try (exfalso; first [eapply E1'; reflexivity|eapply E2'; reflexivity|eapply E1; reflexivity|eapply E2; reflexivity]).
      + injection E' as <-. assert (n = n') by (eapply integral_fun; eauto). subst n'. eapply element_fun; eauto.
      + injection E' as <-. assert (k = k') by (eapply named_fun; eauto). subst k'. eapply member_fun; eauto.
    - intros x Hx. eapply computes_unique; [exact Hx|exact HC|split; reflexivity|cbn; lia]. }
  assert (HB : forall r, op_index W a i = OK r -> computes W OpIndex [a; i] r).
  { intros r H. apply computes2; [left; reflexivity|]. cbn [binop]. rewrite H. reflexivity. }
  unfold op_index in HB. rewrite Ea, Ei in HB. cbn [orb] in HB.
  destruct a; try (exists (VErr KFailure); split; [apply HB; reflexivity|apply IxOther; discriminate]).
  - pose proof (cvi_range W i Hp) as Hr. pose proof (cvi_integral W i) as HI. cbn [sized] in Hs.
    set (n := cvi W i) in *.
    assert (Hw : (if n <? 0 then wrap64 (n + Z.of_nat (length l)) else n) = if n <? 0 then n + Z.of_nat (length l) else n).
    { destruct (n <? 0) eqn:E; [|reflexivity]. apply wrap64_id. unfold in_int64, min_int64, max_int64. lia. }
    rewrite Hw in HB. clear Hw. set (k := if n <? 0 then n + Z.of_nat (length l) else n) in *.
    destruct ((k <? 0) || (k >=? Z.of_nat (length l))) eqn:Ek.
    + exists (VErr KFailure). split; [apply HB; reflexivity|]. eapply IxArr; [reflexivity|exact HI|].
      apply ElNone. unfold k in Ek. destruct (n <? 0) eqn:En; lia.
    + assert (Hn : nth_error l (Z.to_nat k) <> None) by (apply nth_error_Some; lia).
      destruct (nth_error l (Z.to_nat k)) as [x|] eqn:Ex; [|contradiction].
      exists x. split.
      * apply HB. unfold index_Z. destruct (k <? 0) eqn:E0; [lia|]. rewrite Ex. reflexivity.
      * eapply IxArr; [reflexivity|exact HI|]. eapply ElSome; [exact Ex|]. unfold k in *. destruct (n <? 0) eqn:En; lia.
  - eexists. split; [apply HB; reflexivity|]. eapply IxObj; [reflexivity|apply mapKey_named; assumption|].
    cbn [valByKey]. apply member_lookup. exact Hs.
Qed.

Lemma neg_exact : forall W a, ~ failure a -> proper a ->
  (exists v, negated W a v) /\ forall v, negated W a v <-> computes W OpNeg [a] v.
Proof.
  intros W a Ha Hp.
  assert (Ea : isNothing a = false) by (destruct a; try reflexivity; exfalso; apply Ha; eexists; reflexivity).
  assert (HB : computes W OpNeg [a] (op_neg W a)) by (apply computes1; [left|]; reflexivity).
  assert (HD : negated W a (op_neg W a)).
  { unfold op_neg. rewrite Ea.
    assert (HI : ~ is_float a -> negated W a (VInt64 (neg64 (cvi W a)))).
    { intro H. eapply NgInt; [exact H|apply cvi_integral|]. apply wrap_reduces. }
    destruct a; try (apply HI; intros [f E]; discriminate). apply NgFloat. reflexivity. }
  eapply exact_of; [exact HD|exact HB| |].
  - intros x Hx. destruct HD as [f E|n z E I R], Hx as [f' E'|n' z' E' I' R'].
    + congruence.
    + exfalso. apply E'. eexists. exact E.
    + exfalso. apply E. eexists. exact E'.
    + f_equal. assert (n = n') by (eapply integral_fun; eauto). subst n'. eapply reduces_unique; eauto.
  - intros x Hx. eapply computes_unique; [exact Hx|exact HB|reflexivity|cbn; lia].
Qed.

Lemma array_exact : forall W l, computes W OpArray l (VArr l).
Proof.
  intros W l t. apply (operates_apply W t OpArray l); [exact I|discriminate].
Qed.
