(** The lexers read exactly the tokens of the grammar. *)
From Verif Require Import SpecGrammar Lexer Parser.
Local Open Scope Z_scope.

Ltac zb := repeat (rewrite ?andb_true_iff, ?orb_true_iff, ?Z.leb_le, ?Z.eqb_eq in * ); try lia.

(** ** Characters *)
Lemma isDigit_iff : forall c, isDigit c = true <-> digit c.
Proof. intro. unfold isDigit, digit. zb. Qed.
Lemma isHexDigit_iff : forall c, isHexDigit c = true <-> hexdigit c.
Proof. intro. unfold isHexDigit, isDigit, hexdigit. zb. Qed.
Lemma isLetter_iff : forall c, isLetter c = true <-> letter c.
Proof. intro. unfold isLetter, letter. zb. Qed.
Lemma isSpace_iff : forall c, isSpace c = true <-> space c.
Proof. intro. unfold isSpace, space. zb. Qed.
Lemma isAlphanumeric_iff : forall c, isAlphanumeric c = true <-> name_char false c.
Proof.
  intro. unfold isAlphanumeric, name_char. rewrite orb_true_iff, isLetter_iff, isDigit_iff.
  intuition discriminate.
Qed.
Lemma isAlphanumericDash_iff : forall c, isAlphanumericDash c = true <-> name_char true c.
Proof.
  intro. unfold isAlphanumericDash, name_char.
  rewrite !orb_true_iff, isLetter_iff, isDigit_iff, Z.eqb_eq. intuition.
Qed.

Lemma iff_false : forall b (P : Prop), (b = true <-> P) -> (b = false <-> ~ P).
Proof. intros [] P H; intuition congruence. Qed.

(** ** Spans *)
Lemma span_aux_spec : forall pred a b w r, span_aux pred b a = (w, r) ->
  a = w ++ rd_after r /\ rd_before r = rev w ++ b /\ Forall (fun c => pred c = true) w /\
  not_next (fun c => pred c = true) (rd_after r).
Proof.
  intros pred. induction a as [|c a IH]; intros b w r H; simpl in H.
  - injection H as <- <-. simpl. auto.
  - destruct (pred c) eqn:E.
    + destruct (span_aux pred (c :: b) a) as [w' r'] eqn:E'. injection H as <- <-.
      apply IH in E' as (H1 & H2 & H3 & H4). simpl. rewrite H2, <- app_assoc.
      repeat split; auto. congruence.
    + injection H as <- <-. simpl. repeat split; auto. congruence.
Qed.

Lemma span_aux_app : forall pred w a b, Forall (fun c => pred c = true) w ->
  not_next (fun c => pred c = true) a ->
  span_aux pred b (w ++ a) = (w, mkRd (rev w ++ b) a).
Proof.
  intros pred. induction w as [|c w IH]; intros a b Hw Ha; simpl.
  - destruct a as [|c a]; simpl; auto. simpl in Ha. destruct (pred c); [congruence|auto].
  - inversion Hw; subst. rewrite H1. rewrite IH by assumption. rewrite <- app_assoc. reflexivity.
Qed.

Lemma rd_span_spec : forall pred r w r', rd_span pred r = (w, r') ->
  rd_after r = w ++ rd_after r' /\ rd_before r' = rev w ++ rd_before r /\
  Forall (fun c => pred c = true) w /\ not_next (fun c => pred c = true) (rd_after r').
Proof. intros. unfold rd_span in H. eapply span_aux_spec; eauto. Qed.

Lemma rd_span_app : forall pred b w a, Forall (fun c => pred c = true) w ->
  not_next (fun c => pred c = true) a ->
  rd_span pred (mkRd b (w ++ a)) = (w, mkRd (rev w ++ b) a).
Proof. intros. unfold rd_span. simpl. apply span_aux_app; assumption. Qed.

Lemma Forall_iff : forall (P Q : Z -> Prop) l, (forall c, P c <-> Q c) -> Forall P l <-> Forall Q l.
Proof. intros P Q l H. rewrite !Forall_forall. split; intros K x Hx; apply H; auto. Qed.

Lemma not_next_iff : forall (P Q : Z -> Prop) s, (forall c, P c <-> Q c) -> not_next P s <-> not_next Q s.
Proof. intros P Q [|c s] H; simpl; [tauto|]. rewrite (H c). tauto. Qed.

Lemma ws_spec : forall r, exists w, rd_after r = w ++ rd_after (ws r) /\
  rd_before (ws r) = rev w ++ rd_before r /\
  Forall space w /\ not_next space (rd_after (ws r)).
Proof.
  intro r. unfold ws. destruct (rd_span isSpace r) as [w r'] eqn:E.
  apply rd_span_spec in E as (H1 & H2 & H3 & H4). exists w. simpl.
  rewrite (Forall_iff _ _ w isSpace_iff) in H3. rewrite (not_next_iff _ _ _ isSpace_iff) in H4. auto.
Qed.

Lemma ws_app : forall b w a, Forall space w -> not_next space a ->
  ws (mkRd b (w ++ a)) = mkRd (rev w ++ b) a.
Proof.
  intros b w a Hw Ha. unfold ws. rewrite rd_span_app; [reflexivity| |].
  - apply (Forall_iff _ _ w isSpace_iff). assumption.
  - apply (not_next_iff _ _ a isSpace_iff). assumption.
Qed.

(** ** Decimal literals *)
Lemma dec_acc_digits : forall ds a, Forall digit ds ->
  dec_acc a ds = Some (fold_left (fun a c => 10 * a + (c - 48)) ds a).
Proof.
  induction ds as [|c ds IH]; intros a H; cbn [fold_left dec_acc hex_acc]; auto. inversion H; subst.
  assert (is_dec_digit c = true) as -> by (apply isDigit_iff; assumption). apply IH; assumption.
Qed.

Lemma fold_dec_nonneg : forall ds a, 0 <= a -> Forall digit ds ->
  0 <= fold_left (fun a c => 10 * a + (c - 48)) ds a.
Proof.
  induction ds as [|c ds IH]; intros a Ha H; cbn [fold_left]; auto.
  inversion H as [|? ? Hc Hds]; subst. unfold digit in Hc. apply IH; auto. lia.
Qed.

Lemma dec_val_nonneg : forall ds, Forall digit ds -> 0 <= dec_val ds.
Proof. intros. apply fold_dec_nonneg; auto. lia. Qed.

Lemma parse_int_digits : forall ds, ds <> [] -> Forall digit ds ->
  parse_int ds = if dec_val ds <? 2 ^ 63 then Some (dec_val ds) else None.
Proof.
  intros ds Hn H. destruct ds as [|c ds]; [congruence|]. pose proof H as H'.
  inversion H; subst. unfold digit in H2. unfold parse_int.
  destruct (Z.eqb_spec c 43); [lia|]. destruct (Z.eqb_spec c 45); [lia|]. cbn [orb].
  unfold parse_udec. rewrite dec_acc_digits by assumption. fold (dec_val (c :: ds)). reflexivity.
Qed.

(** ** Escapes and string literals *)
Lemma hex_digit_eq : forall c, hexdigit c -> hex_digit c = hex_digit_val c.
Proof.
  intros c H. unfold hexdigit in H. unfold hex_digit, hex_digit_val, is_dec_digit.
  destruct (Z.leb_spec 48 c), (Z.leb_spec c 57), (Z.leb_spec 97 c), (Z.leb_spec c 102),
    (Z.leb_spec c 70); simpl; lia.
Qed.

Lemma hex_acc_eq : forall ds a, Forall hexdigit ds ->
  hex_acc a ds = fold_left (fun a c => 16 * a + hex_digit_val c) ds a.
Proof.
  induction ds as [|c ds IH]; intros a H; cbn [fold_left dec_acc hex_acc]; auto. inversion H; subst.
  rewrite hex_digit_eq by assumption. apply IH; assumption.
Qed.

Lemma hex_loop_ok : forall i acc b a ds r, (forall c, In c a -> 0 <= c) ->
  hex_loop i acc (mkRd b a) = (inl ds, r) ->
  exists hs, ds = acc ++ hs /\ length hs = i /\ Forall hexdigit hs /\ a = hs ++ rd_after r /\
    rd_before r = rev hs ++ b.
Proof.
  induction i as [|i IH]; intros acc b a ds r Hb H; simpl in H.
  - injection H as <- <-. exists []. rewrite app_nil_r. simpl. auto.
  - destruct a as [|c a]; simpl in H; [discriminate|].
    destruct (Z.eqb_spec c eof); [discriminate|].
    destruct (isHexDigit c) eqn:E; simpl in H; [|discriminate].
    apply IH in H as (hs & H1 & H2 & H3 & H4 & H5); [|intros; apply Hb; right; assumption].
    exists (c :: hs). rewrite <- app_assoc in H1. simpl. repeat split; auto; try congruence.
    + constructor; auto. apply isHexDigit_iff; assumption.
    + rewrite H5, <- app_assoc. reflexivity.
Qed.

Lemma hex_loop_app : forall hs acc b a, Forall hexdigit hs ->
  hex_loop (length hs) acc (mkRd b (hs ++ a)) = (inl (acc ++ hs), mkRd (rev hs ++ b) a).
Proof.
  induction hs as [|c hs IH]; intros acc b a H; simpl.
  - rewrite app_nil_r. reflexivity.
  - inversion H; subst. destruct (Z.eqb_spec c eof).
    { unfold hexdigit, eof in *. lia. }
    assert (isHexDigit c = true) as -> by (apply isHexDigit_iff; assumption). simpl.
    rewrite IH by assumption. rewrite <- !app_assoc. reflexivity.
Qed.

Definition nonneg (s : bytes) : Prop := Forall (fun c => 0 <= c) s.

Lemma escaped_ok : forall q b a rv r, nonneg a -> q = 34 \/ q = 39 ->
  escaped q (mkRd b a) = (inl rv, r) ->
  exists t, esc_item q t rv /\ a = t ++ rd_after r /\ rd_before r = rev t ++ b.
Proof.
  intros q b a rv r Hn Hq H. unfold escaped in H. destruct a as [|c a]; cbn [rd_get rd_after rd_before] in H; [discriminate|].
  destruct (Z.eqb_spec c eof); [discriminate|].
  destruct (Z.eqb_spec c 92); [injection H as <- <-; subst; exists [92]; split; [constructor|auto]|].
  destruct (Z.eqb_spec c 47); [injection H as <- <-; subst; exists [47]; split; [constructor|auto]|].
  cbn [orb] in H.
  destruct (Z.eqb_spec c 116); [injection H as <- <-; subst; exists [116]; split; [constructor|auto]|].
  destruct (Z.eqb_spec c 102); [injection H as <- <-; subst; exists [102]; split; [constructor|auto]|].
  destruct (Z.eqb_spec c 110); [injection H as <- <-; subst; exists [110]; split; [constructor|auto]|].
  destruct (Z.eqb_spec c 114); [injection H as <- <-; subst; exists [114]; split; [constructor|auto]|].
  destruct (Z.eqb_spec c 98); [injection H as <- <-; subst; exists [98]; split; [constructor|auto]|].
  destruct (Z.eqb_spec c 117).
  - destruct (hex_loop 4 [] (mkRd (c :: b) a)) as [[ds|er] r'] eqn:E; [|discriminate].
    injection H as <- <-.
    apply hex_loop_ok in E as (hs & H1 & H2 & H3 & H4 & H5).
    2:{ inversion Hn; subst. intros x Hx. eapply Forall_forall in H2; eauto. }
    subst ds c. simpl in *.
    destruct hs as [|h1 [|h2 [|h3 [|h4 [|]]]]]; try discriminate.
    assert (Hx : hexdigit h1 /\ hexdigit h2 /\ hexdigit h3 /\ hexdigit h4)
      by (rewrite !Forall_cons_iff in H3; tauto).
    destruct Hx as (Hx1 & Hx2 & Hx3 & Hx4).
    exists [117; h1; h2; h3; h4]. split.
    + rewrite (hex_acc_eq [h1; h2; h3; h4] 0 H3). constructor; assumption.
    + split; [rewrite H4; reflexivity|rewrite H5; reflexivity].
  - destruct (Z.eqb_spec c q); simpl in H; [|discriminate].
    injection H as <- <-. subst. exists [q]. split; [constructor|auto].
Qed.

Lemma escaped_app : forall q b a t rv, q = 34 \/ q = 39 -> esc_item q t rv ->
  escaped q (mkRd b (t ++ a)) = (inl rv, mkRd (rev t ++ b) a).
Proof.
  intros q b a t rv Hq H. destruct H; try reflexivity.
  - destruct Hq; subst; reflexivity.
  - assert (Hf : Forall hexdigit [a0; b0; c; d]) by (repeat (apply Forall_cons; [assumption|]); apply Forall_nil).
    unfold escaped. cbn [rd_get rd_after app rd_before].
    change (117 =? eof) with false. change (117 =? 92) with false. change (117 =? 47) with false.
    change (117 =? 116) with false. change (117 =? 102) with false. change (117 =? 110) with false.
    change (117 =? 114) with false. change (117 =? 98) with false. change (117 =? 117) with true.
    cbn [orb].
    pose proof (hex_loop_app [a0; b0; c; d] [] (117 :: b) a Hf) as Hl.
    change (length [a0; b0; c; d]) with 4%nat in Hl. cbn [app] in Hl. rewrite Hl.
    cbn [app]. rewrite (hex_acc_eq _ 0 Hf). f_equal.
Qed.

Lemma esc_item_range : forall q t rv, q = 34 \/ q = 39 -> esc_item q t rv -> 0 <= rv < 65536.
Proof.
  intros q t rv Hq H. destruct H; try lia.
  assert (V : forall x, hexdigit x -> 0 <= hex_digit_val x < 16).
  { intros x Hx. unfold hexdigit, hex_digit_val in *.
    destruct (Z.leb_spec x 57), (Z.leb_spec x 70); lia. }
  apply V in H, H0, H1, H2. unfold hex_val. cbn [fold_left]. lia.
Qed.

Lemma is_surrogate_eq : forall r, is_surrogate r = surrogate r.
Proof.
  intro. unfold is_surrogate, surrogate, high_surrogate, low_surrogate.
  destruct (Z.leb_spec 55296 r), (Z.leb_spec r 57343), (Z.leb_spec r 56319), (Z.leb_spec 56320 r);
    simpl; auto; lia.
Qed.

Lemma utf16_decode_eq : forall h l, utf16_decode h l =
  if high_surrogate h && low_surrogate l then combine_pair h l else rune_error.
Proof.
  intros. unfold utf16_decode, high_surrogate, low_surrogate, combine_pair.
  replace (h <? 56320) with (h <=? 56319)
    by (destruct (Z.ltb_spec h 56320), (Z.leb_spec h 56319); auto; lia).
  replace (l <? 57344) with (l <=? 57343)
    by (destruct (Z.ltb_spec l 57344), (Z.leb_spec l 57343); auto; lia).
  rewrite andb_assoc.
  destruct ((55296 <=? h) && (h <=? 56319) && (56320 <=? l) && (l <=? 57343)); [ring|reflexivity].
Qed.

Lemma combine_pair_range : forall h l, high_surrogate h && low_surrogate l = true ->
  65536 <= combine_pair h l.
Proof.
  intros h l H. unfold high_surrogate, low_surrogate, combine_pair in *.
  rewrite !andb_true_iff, !Z.leb_le in H. lia.
Qed.

Lemma surrogate_nonzero : forall r, surrogate r = true -> r <> 0.
Proof. intros r H ->. discriminate. Qed.

(** the pending surrogate of the model's loop, 0 if there is none *)
Definition pend (surr : Z) : option Z := if surr =? 0 then None else Some surr.

(** the reader after the loop's last get has been undone *)
Definition after_run (b a : bytes) : rd :=
  match a with
  | [] => rd_unget (mkRd b [])
  | _ => mkRd b a
  end.

Lemma get_unget : forall b a, not_next (eq 92) a ->
  let (c, r) := rd_get (mkRd b a) in (c =? 92) = false /\ rd_unget r = after_run b a.
Proof.
  intros b a H. destruct a as [|c a]; simpl.
  - split; reflexivity.
  - simpl in H. split; [apply Z.eqb_neq; congruence|reflexivity].
Qed.

(** what the escape loop accumulates for one code *)
Lemma esc_loop_unfold : forall n q surr acc r rv r1,
  escaped q r = (inl rv, r1) -> surr = 0 \/ surrogate surr = true -> 
  esc_loop (S n) q surr acc r =
  let '(acc', surr') :=
    match pend surr with
    | None => if surrogate rv then (acc, rv) else (acc ++ utf8_encode rv, 0)
    | Some h =>
      if high_surrogate h && low_surrogate rv then (acc ++ utf8_encode (combine_pair h rv), 0)
      else (acc ++ replacement ++ utf8_encode rv, 0)
    end in
  let (c, r2) := rd_get r1 in
  if c =? 92 then esc_loop n q surr' acc' r2
  else (inl (match pend surr' with None => acc' | Some _ => acc' ++ replacement end), rd_unget r2).
Proof.
  intros n q surr acc r rv r1 He Hs. cbn [esc_loop]. rewrite He.
  rewrite utf16_decode_eq, is_surrogate_eq. unfold pend.
  assert (Hrep : utf8_encode rune_error = replacement) by reflexivity.
  destruct (Z.eqb_spec surr 0) as [E|E]; cbn [negb].
  - destruct (surrogate rv) eqn:Er.
    + pose proof (surrogate_nonzero _ Er). destruct (rd_get r1) as [c r2].
      destruct (c =? 92); auto. destruct (Z.eqb_spec rv 0); [congruence|]. cbn [negb].
      rewrite Hrep. reflexivity.
    + destruct (rd_get r1) as [c r2]. destruct (c =? 92); auto.
  - destruct (high_surrogate surr && low_surrogate rv) eqn:Ep.
    + pose proof (combine_pair_range _ _ Ep) as Hc.
      destruct (Z.eqb_spec (combine_pair surr rv) rune_error) as [E'|E'].
      { unfold rune_error in E'. lia. }
      cbn [negb]. destruct (rd_get r1) as [c r2]. destruct (c =? 92); auto.
    + rewrite Z.eqb_refl. cbn [negb]. rewrite Hrep, <- app_assoc.
      destruct (rd_get r1) as [c r2]. destruct (c =? 92); auto.
Qed.

Lemma esc_item_nonempty : forall q t rv, esc_item q t rv -> t <> [].
Proof. intros q t rv H. destruct H; discriminate. Qed.

Lemma esc_loop_ok : forall n q surr acc b a acc' r, nonneg a -> q = 34 \/ q = 39 ->
  surr = 0 \/ surrogate surr = true ->
  esc_loop n q surr acc (mkRd b a) = (inl acc', r) ->
  exists u rs t, 92 :: a = u ++ t /\ esc_run q u rs /\ not_next (eq 92) t /\
    acc' = acc ++ run_value (pend surr) rs /\ r = after_run (rev (tl u) ++ b) t.
Proof.
  induction n as [|n IH]; intros q surr acc b a acc' r Hn Hq Hs H; [discriminate|].
  destruct (escaped q (mkRd b a)) as [[rv|e] r1] eqn:E.
  2:{ cbn [esc_loop] in H. rewrite E in H. discriminate. }
  rewrite (esc_loop_unfold _ _ _ _ _ _ _ E Hs) in H.
  destruct (escaped_ok _ _ _ _ _ Hn Hq E) as (it & Hit & Ha & Hb).
  destruct r1 as [b1 a1]. simpl in Ha, Hb. subst a b1.
  assert (Hn1 : nonneg a1) by (apply Forall_app in Hn; tauto).
  set (p := match pend surr with
    | None => if surrogate rv then (acc, rv) else (acc ++ utf8_encode rv, 0)
    | Some h =>
      if high_surrogate h && low_surrogate rv then (acc ++ utf8_encode (combine_pair h rv), 0)
      else (acc ++ replacement ++ utf8_encode rv, 0)
    end) in H.
  assert (Hp : (snd p = 0 \/ surrogate (snd p) = true) /\
    forall rs, acc ++ run_value (pend surr) (rv :: rs) = fst p ++ run_value (pend (snd p)) rs).
  { unfold p. cbn [run_value]. destruct (pend surr) as [h|].
    - destruct (high_surrogate h && low_surrogate rv); cbn [fst snd pend]; (split; [auto|]);
        intro rs; change (pend 0) with (@None Z); rewrite <- !app_assoc; reflexivity.
    - destruct (surrogate rv) eqn:Er; cbn [fst snd]; (split; [auto|]); intro rs.
      + pose proof (surrogate_nonzero _ Er). unfold pend. destruct (Z.eqb_spec rv 0); [congruence|].
        reflexivity.
      + change (pend 0) with (@None Z). rewrite <- app_assoc. reflexivity. }
  destruct p as [acc1 surr1]. cbn [fst snd] in Hp. destruct Hp as [Hs1 Hv].
  destruct a1 as [|c a1].
  - cbn [rd_get rd_after] in H. change (eof =? 92) with false in H. cbv iota in H.
    injection H as <- <-. exists (92 :: it), [rv], []. rewrite Hv.
    split; [reflexivity|]. split; [constructor; assumption|]. split; [exact I|].
    split; [|reflexivity]. simpl. destruct (pend surr1); [reflexivity|]. rewrite app_nil_r. reflexivity.
  - cbn [rd_get rd_after rd_before] in H. destruct (Z.eqb_spec c 92).
    + subst c. apply IH in H; auto.
      2:{ inversion Hn1; assumption. }
      destruct H as (u & rs & t & H1 & H2 & H3 & H4 & H5).
      exists (92 :: it ++ u), (rv :: rs), t. rewrite Hv.
      split; [cbn [app]; rewrite <- app_assoc, <- H1; reflexivity|].
      split; [constructor; assumption|]. split; [assumption|]. split; [assumption|].
      rewrite H5. f_equal. inversion H2; subst; cbn [tl app];
        rewrite ?rev_app_distr; cbn [rev]; rewrite ?rev_app_distr; rewrite <- ?app_assoc; reflexivity.
    + injection H as <- <-. exists (92 :: it), [rv], (c :: a1). rewrite Hv.
      split; [reflexivity|]. split; [constructor; assumption|]. split; [simpl; congruence|].
      split; [|reflexivity]. simpl. destruct (pend surr1); [reflexivity|]. rewrite app_nil_r. reflexivity.
Qed.

Lemma esc_loop_app : forall q u rs, esc_run q u rs -> q = 34 \/ q = 39 ->
  forall n surr acc b t, (length u <= n)%nat -> surr = 0 \/ surrogate surr = true ->
  not_next (eq 92) t ->
  esc_loop n q surr acc (mkRd b (tl u ++ t)) =
    (inl (acc ++ run_value (pend surr) rs), after_run (rev (tl u) ++ b) t).
Proof.
  intros q u rs Hr Hq. induction Hr; intros n surr acc b tt Hn Hs Ht.
  - destruct n as [|n]; [simpl in Hn; lia|].
    cbn [tl]. rewrite (esc_loop_unfold _ _ _ _ _ _ _ (escaped_app q b tt t r Hq H) Hs).
    pose proof (get_unget (rev t ++ b) tt Ht) as Hg.
    cbn [run_value].
    destruct (rd_get (mkRd (rev t ++ b) tt)) as [c r2]. destruct Hg as [Hc Hu].
    destruct (pend surr) as [h|].
    + destruct (high_surrogate h && low_surrogate r); rewrite Hc, Hu;
        change (pend 0) with (@None Z); rewrite ?app_nil_r; reflexivity.
    + destruct (surrogate r) eqn:Er; rewrite Hc, Hu.
      * pose proof (surrogate_nonzero _ Er). unfold pend. destruct (Z.eqb_spec r 0); [congruence|].
        reflexivity.
      * change (pend 0) with (@None Z). rewrite app_nil_r. reflexivity.
  - destruct n as [|n]; [simpl in Hn; lia|].
    cbn [tl]. rewrite <- app_assoc.
    rewrite (esc_loop_unfold _ _ _ _ _ _ _ (escaped_app q b (u ++ tt) t r Hq H) Hs).
    assert (Hu : exists u', u = 92 :: u') by (inversion Hr; subst; eauto).
    destruct Hu as [u' ->]. cbn [app rd_get rd_after rd_before]. change (92 =? 92) with true.
    cbv iota. cbn [tl] in IHHr. cbn [length] in Hn. rewrite app_length in Hn. cbn [length] in Hn.
    assert (Hn' : (length (92%Z :: u') <= n)%nat) by (cbn [length]; lia).
    assert (Hrev : forall x : bytes, rev u' ++ 92 :: rev t ++ x = rev (t ++ 92 :: u') ++ x).
    { intro x. rewrite rev_app_distr. cbn [rev]. rewrite <- !app_assoc. reflexivity. }
    cbn [run_value].
    destruct (pend surr) as [h|].
    + destruct (high_surrogate h && low_surrogate r).
      * rewrite IHHr by auto. change (pend 0) with (@None Z). rewrite Hrev, <- !app_assoc. reflexivity.
      * rewrite IHHr by auto. change (pend 0) with (@None Z). rewrite Hrev, <- !app_assoc. reflexivity.
    + destruct (surrogate r) eqn:Er.
      * rewrite IHHr by auto. pose proof (surrogate_nonzero _ Er).
        assert (pend r = Some r) as -> by (unfold pend; destruct (Z.eqb_spec r 0); congruence).
        rewrite Hrev. reflexivity.
      * rewrite IHHr by auto. change (pend 0) with (@None Z). rewrite Hrev, <- !app_assoc. reflexivity.
Qed.

(** *** the loop over a string literal *)
Lemma esc_run_len : forall q u rs, esc_run q u rs -> (2 <= length u)%nat /\ exists u', u = 92 :: u'.
Proof.
  intros q u rs H. destruct H as [t r H|t r u rs H _]; split; eauto; cbn [length];
    rewrite ?app_length; apply esc_item_nonempty in H; destruct t; try congruence; simpl; lia.
Qed.

Lemma esc_run_last : forall q u rs, esc_run q u rs -> exists u' c, u = 92 :: u' ++ [c].
Proof.
  intros q u rs H. apply esc_run_len in H as [Hl [u' ->]].
  destruct (@exists_last _ u') as [u'' [c ->]]; [|eauto].
  intros ->. simpl in Hl. lia.
Qed.

(** the last character of a run of escapes that is not a quote is neither a quote nor
    of the kind the outer loop treats specially, except a backslash *)
Lemma nonneg_app_r : forall a b, nonneg (a ++ b) -> nonneg b.
Proof. intros a b H. apply Forall_app in H. tauto. Qed.

Lemma esc_item_last : forall q t rv, q = 34 \/ q = 39 -> esc_item q t rv ->
  exists t' c, t = t' ++ [c] /\ 32 <= c.
Proof.
  intros q t rv Hq H. destruct H.
  - exists [], 92. split; [reflexivity|lia].
  - exists [], 47. split; [reflexivity|lia].
  - exists [], 116. split; [reflexivity|lia].
  - exists [], 102. split; [reflexivity|lia].
  - exists [], 110. split; [reflexivity|lia].
  - exists [], 114. split; [reflexivity|lia].
  - exists [], 98. split; [reflexivity|lia].
  - exists [], q. split; [reflexivity|lia].
  - exists [117; a; b; c], d. split; [reflexivity|]. unfold hexdigit in *; lia.
Qed.

Lemma after_run_nil : forall b c, after_run (c :: b) [] = mkRd b [c].
Proof. reflexivity. Qed.

(** What the outer loop does once the escape loop has been stopped by the end of the
    text: it reads the last character again. *)
Lemma reread_last : forall n q acc b c,
  lexString_loop (S n) q acc (mkRd b [c]) =
  if c =? eof then (inr EUnclosedString, mkRd (c :: b) [])
  else if c =? q then (inl acc, mkRd (c :: b) [])
  else if c =? 92 then (inr EUnclosedString, mkRd (c :: b) [])
  else if c <? 32 then (inr ECtrlChar, mkRd (c :: b) [])
  else lexString_loop n q (acc ++ [c]) (mkRd (c :: b) []).
Proof.
  intros. cbn [lexString_loop rd_get rd_after rd_before]. destruct (c =? eof); auto.
Qed.

Lemma lexString_loop_end : forall n q acc b,
  lexString_loop n q acc (mkRd b []) =
  (inr (match n with O => EFuel | _ => EUnclosedString end), mkRd b []).
Proof. intros [|n] q acc b; reflexivity. Qed.

Lemma lexString_loop_ok : forall n q acc b a v r, nonneg a -> q = 34 \/ q = 39 ->
  lexString_loop n q acc (mkRd b a) = (inl v, r) ->
  exists v', v = acc ++ v' /\
    ((exists t, str_body q t v' /\ a = t ++ q :: rd_after r) \/
     (str_open q a v' /\ rd_after r = [])).
Proof.
  induction n as [|n IH]; intros q acc b a v r Hn Hq H; [discriminate|].
  destruct a as [|c a].
  { rewrite lexString_loop_end in H. discriminate. }
  cbn [lexString_loop rd_get rd_after rd_before] in H.
  destruct (Z.eqb_spec c eof); [discriminate|].
  destruct (Z.eqb_spec c q) as [->|Hcq].
  { injection H as <- <-. exists []. rewrite app_nil_r. split; auto. left. exists [].
    split; [constructor|reflexivity]. }
  destruct (Z.eqb_spec c 92) as [->|Hc92].
  - destruct (esc_loop (S (length a)) q 0 acc (mkRd (92 :: b) a)) as [[acc'|er] r2] eqn:E;
      [|discriminate].
    assert (Hna : nonneg a) by (inversion Hn; assumption).
    apply esc_loop_ok in E; auto.
    destruct E as (u & rs & t & E1 & E2 & E3 & E4 & E5).
    change (pend 0) with (@None Z) in E4.
    pose proof (esc_run_len _ _ _ E2) as [Hl [u' Hu]].
    destruct t as [|c1 t].
    + (* the run reaches the end of the text *)
      rewrite app_nil_r in E1. subst u. cbn [tl] in E5.
      destruct (@exists_last _ a) as [a' [c ->]].
      { intros ->. simpl in Hl. lia. }
      rewrite rev_app_distr in E5. cbn [rev app] in E5. rewrite after_run_nil in E5. subst r2.
      destruct n as [|n]; [discriminate|]. rewrite reread_last in H.
      destruct (Z.eqb_spec c eof); [discriminate|].
      destruct (Z.eqb_spec c q) as [->|Hcq'].
      * injection H as <- <-. exists (run_value None rs). split; [assumption|]. right.
        split; [|reflexivity]. econstructor; [eassumption|]. exists (92 :: a'). reflexivity.
      * destruct (c =? 92); [discriminate|]. destruct (c <? 32); [discriminate|].
        rewrite lexString_loop_end in H. discriminate.
    + rewrite E5 in H. cbn [after_run] in H. apply IH in H; auto.
      2:{ subst u. cbn [app] in E1. injection E1 as E1. rewrite E1 in Hna.
          apply nonneg_app_r in Hna. assumption. }
      destruct H as (v' & Hv & Hor). exists (run_value None rs ++ v').
      split; [rewrite Hv, E4, app_assoc; reflexivity|]. rewrite E1.
      destruct Hor as [(t' & Ht' & Ha)|[Ho Ha]].
      * left. exists (u ++ t'). rewrite <- app_assoc, <- Ha. split; [|reflexivity].
        constructor; auto. destruct t' as [|c2 t']; [exact I|]. injection Ha as -> _. exact E3.
      * right. split; auto. constructor; auto.
  - destruct (Z.ltb_spec c 32); [discriminate|].
    apply IH in H; auto. 2:{ inversion Hn; assumption. }
    destruct H as (v' & Hv & Hor). exists (c :: v'). rewrite <- app_assoc in Hv. split; [assumption|].
    destruct Hor as [(t' & Ht' & Ha)|[Ho Ha]].
    + left. exists (c :: t'). subst a. split; [constructor; auto|reflexivity].
    + right. split; auto. constructor; auto.
Qed.

Lemma lexString_body : forall q t v, str_body q t v -> q = 34 \/ q = 39 ->
  forall n acc b rest, (length t < n)%nat ->
  lexString_loop n q acc (mkRd b (t ++ q :: rest)) = (inl (acc ++ v), mkRd (q :: rev t ++ b) rest).
Proof.
  intros q t v H Hq. induction H; intros n acc b rest Hn.
  - destruct n as [|n]; [simpl in Hn; lia|]. cbn [app lexString_loop rd_get rd_after rd_before].
    rewrite app_nil_r. rewrite Z.eqb_refl.
    destruct (Z.eqb_spec q eof); [unfold eof in *; lia|]. reflexivity.
  - destruct n as [|n]; [simpl in Hn; lia|]. cbn [app lexString_loop rd_get rd_after rd_before].
    destruct (Z.eqb_spec c eof); [unfold eof in *; lia|].
    destruct (Z.eqb_spec c q); [congruence|]. destruct (Z.eqb_spec c 92); [congruence|].
    destruct (Z.ltb_spec c 32); [lia|]. cbn [length] in Hn.
    rewrite IHstr_body by lia. cbn [rev]. rewrite <- !app_assoc. reflexivity.
  - destruct n as [|n]; [lia|]. pose proof (esc_run_len _ _ _ H) as [Hl [u' Hu]].
    rewrite app_length in Hn.
    rewrite <- app_assoc. subst u. cbn [app lexString_loop rd_get rd_after rd_before].
    change (92 =? eof) with false. change (92 =? 92) with true.
    destruct (Z.eqb_spec 92 q); [lia|]. cbv iota.
    assert (Hne : not_next (eq 92) (t ++ q :: rest)).
    { destruct t; simpl; [lia|assumption]. }
    pose proof (esc_loop_app q (92 :: u') rs H Hq
      (S (length (u' ++ t ++ q :: rest))) 0 acc (92 :: b) (t ++ q :: rest)) as E.
    cbn [tl] in E. rewrite E; auto. 2:{ rewrite app_length. cbn [length]. lia. }
    replace (after_run (rev u' ++ 92 :: b) (t ++ q :: rest)) with
      (mkRd (rev u' ++ 92 :: b) (t ++ q :: rest)).
    2:{ destruct t; reflexivity. }
    change (pend 0) with (@None Z). rewrite IHstr_body by (cbn [length] in *; lia).
    rewrite <- !app_assoc. do 2 f_equal. cbn [rev app]. rewrite !rev_app_distr.
    rewrite <- !app_assoc. reflexivity.
Qed.

Lemma lexString_open : forall q t v, str_open q t v -> q = 34 \/ q = 39 ->
  forall n acc b, (length t < n)%nat ->
  exists b', lexString_loop n q acc (mkRd b t) = (inl (acc ++ v), mkRd b' []).
Proof.
  intros q t v H Hq. induction H; intros n acc b Hn.
  - destruct n as [|n]; [simpl in Hn; lia|]. pose proof (esc_run_len _ _ _ H) as [Hl [u' Hu]].
    subst u. cbn [app lexString_loop rd_get rd_after rd_before].
    change (92 =? eof) with false. change (92 =? 92) with true.
    destruct (Z.eqb_spec 92 q); [lia|]. cbv iota.
    pose proof (esc_loop_app q (92 :: u') rs H Hq (S (length u')) 0 acc (92 :: b) []) as E.
    cbn [tl] in E. rewrite app_nil_r in E. rewrite E by (simpl; auto).
    destruct H0 as [u'' Hu]. destruct u'' as [|c u'']; [simpl in Hu; injection Hu as Hu _; lia|].
    injection Hu as _ ->. rewrite rev_app_distr. cbn [rev app]. rewrite after_run_nil.
    cbn [length] in Hn. rewrite app_length in Hn. destruct n as [|n]; [simpl in Hn; lia|].
    rewrite reread_last. destruct (Z.eqb_spec q eof); [unfold eof in *; lia|].
    rewrite Z.eqb_refl. change (pend 0) with (@None Z). eauto.
  - destruct n as [|n]; [simpl in Hn; lia|]. cbn [app lexString_loop rd_get rd_after rd_before].
    destruct (Z.eqb_spec c eof); [unfold eof in *; lia|].
    destruct (Z.eqb_spec c q); [congruence|]. destruct (Z.eqb_spec c 92); [congruence|].
    destruct (Z.ltb_spec c 32); [lia|]. cbn [length] in Hn.
    destruct (IHstr_open n (acc ++ [c]) (c :: b)) as [b' E]; [lia|].
    exists b'. rewrite E, <- app_assoc. reflexivity.
  - destruct n as [|n]; [lia|]. pose proof (esc_run_len _ _ _ H) as [Hl [u' Hu]].
    rewrite app_length in Hn. subst u. cbn [app lexString_loop rd_get rd_after rd_before].
    change (92 =? eof) with false. change (92 =? 92) with true.
    destruct (Z.eqb_spec 92 q); [lia|]. cbv iota.
    pose proof (esc_loop_app q (92 :: u') rs H Hq
      (S (length (u' ++ t))) 0 acc (92 :: b) t) as E.
    cbn [tl] in E. rewrite E; auto. 2:{ rewrite app_length. cbn [length]. lia. }
    assert (Ht : t <> []).
    { intros ->. inversion H1; subst.
      - match goal with K : esc_run _ [] _ |- _ => inversion K end.
      - match goal with K : esc_run _ ?x _, K' : ?x ++ _ = [] |- _ =>
          inversion K; subst; discriminate end. }
    replace (after_run (rev u' ++ 92 :: b) t) with (mkRd (rev u' ++ 92 :: b) t).
    2:{ destruct t; [congruence|reflexivity]. }
    change (pend 0) with (@None Z).
    destruct (IHstr_open n (acc ++ run_value None rs) (rev u' ++ 92 :: b)) as [b' E'].
    { cbn [length] in *; lia. }
    exists b'. rewrite E', <- app_assoc. reflexivity.
Qed.
