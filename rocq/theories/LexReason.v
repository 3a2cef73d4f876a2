(** The errors of the lexer: each has a reason in the text. *)
From Verif Require Import Syntax SpecGrammar Lexer SpecErrors LexProofs LexProofs2.
Local Open Scope Z_scope.

Definition text (r : rd) : bytes := rev (rd_before r) ++ rd_after r.
Definition pos (r : rd) : nat := length (rd_before r).

Lemma text_mk : forall b a, text (mkRd b a) = rev b ++ a. Proof. reflexivity. Qed.
Lemma pos_le : forall r, (pos r <= length (text r))%nat.
Proof. intro r. unfold pos, text. rewrite app_length, rev_length. lia. Qed.

Lemma offset_last : forall r, rd_offset r = last_byte (pos r).
Proof.
  intro r. unfold rd_offset, last_byte, pos. destruct (Z.eqb_spec (Z.of_nat (length (rd_before r))) 0); lia.
Qed.

Lemma last_byte_S : forall n, last_byte (S n) = Z.of_nat n.
Proof. intro. unfold last_byte. lia. Qed.

Lemma get_text : forall r, text (snd (rd_get r)) = text r.
Proof.
  intros [b a]. unfold rd_get. cbn [rd_after]. destruct a as [|c a]; [reflexivity|].
  unfold text. cbn. rewrite <- app_assoc. reflexivity.
Qed.

Lemma span_text : forall pred r w r', rd_span pred r = (w, r') -> text r' = text r /\ pos r' = (length w + pos r)%nat.
Proof.
  intros pred r w r' H. apply rd_span_spec in H as (H1 & H2 & _).
  unfold text, pos. rewrite H1, H2. rewrite rev_app_distr, rev_involutive, <- app_assoc, app_length, rev_length.
  split; [reflexivity|lia].
Qed.

Lemma ws_text : forall r, text (ws r) = text r /\ (pos r <= pos (ws r))%nat.
Proof.
  intro r. unfold ws. destruct (rd_span isSpace r) as [w r'] eqn:E. cbn [snd].
  apply span_text in E as [H1 H2]. split; [exact H1|lia].
Qed.

(** the reader moves over a text *)
Definition over (r : rd) (w : bytes) (r1 : rd) : Prop :=
  rd_after r = w ++ rd_after r1 /\ rd_before r1 = rev w ++ rd_before r.

Lemma over_text : forall r w r1, over r w r1 -> text r1 = text r /\ pos r1 = (length w + pos r)%nat.
Proof.
  intros r w r1 [H1 H2]. unfold text, pos. rewrite H1, H2.
  rewrite rev_app_distr, rev_involutive, <- app_assoc, app_length, rev_length.
  split; [reflexivity|lia].
Qed.

Lemma over_span : forall p r w r1, rd_span p r = (w, r1) -> over r w r1.
Proof. intros p r w r1 H. apply rd_span_spec in H as (H1 & H2 & _). split; assumption. Qed.

Lemma over_trans : forall r w r1 w' r2, over r w r1 -> over r1 w' r2 -> over r (w ++ w') r2.
Proof.
  intros r w r1 w' r2 [A B] [C D]. split.
  - rewrite A, C, app_assoc. reflexivity.
  - rewrite D, B, rev_app_distr, app_assoc. reflexivity.
Qed.

Lemma over_get : forall r c r1, 0 <= rd_look r -> rd_get r = (c, r1) -> over r [c] r1 /\ c = rd_look r.
Proof.
  intros [b [|d a]] c r1 H E; unfold rd_look in *; cbn in *; [unfold eof in H; lia|].
  injection E as <- <-. split; [split; reflexivity|reflexivity].
Qed.

Lemma over_nil : forall r, over r [] r. Proof. split; reflexivity. Qed.

Ltac flat_in H := repeat (progress (rewrite <- ?app_assoc in H; cbn [app] in H)).
Ltac flat := repeat (progress (rewrite <- ?app_assoc; cbn [app])).

Section lex.
Variable TX : textoracles.
Notation rsn := (reason TX).

(** a lexeme that ends after [k] bytes *)
Definition lexok (s : bytes) (k : nat) (lx : lexeme) : Prop :=
  match lx_err lx with
  | Some e => rsn s e /\ (forall o, offset_of e = Some o -> o = last_byte k) /\ lx_tok lx = TError
  | None => ends_with TX s k (lx_tok lx) (lx_val lx)
  end.

Definition good (r : rd) (x : lexeme * rd) : Prop :=
  text (snd x) = text r /\ (pos r <= pos (snd x))%nat /\ lexok (text r) (pos (snd x)) (fst x).

(** ends, from the bytes before and after *)
Lemma ends_mk : forall b w a t v, spelled t w -> valued TX t w v -> t <> TEOF ->
  ends_with TX (rev b ++ w ++ a) (length w + length b) t v.
Proof.
  intros b w a t v H Hv Ht. exists (rev b), w, a. split; [reflexivity|]. split; [exact H|]. split; [exact Hv|].
  split; [rewrite app_length, rev_length; lia|congruence].
Qed.

(** ** Strings *)
Lemma hex_loop_err : forall i acc b a e r, hex_loop i acc (mkRd b a) = (inr e, r) ->
  (exists hs, (length hs < i)%nat /\ Forall hexdigit hs /\
     ((e = EUnclosedString /\ a = hs /\ r = mkRd (rev hs ++ b) []) \/
      (e = EShortEscape /\ exists c a', ~ hexdigit c /\ a = hs ++ c :: a' /\ r = mkRd (rev hs ++ b) (c :: a')))) \/
  exists c, In c a /\ c < 0.
Proof.
  induction i as [|i IH]; intros acc b a e r H; cbn [hex_loop] in H; [discriminate H|].
  destruct a as [|c a]; cbn [rd_get rd_after rd_before] in H.
  - change (eof =? eof) with true in H. cbv iota in H. injection H as <- <-. left.
    exists []. split; [cbn; lia|]. split; [constructor|]. left. auto.
  - destruct (Z.eqb_spec c eof) as [Ec|Ec].
    + right. exists c. split; [left; reflexivity|]. unfold eof in Ec. lia.
    + destruct (isHexDigit c) eqn:Hc; cbn [negb] in H.
      * apply IH in H as [(hs & Hl & Hh & H)|(d & Hd & Hn)].
        -- left. exists (c :: hs). split; [cbn; lia|]. split; [constructor; [apply isHexDigit_iff; exact Hc|exact Hh]|].
           destruct H as [(-> & -> & ->)|(-> & d & a' & Hd & -> & ->)].
           ++ left. cbn [rev]. rewrite <- app_assoc. auto.
           ++ right. split; [reflexivity|]. exists d, a'. cbn [rev]. rewrite <- app_assoc. auto.
        -- right. exists d. split; [right; exact Hd|exact Hn].
      * injection H as <- <-. left. exists []. split; [cbn; lia|]. split; [constructor|]. right.
        split; [reflexivity|]. exists c, a. split; [|split; reflexivity].
        intro K. apply isHexDigit_iff in K. congruence.
Qed.

Lemma escaped_err : forall q b a e r, nonneg a -> q = 34 \/ q = 39 -> escaped q (mkRd b a) = (inr e, r) ->
  text r = text (mkRd b a) /\ (length b <= pos r)%nat /\
  (e = EUnclosedString \/
   (e = EBadEscape /\ exists c a', a = c :: a' /\ c <> q /\ ~ In c [92; 47; 116; 102; 110; 114; 98; 117]) \/
   (e = EShortEscape /\ exists hs c a', a = 117 :: hs ++ c :: a' /\ (length hs < 4)%nat /\ Forall hexdigit hs /\ ~ hexdigit c)).
Proof.
  intros q b a e r Hn Hq H. unfold escaped in H.
  destruct a as [|c a]; cbn [rd_get rd_after rd_before] in H.
  { change (eof =? eof) with true in H. cbv iota in H. injection H as <- <-. unfold pos; cbn. auto. }
  inversion Hn as [|? ? Hc Hn']; subst.
  destruct (Z.eqb_spec c eof) as [Ec|_]; [unfold eof in Ec; lia|].
  destruct (Z.eqb_spec c 92); [discriminate H|]. destruct (Z.eqb_spec c 47); [discriminate H|]. cbn [orb] in H.
  destruct (Z.eqb_spec c 116); [discriminate H|]. destruct (Z.eqb_spec c 102); [discriminate H|].
  destruct (Z.eqb_spec c 110); [discriminate H|]. destruct (Z.eqb_spec c 114); [discriminate H|].
  destruct (Z.eqb_spec c 98); [discriminate H|].
  destruct (Z.eqb_spec c 117) as [->|].
  - destruct (hex_loop 4 [] _) as [[ds|e'] r'] eqn:Eh; [discriminate H|]. injection H as <- <-.
    apply hex_loop_err in Eh as [(hs & Hl & Hh & Eh)|(x & Hx & Hneg)].
    2:{ unfold nonneg in Hn'. rewrite Forall_forall in Hn'. specialize (Hn' _ Hx). lia. }
    destruct Eh as [(-> & -> & ->)|(-> & d & a' & Hd & -> & ->)].
    + split; [unfold text; cbn; rewrite rev_app_distr, rev_involutive; cbn; rewrite <- ?app_assoc, ?app_nil_r; reflexivity|].
      split; [unfold pos; cbn; rewrite app_length; cbn; lia|auto].
    + split; [unfold text; cbn; rewrite rev_app_distr, rev_involutive; cbn; rewrite <- ?app_assoc; reflexivity|].
      split; [unfold pos; cbn; rewrite app_length; cbn; lia|]. right. right. split; [reflexivity|].
      exists hs, d, a'. auto.
  - destruct (Z.eqb_spec c q); cbn [negb] in H; [discriminate H|]. injection H as <- <-.
    cbn [rd_unget rd_before rd_after]. split; [unfold text; cbn; reflexivity|].
    split; [unfold pos; cbn; lia|]. right. left. split; [reflexivity|]. exists c, a.
    split; [reflexivity|]. split; [assumption|]. cbn. intuition congruence.
Qed.

Lemma escaped_text : forall q b a rv r, nonneg a -> q = 34 \/ q = 39 -> escaped q (mkRd b a) = (inl rv, r) ->
  text r = rev b ++ a /\ (length b < pos r)%nat.
Proof.
  intros q b a rv r Hn Hq H. apply escaped_ok in H as (t & Ht & -> & Hb); [|assumption..].
  apply esc_item_nonempty in Ht. unfold text, pos. rewrite Hb, rev_app_distr, rev_involutive, <- app_assoc, app_length, rev_length.
  split; [reflexivity|]. destruct t; [congruence|cbn; lia].
Qed.

Lemma nonneg_text : forall r, nonneg (text r) -> nonneg (rd_after r).
Proof. intros r H. unfold text in H. apply nonneg_app_r in H. exact H. Qed.

(** the errors inside a literal: its backslash is before the reader *)
Definition lit_err (s : bytes) (e : perr) : Prop := e = EUnclosedString \/ e = EFuel \/ rsn s e.

Lemma unget_text : forall r, text (rd_unget r) = text r.
Proof.
  intros [[|c b] a]; [reflexivity|]. unfold text. cbn. rewrite <- app_assoc. reflexivity.
Qed.

Lemma esc_loop_text : forall n q surr acc b a x r, nonneg (rev b ++ 92 :: a) -> q = 34 \/ q = 39 ->
  esc_loop n q surr acc (mkRd (92 :: b) a) = (x, r) ->
  text r = rev b ++ 92 :: a /\ (S (length b) <= pos r)%nat /\
  match x with inr e => lit_err (rev b ++ 92 :: a) e /\ offset_of e = None | inl _ => True end.
Proof.
  induction n as [|n IH]; intros q surr acc b a x r Hn Hq H; cbn [esc_loop] in H.
  { injection H as <- <-. split; [unfold text; cbn; rewrite <- app_assoc; reflexivity|].
    split; [unfold pos; cbn; lia|]. split; [right; left; reflexivity|reflexivity]. }
  assert (Hna : nonneg a) by (apply nonneg_app_r in Hn; inversion Hn; assumption).
  destruct (escaped q (mkRd (92 :: b) a)) as [[rv|e] r1] eqn:Ee.
  2:{ injection H as <- <-. apply escaped_err in Ee as (Ht & Hp & Hc); [|assumption..].
      rewrite text_mk in Ht. cbn [rev] in Ht. rewrite <- app_assoc in Ht. cbn [app] in Ht.
      split; [exact Ht|]. split; [cbn in Hp; lia|].
      destruct Hc as [-> |[(-> & c & a' & -> & Hc & Hi)|(-> & hs & c & a' & -> & Hl & Hh & Hc)]].
      - split; [left; reflexivity|reflexivity].
      - split; [|reflexivity]. right. right. eapply ReEscape with (q := q); [reflexivity|assumption..].
      - split; [|reflexivity]. right. right. eapply ReShort; [reflexivity|assumption..]. }
  apply escaped_text in Ee as [Ht Hp]; [|assumption..]. cbn [rev length] in Ht, Hp. rewrite <- app_assoc in Ht. cbn [app] in Ht.
  assert (K : forall acc s x, (let (c, r2) := rd_get r1 in
        if c =? 92 then esc_loop n q s acc r2
        else (inl (if negb (s =? 0) then acc ++ utf8_encode rune_error else acc), rd_unget r2)) = (x, r) ->
      text r = rev b ++ 92 :: a /\ (S (length b) <= pos r)%nat /\
      match x with inr e => lit_err (rev b ++ 92 :: a) e /\ offset_of e = None | inl _ => True end).
  { clear H x. intros acc' s x H. destruct r1 as [b1 a1]. destruct a1 as [|c a1]; cbn [rd_get rd_after rd_before] in H.
    - change (eof =? 92) with false in H. cbv iota in H. injection H as <- <-.
      rewrite unget_text. split; [exact Ht|]. split; [|exact I].
      unfold pos in *. cbn [rd_before] in Hp. destruct b1 as [|c1 b1]; cbn in *; lia.
    - destruct (Z.eqb_spec c 92) as [-> |Hc].
      + unfold text in Ht. cbn [rd_before rd_after] in Ht.
        apply IH in H as (H1 & H2 & H3); [|rewrite Ht; assumption|assumption].
        rewrite Ht in H1, H3. split; [exact H1|]. split; [unfold pos in *; cbn in *; lia|exact H3].
      + injection H as <- <-. rewrite unget_text. cbn [rd_unget rd_before]. split.
        * rewrite <- Ht. unfold text. cbn. rewrite <- app_assoc. reflexivity.
        * split; [unfold pos in *; cbn in *; lia|exact I]. }
  destruct (negb (surr =? 0)).
  - destruct (negb (utf16_decode surr rv =? rune_error)); apply K in H; exact H.
  - destruct (is_surrogate rv); apply K in H; exact H.
Qed.

Lemma lexString_text : forall n q acc b a x r, nonneg (rev b ++ a) -> q = 34 \/ q = 39 ->
  lexString_loop n q acc (mkRd b a) = (x, r) ->
  text r = rev b ++ a /\ (length b <= pos r)%nat /\
  match x with
  | inr e => lit_err (rev b ++ a) e /\ offset_of e = None
  | inl _ => exists b', rd_before r = q :: b' /\ (length b <= length b')%nat
  end.
Proof.
  induction n as [|n IH]; intros q acc b a x r Hn Hq H; cbn [lexString_loop] in H.
  { injection H as <- <-. split; [reflexivity|]. split; [unfold pos; cbn; lia|].
    split; [right; left; reflexivity|reflexivity]. }
  destruct a as [|c a]; cbn [rd_get rd_after rd_before] in H.
  { change (eof =? eof) with true in H. cbv iota in H. injection H as <- <-. split; [reflexivity|].
    split; [unfold pos; cbn; lia|]. split; [left; reflexivity|reflexivity]. }
  assert (Hc : 0 <= c) by (apply nonneg_app_r in Hn; inversion Hn; assumption).
  destruct (Z.eqb_spec c eof) as [Ec|_]; [unfold eof in Ec; lia|].
  assert (Ht : rev (c :: b) ++ a = rev b ++ c :: a) by (cbn; rewrite <- app_assoc; reflexivity).
  destruct (Z.eqb_spec c q) as [-> |Hcq].
  { injection H as <- <-. split; [exact Ht|]. split; [unfold pos; cbn; lia|]. exists b. split; [reflexivity|lia]. }
  destruct (Z.eqb_spec c 92) as [-> |Hc92].
  - destruct (esc_loop _ q 0 acc (mkRd (92 :: b) a)) as [[acc'|e] r2] eqn:Ee.
    + apply esc_loop_text in Ee as (H1 & H2 & _); [|assumption..].
      destruct r2 as [b2 a2]. unfold text, pos in H1, H2. cbn [rd_before rd_after] in H1, H2.
      apply IH in H as (H3 & H4 & H5); [|rewrite H1; assumption|assumption].
      rewrite H1 in H3, H5. split; [exact H3|]. split; [lia|]. destruct x; [|exact H5].
      destruct H5 as (b' & E & L). exists b'. split; [exact E|lia].
    + injection H as <- <-. apply esc_loop_text in Ee as (H1 & H2 & H3); [|assumption..].
      split; [exact H1|]. split; [lia|exact H3].
  - destruct (Z.ltb_spec c 32) as [Hlt|_].
    + injection H as <- <-. split; [exact Ht|]. split; [unfold pos; cbn; lia|]. split; [|reflexivity].
      right. right. eapply ReControl; [reflexivity|exact Hlt].
    + apply IH in H as (H1 & H2 & H3); [|rewrite Ht; assumption|assumption].
      rewrite Ht in H1, H3. split; [exact H1|]. split; [cbn in H2; lia|].
      destruct x; [|exact H3]. destruct H3 as (b' & E & L). exists b'. split; [exact E|cbn in L; lia].
Qed.

Lemma string_good : forall q b a, nonneg (rev b ++ q :: a) -> q = 34 \/ q = 39 ->
  good (mkRd (q :: b) a) (lex_string_tok q (mkRd (q :: b) a)).
Proof.
  intros q b a Hn Hq. unfold lex_string_tok.
  assert (Hna : nonneg a) by (apply nonneg_app_r in Hn; inversion Hn; assumption).
  assert (Ht : rev (q :: b) ++ a = rev b ++ q :: a) by (cbn; rewrite <- app_assoc; reflexivity).
  destruct (lexString q (mkRd (q :: b) a)) as [[v|e] r] eqn:E.
  - pose proof E as E'. unfold lexString in E'. apply lexString_text in E' as (H1 & H2 & b' & Eb & Lb); [|rewrite Ht; assumption|assumption].
    unfold good. cbn [fst snd]. split; [exact H1|]. split; [exact H2|].
    unfold lexok. cbn [lx_err lx_tok].
    (* the text up to the closing quote *)
    assert (S : exists w, rev b' = rev b ++ q :: w).
    { assert (P : exists w, rev (rd_before r) = (rev b ++ [q]) ++ w).
      { unfold text in H1. assert (L : (length (rev b ++ [q]) <= length (rev (rd_before r)))%nat).
        { rewrite app_length, !rev_length, Eb. cbn in Lb |- *. lia. }
        exists (skipn (length (rev b ++ [q])) (rev (rd_before r))).
        rewrite <- (firstn_skipn (length (rev b ++ [q])) (rev (rd_before r))) at 1. f_equal.
        pose proof (f_equal (firstn (length (rev b ++ [q]))) H1) as F.
        rewrite firstn_app in F. replace (length (rev b ++ [q]) - length (rev (rd_before r)))%nat with 0%nat in F by lia.
        cbn [firstn] in F. rewrite app_nil_r in F. rewrite F.
        change (rev (q :: b)) with (rev b ++ [q]). rewrite firstn_app, Nat.sub_diag, firstn_all. cbn. apply app_nil_r. }
      destruct P as (w & P). rewrite Eb in P. cbn [rev] in P.
      destruct w as [|x w'] using rev_ind.
      - rewrite app_nil_r in P. apply app_inj_tail in P as [P _]. cbn in Lb.
        assert (length (rev b') = length (rev b)) by congruence. rewrite !rev_length in H. lia.
      - rewrite app_assoc in P. apply app_inj_tail in P as [P _]. exists w'. rewrite P, <- app_assoc. reflexivity. }
    destruct S as (w & Ew).
    assert (Ea : rev b ++ q :: a = rev b ++ (q :: w ++ [q]) ++ rd_after r).
    { rewrite Ht in H1. rewrite <- H1. unfold text. rewrite Eb. cbn [rev]. rewrite Ew.
      rewrite <- !app_assoc. cbn. rewrite <- !app_assoc. reflexivity. }
    exists (rev b), (q :: w ++ [q]), (rd_after r).
    split; [|split; [constructor; assumption|split; [|split; [|discriminate]]]].
    + rewrite text_mk, Ht. exact Ea.
    + apply app_inv_head in Ea. injection Ea as Ea. rewrite <- app_assoc in Ea. cbn [app] in Ea.
      apply lexString_ok in E as [(t & Hb & Et)|(Hb & Et)]; [| |exact Hna|exact Hq]; cbn [rd_after] in *.
      * rewrite Ea in Et. assert (w = t) as ->.
        { change (q :: rd_after r) with ([q] ++ rd_after r) in Et. rewrite !app_assoc in Et.
          apply app_inv_tail in Et. apply app_inj_tail in Et as [Et _]. exact Et. }
        apply VlString; assumption.
      * rewrite Et in Ea. rewrite <- Ea. apply VlOpen; assumption.
    + unfold pos. rewrite Eb. cbn [length]. rewrite <- (rev_length b'), Ew, !app_length. cbn. rewrite app_length. cbn. lia.
  - pose proof E as E'. unfold lexString in E'. apply lexString_text in E' as (H1 & H2 & H3 & H4); [|rewrite Ht; assumption|assumption].
    unfold good. cbn [fst snd]. split; [exact H1|]. split; [exact H2|].
    unfold lexok. cbn [lx_err lx_tok lex_err].
    split; [|split; [rewrite H4; discriminate|reflexivity]].
    rewrite text_mk, Ht. rewrite Ht in H3. destruct H3 as [-> |[-> |H3]]; [| |exact H3].
    + eapply ReUnclosed; [reflexivity|exact Hq|]. intros u v rr -> Hb.
      unfold lexString in E. rewrite lexString_body with (v := v) in E; try assumption; [discriminate E|].
      cbn. rewrite app_length. lia.
    + exfalso. apply lexString_clean in E; [exact E|exact Hna|exact Hq].
Qed.

(** ** Numbers *)
Lemma unget_mk : forall c b a, rd_unget (mkRd (c :: b) a) = mkRd b (c :: a). Proof. reflexivity. Qed.

Lemma over_text_eq : forall b a w r1, over (mkRd b a) w r1 -> text r1 = rev b ++ w ++ rd_after r1.
Proof.
  intros b a w r1 [H1 H2]. unfold text. rewrite H2, rev_app_distr, rev_involutive, <- app_assoc. reflexivity.
Qed.

Lemma number_over : forall real b c a lx r, digit c -> lexNumber TX real (mkRd (c :: b) a) = (lx, r) ->
  exists w, over (mkRd b (c :: a)) w r /\ w <> [] /\
  match lx_err lx with
  | Some e => lx = lex_err e /\ rsn (rev b ++ c :: a) e /\ offset_of e = None /\
      (real = false -> Forall digit w /\ not_next digit (rd_after r) /\ 9223372036854775808 <= dec_val w)
  | None => spelled (lx_tok lx) w /\ valued TX (lx_tok lx) w (lx_val lx) /\ (lx_tok lx <> TEOF /\ lx_tok lx <> TID) /\
      (real = false -> Forall digit w /\ not_next digit (rd_after r) /\ lx = mkLex TInt (LInt (dec_val w)) None)
  end.
Proof.
  intros real b c a lx r Hc H. unfold lexNumber in H. rewrite unget_mk in H.
  destruct (rd_span isDigit (mkRd b (c :: a))) as [ip r1] eqn:E1.
  pose proof (over_span _ _ _ _ E1) as O1. apply span_digits in E1 as (A1 & D1 & N1).
  assert (Hip : ip <> []).
  { intros ->. cbn in A1. rewrite <- A1 in N1. cbn in N1. contradiction. }
  assert (T1 : rev b ++ c :: a = rev b ++ ip ++ rd_after r1) by (cbn in A1; rewrite A1; reflexivity).
  destruct (negb real || negb (rd_look r1 =? 46)) eqn:Er.
  - exists ip. rewrite parse_int_digits in H by assumption.
    destruct (Z.ltb_spec (dec_val ip) (2 ^ 63)); injection H as <- <-; (split; [exact O1|split; [exact Hip|]]); cbn [lx_err lx_tok lex_err].
    + split; [constructor; assumption|]. split; [constructor; assumption|]. split; [split; discriminate|]. intros _. auto.
    + split; [reflexivity|]. split; [|split; [reflexivity|auto]].
      eapply ReBigInt; [exact T1|exact D1|exact N1|exact H0].
  - apply orb_false_iff in Er as [Er1 Er2]. apply negb_false_iff in Er1, Er2. subst real. apply Z.eqb_eq in Er2.
    destruct (rd_get r1) as [d r2] eqn:E2. apply over_get in E2 as [O2 E2]; [|lia]. rewrite Er2 in E2. subst d.
    destruct (rd_span isDigit r2) as [fp r3] eqn:E3.
    pose proof (over_span _ _ _ _ E3) as O3. apply span_digits in E3 as (_ & D3 & N3).
    pose proof (over_trans _ _ _ _ _ (over_trans _ _ _ _ _ O1 O2) O3) as O.
    rewrite <- app_assoc in O. cbn [app] in O.
    destruct ((rd_look r3 =? 101) || (rd_look r3 =? 69)) eqn:Ee.
    + destruct (rd_get r3) as [ec r4] eqn:E4. apply over_get in E4 as [O4 E4].
      2:{ apply orb_true_iff in Ee as [Ee|Ee]; apply Z.eqb_eq in Ee; lia. }
      assert (Hec : ec = 101 \/ ec = 69) by (rewrite E4; apply orb_true_iff in Ee as [Ee|Ee]; apply Z.eqb_eq in Ee; auto).
      pose proof (over_trans _ _ _ _ _ O O4) as P. 
      destruct (if (rd_look r4 =? 43) || (rd_look r4 =? 45) then let (s, r') := rd_get r4 in ([s], r') else ([], r4)) as [sg r5] eqn:E5.
      assert (S5 : over r4 sg r5 /\ (sg = [] \/ sg = [43] \/ sg = [45])).
      { destruct ((rd_look r4 =? 43) || (rd_look r4 =? 45)) eqn:Es.
        - destruct (rd_get r4) as [sc r'] eqn:E6. apply over_get in E6 as [O6 E6].
          2:{ apply orb_true_iff in Es as [Es|Es]; apply Z.eqb_eq in Es; lia. }
          injection E5 as <- <-. split; [exact O6|]. right. apply orb_true_iff in Es as [Es|Es]; apply Z.eqb_eq in Es; rewrite E6, Es; auto.
        - injection E5 as <- <-. split; [apply over_nil|auto]. }
      destruct S5 as [O5 Hsg]. pose proof (over_trans _ _ _ _ _ P O5) as Q.
      flat_in Q.
      destruct (isDigit (rd_look r5)) eqn:Ed; cbn [negb] in H.
      * destruct (rd_span isDigit r5) as [xp r6] eqn:E6. pose proof (over_span _ _ _ _ E6) as O6.
        apply span_digits in E6 as (A6 & D6 & N6).
        pose proof (over_trans _ _ _ _ _ Q O6) as R. flat_in R.
        assert (Hxp : xp <> []).
        { intros ->. cbn in A6. rewrite rd_look_after, A6 in Ed. destruct (rd_after r6) as [|x y]; [discriminate Ed|].
          cbn in N6. apply isDigit_iff in Ed. contradiction. }
        assert (Hex : exponent (ec :: sg ++ xp)) by (constructor; assumption).
        exists (ip ++ 46 :: fp ++ ec :: sg ++ xp).
        assert (R1 : over (mkRd b (c :: a)) (ip ++ 46 :: fp ++ ec :: sg ++ xp) r6) by exact R.
        destruct (o_parse_float TX (ip ++ 46 :: fp ++ ec :: sg ++ xp)) eqn:Ef; injection H as <- <-;
          (split; [exact R1|split; [destruct ip; [congruence|discriminate]|]]); cbn [lx_err lx_tok lex_err].
        -- split; [|split; [apply VlReal; exact Ef|split; [split; discriminate|discriminate]]].
           apply (SpReal ip fp (ec :: sg ++ xp)); auto.
        -- split; [reflexivity|]. split; [|split; [reflexivity|discriminate]].
           eapply (ReBadReal TX _ (rev b) ip fp (ec :: sg ++ xp)); [|assumption..|auto|exact Ef].
           destruct R1 as [R1 _]. cbn [rd_after] in R1. rewrite R1. reflexivity.
      * injection H as <- <-. eexists. split; [exact Q|]. split; [destruct ip; [congruence|discriminate]|]. cbn [lx_err lex_err].
        split; [reflexivity|]. split; [|split; [reflexivity|discriminate]].
        destruct Q as [Q _]. cbn [rd_after] in Q. rewrite Q. 
        eapply (ReExponent TX _ (rev b) ip fp ec sg (rd_after r5)); try assumption.
        { flat. reflexivity. }
        rewrite rd_look_after in Ed. destruct (rd_after r5) as [|x y]; [exact I|]. cbn.
        intro K. apply isDigit_iff in K. congruence.
    + exists (ip ++ 46 :: fp).
      destruct (o_parse_float TX (ip ++ 46 :: fp)) eqn:Ef; injection H as <- <-;
          (split; [exact O|split; [destruct ip; [congruence|discriminate]|]]); cbn [lx_err lx_tok lex_err].
      * split; [|split; [apply VlReal; exact Ef|split; [split; discriminate|discriminate]]].
        rewrite <- (app_nil_r fp). apply (SpReal ip fp []); auto.
      * split; [reflexivity|]. split; [|split; [reflexivity|discriminate]].
        assert (Ex : ip ++ 46 :: fp = ip ++ 46 :: fp ++ []) by (rewrite app_nil_r; reflexivity).
        rewrite Ex. rewrite Ex in Ef.
        eapply (ReBadReal TX _ (rev b) ip fp []); [|assumption..|auto|exact Ef].
        destruct O as [O _]. cbn [rd_after] in O. rewrite <- Ex, O. reflexivity.
Qed.

Lemma number_good : forall real b c a, digit c -> good (mkRd (c :: b) a) (lexNumber TX real (mkRd (c :: b) a)).
Proof.
  intros real b c a Hc. destruct (lexNumber TX real (mkRd (c :: b) a)) as [lx r] eqn:E.
  apply number_over in E as (w & O & Hw & H); [|exact Hc].
  assert (Ht : rev (c :: b) ++ a = rev b ++ c :: a) by (cbn; rewrite <- app_assoc; reflexivity).
  pose proof (over_text _ _ _ O) as [T P]. rewrite text_mk in T. unfold good. cbn [fst snd].
  rewrite text_mk, Ht. split; [exact T|]. split.
  { rewrite P. unfold pos. cbn. destruct w; [congruence|cbn; lia]. }
  unfold lexok. destruct (lx_err lx) as [e|].
  - destruct H as (-> & H1 & H2 & _). split; [exact H1|]. split; [rewrite H2; discriminate|reflexivity].
  - destruct H as (H1 & Hv & (H2 & H3) & _). rewrite P. rewrite <- T, (over_text_eq _ _ _ _ O).
    apply ends_mk; assumption.
Qed.

Lemma id_good : forall p b c a, letter c -> p = isAlphanumeric \/ p = isAlphanumericDash ->
  good (mkRd (c :: b) a) (lexID p (mkRd (c :: b) a)).
Proof.
  intros p b c a Hc Hp. unfold lexID. rewrite unget_mk.
  destruct (rd_span p (mkRd b (c :: a))) as [w r] eqn:E. pose proof (over_span _ _ _ _ E) as O.
  apply rd_span_spec in E as (A & _ & F & N).
  assert (Hn : Forall (name_char true) w).
  { eapply Forall_impl; [|exact F]. intros x Hx. destruct Hp as [-> | ->].
    - apply isAlphanumeric_iff in Hx. destruct Hx as [?|[?|[? _]]]; [left; assumption|right; left; assumption|discriminate].
    - apply isAlphanumericDash_iff. exact Hx. }
  assert (Hw : exists w', w = c :: w').
  { destruct w as [|x w]; cbn in A.
    - exfalso. rewrite <- A in N. cbn in N. apply N. destruct Hp as [-> | ->];
        [apply isAlphanumeric_iff|apply isAlphanumericDash_iff]; left; exact Hc.
    - injection A as <- _. eauto. }
  destruct Hw as (w' & ->).
  assert (Ht : rev (c :: b) ++ a = rev b ++ c :: a) by (cbn; rewrite <- app_assoc; reflexivity).
  pose proof (over_text _ _ _ O) as [T P]. rewrite text_mk in T. unfold good. cbn [fst snd].
  rewrite text_mk, Ht. split; [exact T|]. split; [rewrite P; unfold pos; cbn; lia|].
  unfold lexok. cbn [lx_err lx_tok]. rewrite P, <- T, (over_text_eq _ _ _ _ O).
  cbn [lx_val]. apply ends_mk; [constructor; [exact Hc|]; inversion Hn; assumption|constructor|discriminate].
Qed.

(** ** Characters *)
Lemma char_good : forall b c a, good (mkRd (c :: b) a) (lex_tok (TChar c), mkRd (c :: b) a).
Proof.
  intros b c a. split; [reflexivity|]. split; [cbn; lia|]. unfold lexok. cbn [fst snd lx_err lx_tok lex_tok].
  unfold text, pos. cbn [rd_before rd_after rev length]. rewrite <- app_assoc.
  change (S (length b)) with (length [c] + length b)%nat. apply ends_mk; [constructor| |discriminate].
  apply VlNone. cbn. intuition discriminate.
Qed.

Lemma two_good : forall c d t f b a, f = TChar c ->
  In (t, [c; d]) (map (fun p => (fst p, b_of (snd p))) [(TNest, ".."); (TLE, "<="); (TGE, ">="); (TEQ, "=="); (TNE, "!="); (TFilter, "?(");
      (TAnd, "&&"); (TOr, "||"); (TMatch, "=~")]%string) ->
  good (mkRd (c :: b) a) (isNext d t f (mkRd (c :: b) a)).
Proof.
  intros c d t f b a -> Hi. unfold isNext.
  destruct (Z.eqb_spec (rd_look (mkRd (c :: b) a)) d) as [E|E]; [|apply char_good].
  apply in_map_iff in Hi as ((t' & x) & Hx & Hi). cbn [fst snd] in Hx. injection Hx as -> Hx.
  destruct a as [|y a]; unfold rd_look in E; cbn in E.
  { exfalso. subst d. cbn in Hi. repeat destruct Hi as [Hi|Hi]; try contradiction; injection Hi as <- <-; discriminate Hx. }
  subst y. cbn. split; [unfold text; cbn; rewrite <- !app_assoc; reflexivity|]. split; [unfold pos; cbn; lia|].
  unfold lexok. cbn [fst snd lx_err lx_tok lex_tok]. unfold text, pos. cbn [rd_before rd_after rev length].
  rewrite <- app_assoc. change (S (S (length b))) with (length [c; d] + length b)%nat.
  change ([c] ++ d :: a) with ([c; d] ++ a).
  apply ends_mk; [rewrite <- Hx; apply SpTwo; cbn in Hi |- *; tauto|apply VlNone; intro K; cbn in K|]; cbn in Hi;
  [repeat (destruct Hi as [Hi|Hi]; [injection Hi as <- <-; intuition discriminate|]); destruct Hi|intros ->]; repeat destruct Hi as [Hi|Hi]; try contradiction; discriminate Hi.
Qed.

Lemma bad_char_good : forall b c a, ~ letter c -> ~ digit c -> ~ space c ->
  ~ In c [40; 41; 91; 93; 42; 36; 44; 46; 34; 39; 45] -> good (mkRd (c :: b) a) (tokenErr c (mkRd (c :: b) a), mkRd (c :: b) a).
Proof.
  intros b c a N1 N2 N3 N4. split; [reflexivity|]. split; [cbn; lia|]. unfold lexok, tokenErr. cbn [fst snd lx_err lx_tok lex_err].
  rewrite offset_last. split; [|split; [cbn; congruence|reflexivity]].
  unfold pos. cbn [rd_before length]. rewrite last_byte_S. unfold text. cbn [rd_before rd_after rev]. rewrite <- app_assoc. cbn [app].
  rewrite <- (rev_length b). eapply ReChar; [reflexivity|assumption..].
Qed.

Lemma good_mono : forall r r1 x, text r1 = text r -> (pos r <= pos r1)%nat -> good r1 x -> good r x.
Proof. intros r r1 x H1 H2 (A & B & C). unfold good. rewrite <- H1. split; [exact A|]. split; [lia|exact C]. Qed.

Lemma eof_good : forall b, good (mkRd b []) (lex_tok TEOF, mkRd b []).
Proof.
  intro b. split; [reflexivity|]. split; [cbn; lia|]. unfold lexok. cbn. exists (rev b), [], [].
  split; [reflexivity|]. split; [constructor|]. split; [apply VlNone; cbn; intuition discriminate|]. split; [|auto]. rewrite app_nil_r, rev_length. reflexivity.
Qed.


Lemma minus_good : forall b a, nonneg a ->
  good (mkRd b (45 :: a))
    (let r := ws (mkRd (45 :: b) a) in
    let (d, r1) := rd_get r in
    if negb (isDigit d) then
      let r2 := rd_unget r1 in (tokenErr (rd_look r2) r2, r2)
    else
      let (fol, r2) := lexNumber TX false r1 in
      match lx_tok fol, lx_val fol with
      | TInt, LInt n =>
        if n =? max_int64 then (lex_err EIntOverflow, r2)
        else (mkLex TInt (LInt (- n)) (lx_err fol), r2)
      | _, _ => (tokenErr 45 r2, r2)
      end).
Proof.
  intros b a Hna. cbv zeta.
  destruct (ws_spec (mkRd (45 :: b) a)) as (w & A & B & Hw & Nw). cbn [rd_after rd_before] in A, B.
  destruct (ws (mkRd (45 :: b) a)) as [b1 a1]. cbn [rd_after rd_before] in A, B, Nw. subst a b1.
  destruct a1 as [|d a1]; cbn [rd_get rd_after rd_before].
  - change (isDigit eof) with false. cbn [negb]. rewrite app_nil_r.
    destruct (rev w ++ 45 :: b) as [|x b2] eqn:Eb; [destruct (rev w); discriminate Eb|].
    cbn [rd_unget rd_before rd_after]. unfold rd_look. cbn [rd_get rd_after fst].
    assert (Er : rev b2 ++ [x] = rev b ++ 45 :: w).
    { change (rev b2 ++ [x]) with (rev (x :: b2)). rewrite <- Eb, rev_app_distr, rev_involutive. cbn. rewrite <- app_assoc. reflexivity. }
    assert (El : length b2 = (length b + length w)%nat).
    { assert (L : length (x :: b2) = S (length b + length w)) by (rewrite <- Eb, !app_length, rev_length; cbn; lia). cbn in L. lia. }
    split; [exact Er|]. split; [unfold pos; cbn [snd rd_before]; lia|].
    unfold lexok, tokenErr. cbn [fst snd lx_err lx_tok lex_err]. rewrite offset_last.
    split; [|split; [cbn; congruence|reflexivity]]. rewrite text_mk. unfold pos. cbn [rd_before].
    replace x with (last (45 :: w) 0).
    + replace (length b2) with (length (rev b ++ w)) by (rewrite app_length, rev_length; lia).
      eapply ReSignEnd; [reflexivity|exact Hw].
    + transitivity (last (rev b ++ 45 :: w) 0); [|rewrite <- Er; apply last_last].
      generalize (rev b). intro l. induction l as [|y l IH]; [reflexivity|].
      cbn [app]. destruct (l ++ 45 :: w) eqn:El'; [destruct l; discriminate El'|]. cbn [last] in *. exact IH.
  - destruct (isDigit d) eqn:Ed; cbn [negb].
    + apply isDigit_iff in Ed.
      destruct (lexNumber TX false (mkRd (d :: rev w ++ 45 :: b) a1)) as [fol r2] eqn:E.
      apply number_over in E as (ds & O & Hds & H); [|exact Ed].
      assert (O' : over (mkRd b (45 :: w ++ d :: a1)) (45 :: w ++ ds) r2).
      { destruct O as [O1 O2]. cbn [rd_after rd_before] in O1, O2. split; cbn [rd_after rd_before].
        - rewrite O1. flat. reflexivity.
        - rewrite O2. cbn [rev]. rewrite rev_app_distr. flat. reflexivity. }
      pose proof (over_text _ _ _ O') as [T P]. pose proof (over_text_eq _ _ _ _ O') as T'.
      flat_in T'. rewrite text_mk in T.
      assert (L : (length b <= pos r2)%nat) by (rewrite P; unfold pos; cbn [rd_before]; lia).
      destruct (lx_err fol) as [e|] eqn:Ef.
      * destruct H as (-> & _ & _ & H). destruct (H eq_refl) as (D & N & G). cbn [lx_tok lx_val lex_err].
        split; [exact T|]. split; [exact L|]. unfold lexok, tokenErr. cbn [fst snd lx_err lx_tok lex_err].
        rewrite offset_last. split; [|split; [cbn; congruence|reflexivity]].
        rewrite P. rewrite text_mk, <- T. replace (last_byte _) with (Z.of_nat (length (rev b ++ w ++ ds))).
        -- eapply ReBigNeg; [exact T'|assumption..].
        -- unfold pos, last_byte. cbn [rd_before length]. rewrite !app_length, rev_length. lia.
      * destruct H as (_ & _ & _ & H). destruct (H eq_refl) as (D & N & ->). cbn [lx_tok lx_val lx_err].
        destruct (Z.eqb_spec (dec_val ds) max_int64) as [Em|Em]; (split; [exact T|]; split; [exact L|]);
          unfold lexok; cbn [fst snd lx_err lx_tok lex_err]; rewrite text_mk, <- T.
        -- split; [|split; [discriminate|reflexivity]]. eapply ReMinus; [exact T'|assumption..].
        -- rewrite P, T'. pose proof (ends_mk b (45 :: w ++ ds) (rd_after r2) TInt (LInt (- dec_val ds))) as K. flat_in K.
           apply K; [constructor; assumption|constructor; assumption|discriminate].
    + cbn [rd_unget rd_before rd_after]. unfold rd_look. cbn [rd_get rd_after fst].
      split; [unfold text; cbn [snd rd_before rd_after]; rewrite rev_app_distr, rev_involutive; cbn; flat; reflexivity|].
      split; [unfold pos; cbn [snd rd_before]; rewrite app_length; cbn; lia|].
      unfold lexok, tokenErr. cbn [fst snd lx_err lx_tok lex_err]. rewrite offset_last.
      split; [|split; [cbn; congruence|reflexivity]]. rewrite text_mk.
      replace (last_byte _) with (Z.of_nat (length (rev b ++ w))).
      * change d with (byte_after (d :: a1) 0) at 2. eapply ReSign; [reflexivity|assumption..|].
        cbn. intro K. apply isDigit_iff in K. congruence.
      * unfold pos, last_byte. cbn [rd_before]. rewrite !app_length, !rev_length. cbn. lia.
Qed.

Lemma get_eof : forall r r1 c, nonneg (rd_after r) -> rd_get r = (c, r1) ->
  (c = eof /\ rd_after r = [] /\ r1 = r) \/ (0 <= c /\ exists a, rd_after r = c :: a /\ r1 = mkRd (c :: rd_before r) a).
Proof.
  intros [b [|d a]] r1 c Hn E; cbn in *; injection E as <- <-; [left; auto|].
  right. inversion Hn; eauto.
Qed.

Lemma nonneg_ws : forall r, nonneg (text r) -> nonneg (rd_after (ws r)).
Proof. intros r H. apply nonneg_text. destruct (ws_text r) as [E _]. rewrite E. exact H. Qed.

Lemma lexPath_good : forall r, nonneg (text r) -> good r (lexPath_rd TX r).
Proof.
  intros r Hn. pose proof (nonneg_ws _ Hn) as Hna. destruct (ws_text r) as [Tw Pw].
  assert (Hnw : nonneg (text (ws r))) by (rewrite Tw; exact Hn).
  assert (Hsp : not_next space (rd_after (ws r))) by (destruct (ws_spec r) as (? & _ & _ & _ & K); exact K).
  apply (good_mono r (ws r)); [exact Tw|exact Pw|]. clear Tw Pw Hn.
  unfold lexPath_rd. destruct (ws r) as [b a]. cbn [rd_after] in Hna, Hsp.
  destruct (rd_get (mkRd b a)) as [c r1] eqn:E. apply get_eof in E as [(-> & Ea & ->)|(Hc & a1 & Ea & ->)]; [| |exact Hna].
  { cbn [rd_after] in Ea. subst a. rewrite Z.eqb_refl. apply eof_good. }
  cbn [rd_after rd_before] in *. subst a. destruct (Z.eqb_spec c eof) as [Ec|_]; [unfold eof in Ec; lia|].
  assert (Hnt : nonneg (rev b ++ c :: a1)) by exact Hnw.
  assert (G : forall x, good (mkRd (c :: b) a1) x -> good (mkRd b (c :: a1)) x).
  { intro x. apply good_mono; [unfold text; cbn; rewrite <- app_assoc; reflexivity|unfold pos; cbn; lia]. }
  destruct (mem_Z c _) eqn:Em; [apply G, char_good|].
  destruct (Z.eqb_spec c 46) as [-> |Hc46]; [apply G, two_good; [reflexivity|cbn; auto]|].
  destruct (Z.eqb_spec c 63) as [-> |_].
  { apply G. unfold isNext. destruct (Z.eqb_spec (rd_look (mkRd (63 :: b) a1)) 40) as [E|E].
    - pose proof (two_good 63 40 TFilter (TChar 63) b a1 eq_refl) as K. unfold isNext in K.
      rewrite E, Z.eqb_refl in K. apply K. cbn. auto 10.
    - split; [reflexivity|]. split; [cbn; lia|]. unfold lexok. cbn [fst snd lx_err lx_tok lex_err].
      split; [|split; [rewrite offset_last; cbn; congruence|reflexivity]].
      rewrite offset_last. unfold pos. cbn [rd_before length]. rewrite last_byte_S. unfold text. cbn [rd_before rd_after rev].
      flat. rewrite <- (rev_length b). replace (rd_look _) with (byte_after a1 0).
      + eapply ReFilter; [reflexivity|]. destruct a1; [exact I|]. cbn. intro K. apply E. subst. reflexivity.
      + destruct a1; reflexivity. }
  destruct ((c =? 34) || (c =? 39)) eqn:Eq.
  { apply G, string_good; [exact Hnt|]. apply orb_true_iff in Eq as [Eq|Eq]; apply Z.eqb_eq in Eq; auto. }
  destruct (Z.eqb_spec c 45) as [-> |Hc45]; [apply minus_good; inversion Hna; assumption|].
  destruct (isDigit c) eqn:Ed; [apply G, number_good, isDigit_iff, Ed|].
  destruct (isLetter c) eqn:El; [apply G, id_good; [apply isLetter_iff, El|auto]|].
  apply G, bad_char_good; [intro K; apply isLetter_iff in K; congruence|intro K; apply isDigit_iff in K; congruence|exact Hsp|].
  apply orb_false_iff in Eq as [Eq1 Eq2]. apply Z.eqb_neq in Eq1, Eq2.
  intro K. cbn in K. repeat destruct K as [K|K]; try contradiction; subst c; try discriminate Em; congruence.
Qed.

Lemma lexExpr_good : forall r, nonneg (text r) -> good r (lexExpr_rd TX r).
Proof.
  intros r Hn. pose proof (nonneg_ws _ Hn) as Hna. destruct (ws_text r) as [Tw Pw].
  assert (Hnw : nonneg (text (ws r))) by (rewrite Tw; exact Hn).
  assert (Hsp : not_next space (rd_after (ws r))) by (destruct (ws_spec r) as (? & _ & _ & _ & K); exact K).
  apply (good_mono r (ws r)); [exact Tw|exact Pw|]. clear Tw Pw Hn.
  unfold lexExpr_rd. destruct (ws r) as [b a]. cbn [rd_after] in Hna, Hsp.
  destruct (rd_get (mkRd b a)) as [c r1] eqn:E. apply get_eof in E as [(-> & Ea & ->)|(Hc & a1 & Ea & ->)]; [| |exact Hna].
  { cbn [rd_after] in Ea. subst a. rewrite Z.eqb_refl. apply eof_good. }
  cbn [rd_after rd_before] in *. subst a. destruct (Z.eqb_spec c eof) as [Ec|_]; [unfold eof in Ec; lia|].
  assert (Hnt : nonneg (rev b ++ c :: a1)) by exact Hnw.
  assert (G : forall x, good (mkRd (c :: b) a1) x -> good (mkRd b (c :: a1)) x).
  { intro x. apply good_mono; [unfold text; cbn; rewrite <- app_assoc; reflexivity|unfold pos; cbn; lia]. }
  destruct (mem_Z c _) eqn:Em; [apply G, char_good|].
  destruct (Z.eqb_spec c 47) as [-> |_]; [apply G, char_good|].
  destruct (Z.eqb_spec c 38) as [-> |_]; [apply G, two_good; [reflexivity|cbn; auto 20]|].
  destruct (Z.eqb_spec c 124) as [-> |_]; [apply G, two_good; [reflexivity|cbn; auto 20]|].
  destruct (Z.eqb_spec c 60) as [-> |_]; [apply G, two_good; [reflexivity|cbn; auto 20]|].
  destruct (Z.eqb_spec c 62) as [-> |_]; [apply G, two_good; [reflexivity|cbn; auto 20]|].
  destruct (Z.eqb_spec c 61) as [-> |_].
  { apply G. destruct (isNext 61 TEQ (TChar 61) (mkRd (61 :: b) a1)) as [lx r1] eqn:E1.
    destruct (negb (tok_eqb (lx_tok lx) (TChar 61))) eqn:E2.
    - rewrite <- E1. apply two_good; [reflexivity|cbn; auto 20].
    - unfold isNext in E1. destruct (rd_look (mkRd (61 :: b) a1) =? 61).
      + destruct (rd_get _) in E1. injection E1 as <- <-. discriminate E2.
      + injection E1 as <- <-. apply two_good; [reflexivity|cbn; auto 20]. }
  destruct (Z.eqb_spec c 33) as [-> |_]; [apply G, two_good; [reflexivity|cbn; auto 20]|].
  destruct ((c =? 34) || (c =? 39)) eqn:Eq.
  { apply G, string_good; [exact Hnt|]. apply orb_true_iff in Eq as [Eq|Eq]; apply Z.eqb_eq in Eq; auto. }
  destruct (isDigit c) eqn:Ed; [apply G, number_good, isDigit_iff, Ed|].
  destruct (isLetter c) eqn:El; [apply G, id_good; [apply isLetter_iff, El|auto]|].
  apply G, bad_char_good; [intro K; apply isLetter_iff in K; congruence|intro K; apply isDigit_iff in K; congruence|exact Hsp|].
  apply orb_false_iff in Eq as [Eq1 Eq2]. apply Z.eqb_neq in Eq1, Eq2.
  intro K. cbn in K. repeat destruct K as [K|K]; try contradiction; subst c; try discriminate Em; congruence.
Qed.
End lex.
