(** What the lexer returns depends only on the text up to the place it stops at and the byte
    that follows. *)
From Verif Require Import Syntax SpecGrammar Lexer SpecErrors LexProofs LexProofs2 LexReason ReasonProofs.
Local Open Scope Z_scope.

Section two.
Variable TX : textoracles.
(** two texts that agree on the first [N] bytes, the first being longer *)
Variable N : nat.
Variables q q' : bytes.
Hypothesis Hq : q <> [].

Definition rel (r r' : rd) : Prop :=
  exists b u, r = mkRd b (u ++ q) /\ r' = mkRd b (u ++ q') /\ (length b + length u = N)%nat.

Definition same {A} (x x' : A * rd) : Prop :=
  (pos (snd x) < N)%nat -> fst x' = fst x /\ rel (snd x) (snd x').

Lemma rel_pos : forall r r', rel r r' -> pos r' = pos r.
Proof. intros r r' (b & u & -> & -> & _). reflexivity. Qed.

Lemma rel_offset : forall r r', rel r r' -> rd_offset r' = rd_offset r.
Proof. intros r r' (b & u & -> & -> & _). reflexivity. Qed.

Lemma rel_look : forall r r', rel r r' -> (pos r < N)%nat -> rd_look r' = rd_look r.
Proof.
  intros r r' (b & u & -> & -> & H) L. unfold pos in L. cbn in L. destruct u; [cbn in H; lia|reflexivity].
Qed.

Lemma rel_get : forall r r', rel r r' -> (pos r < N)%nat ->
  fst (rd_get r') = fst (rd_get r) /\ rel (snd (rd_get r)) (snd (rd_get r')) /\ pos (snd (rd_get r)) = S (pos r).
Proof.
  intros r r' (b & u & -> & -> & H) L. unfold pos in L. cbn in L. destruct u as [|c u]; [cbn in H; lia|]. cbn.
  split; [reflexivity|]. split; [|reflexivity]. exists (c :: b), u. cbn in *. split; [reflexivity|]. split; [reflexivity|lia].
Qed.

Lemma get_beyond : forall r r', rel r r' -> (N <= pos r)%nat -> (N < pos (snd (rd_get r)))%nat.
Proof.
  intros r r' (b & u & -> & -> & H) L. unfold pos in *. cbn in L. destruct u as [|c u]; [|cbn in H; lia].
  cbn [app]. destruct q; [congruence|]. cbn. lia.
Qed.

Lemma rel_unget : forall r r', rel r r' -> rel (rd_unget r) (rd_unget r').
Proof.
  intros r r' (b & u & -> & -> & H). destruct b as [|c b].
  - exists [], u. cbn in *. auto.
  - exists b, (c :: u). cbn in *. split; [reflexivity|]. split; [reflexivity|lia].
Qed.

Lemma rel_span : forall p r r', rel r r' -> same (rd_span p r) (rd_span p r').
Proof.
  intros p r r' (b & u & -> & -> & H) L. destruct (rd_span p (mkRd b (u ++ q))) as [w r1] eqn:E.
  apply rd_span_spec in E as (E1 & E2 & E3 & E4). cbn [fst snd rd_after rd_before] in *.
  unfold pos in L. rewrite E2, app_length, rev_length in L.
  assert (Hu : exists c u', u = w ++ c :: u' /\ rd_after r1 = (c :: u') ++ q).
  { assert (Lw : (length w < length u)%nat) by lia. clear - E1 Lw. revert u E1 Lw.
    induction w as [|x w IH]; intros u E L.
    - destruct u as [|c u]; [cbn in L; lia|]. exists c, u. split; [reflexivity|]. cbn in E. rewrite <- E. reflexivity.
    - destruct u as [|y u]; [cbn in L; lia|]. cbn in E. injection E as -> E. cbn in L.
      destruct (IH u E ltac:(lia)) as (c & u' & -> & K). exists c, u'. auto. }
  destruct Hu as (c & u' & -> & Ea). destruct r1 as [b1 a1]. cbn [rd_after rd_before] in *. subst b1 a1.
  replace ((w ++ c :: u') ++ q') with (w ++ (c :: u') ++ q') by (rewrite <- app_assoc; reflexivity).
  rewrite rd_span_app; [|exact E3|exact E4]. cbn [fst snd]. split; [reflexivity|].
  exists (rev w ++ b), (c :: u'). split; [reflexivity|]. split; [reflexivity|].
  rewrite app_length, rev_length. rewrite app_length in H. lia.
Qed.

Lemma rel_ws : forall r r', rel r r' -> (pos (ws r) < N)%nat -> rel (ws r) (ws r').
Proof.
  intros r r' H L. unfold ws in *. destruct (rd_span isSpace r) as [w r1] eqn:E.
  pose proof (rel_span isSpace r r' H) as K. rewrite E in K. apply (K L).
Qed.

Lemma span_pos : forall p r w r1, rd_span p r = (w, r1) -> pos r1 = (length w + pos r)%nat.
Proof. intros p r w r1 H. apply over_span, over_text in H. apply H. Qed.

Lemma get_pos : forall r, (pos r <= pos (snd (rd_get r)))%nat.
Proof. intros [b [|c a]]; unfold pos; cbn; lia. Qed.

Lemma number_same : forall real r r', (0 < pos r)%nat -> rel r r' -> same (lexNumber TX real r) (lexNumber TX real r').
Proof.
  intros real r r' Hp H L. unfold lexNumber in *.
  apply rel_unget in H.
  destruct (rd_span isDigit (rd_unget r)) as [ip r1] eqn:E1.
  pose proof (rel_span isDigit _ _ H) as K1. rewrite E1 in K1.
  destruct (rd_span isDigit (rd_unget r')) as [ip' r1'] eqn:E1'.
  assert (Z1 : (pos r1 < N)%nat -> ip' = ip /\ rel r1 r1') by (intro; apply K1; assumption). clear K1 H.
  destruct (negb real) eqn:Er; cbn [orb] in *.
  { destruct (parse_int ip) as [v|] eqn:Ep; cbn [snd] in L; destruct (Z1 L) as [-> R1]; rewrite Ep; auto. }
  destruct (Z.eqb_spec (rd_look r1) 46) as [El|El]; cbn [negb] in *.
  2:{ assert (L1 : (pos r1 < N)%nat) by (destruct (parse_int ip); exact L). destruct (Z1 L1) as [-> R1].
      rewrite (rel_look _ _ R1 L1). destruct (Z.eqb_spec (rd_look r1) 46); [contradiction|]. cbn [negb].
      destruct (parse_int ip); auto. }
  destruct (rd_get r1) as [d r2] eqn:E2. destruct (rd_span isDigit r2) as [fp r3] eqn:E3.
  pose proof (get_pos r1) as P2. rewrite E2 in P2. cbn [snd] in P2. pose proof (span_pos _ _ _ _ E3) as P3.
  assert (S3 : (pos r3 < N)%nat -> ip' = ip /\ (rd_look r1' =? 46) = true /\
    exists r2' r3', rd_get r1' = (d, r2') /\ rd_span isDigit r2' = (fp, r3') /\ rel r3 r3').
  { intro L3. destruct (Z1 ltac:(lia)) as [-> R1]. split; [reflexivity|].
    rewrite (rel_look _ _ R1 ltac:(lia)), El. split; [reflexivity|].
    destruct (rel_get _ _ R1 ltac:(lia)) as (G1 & G2 & _). rewrite E2 in G1, G2. destruct (rd_get r1') as [d' r2'].
    cbn [fst snd] in G1, G2. subst d'. exists r2'. pose proof (rel_span isDigit _ _ G2) as K. rewrite E3 in K.
    destruct (K L3) as [K1 K2]. cbn [fst snd] in *. destruct (rd_span isDigit r2') as [fp' r3']. cbn [fst snd] in *. subst fp'.
    exists r3'. auto. }
  destruct ((rd_look r3 =? 101) || (rd_look r3 =? 69)) eqn:Ex.
  - destruct (rd_get r3) as [ec r4] eqn:E4. pose proof (get_pos r3) as P4. rewrite E4 in P4. cbn [snd] in P4.
    destruct (if (rd_look r4 =? 43) || (rd_look r4 =? 45) then let (s, r'0) := rd_get r4 in ([s], r'0) else ([], r4)) as [sg r5] eqn:E5.
    assert (P5 : (pos r4 <= pos r5)%nat).
    { destruct ((rd_look r4 =? 43) || (rd_look r4 =? 45)).
      - pose proof (get_pos r4) as P. destruct (rd_get r4). injection E5 as _ <-. exact P.
      - injection E5 as _ <-. lia. }
    assert (S5 : (pos r5 < N)%nat -> ip' = ip /\ (rd_look r1' =? 46) = true /\
      exists r2' r3' r4' r5', rd_get r1' = (d, r2') /\ rd_span isDigit r2' = (fp, r3') /\
        (rd_look r3' =? 101) || (rd_look r3' =? 69) = true /\ rd_get r3' = (ec, r4') /\
        (if (rd_look r4' =? 43) || (rd_look r4' =? 45) then let (s, r'0) := rd_get r4' in ([s], r'0) else ([], r4')) = (sg, r5') /\
        rel r5 r5').
    { intro L5. destruct (S3 ltac:(lia)) as (A & B & r2' & r3' & C & D & R3). split; [exact A|]. split; [exact B|].
      destruct (rel_get _ _ R3 ltac:(lia)) as (G1 & G2 & _). rewrite E4 in G1, G2.
      destruct (rd_get r3') as [ec' r4'] eqn:E4'. cbn [fst snd] in G1, G2. subst ec'.
      exists r2', r3', r4'. rewrite (rel_look _ _ R3 ltac:(lia)). rewrite (rel_look _ _ G2 ltac:(lia)).
      destruct ((rd_look r4 =? 43) || (rd_look r4 =? 45)).
      - destruct (rel_get _ _ G2 ltac:(lia)) as (G3 & G4 & _).
        destruct (rd_get r4) as [x y]. destruct (rd_get r4') as [x' y']. cbn [fst snd] in *. subst x'.
        injection E5 as <- <-. exists y'. auto 10.
      - injection E5 as <- <-. exists r4'. auto 10. }
    destruct (isDigit (rd_look r5)) eqn:Ed; cbn [negb] in *.
    + destruct (rd_span isDigit r5) as [xp r6] eqn:E6. pose proof (span_pos _ _ _ _ E6) as P6.
      assert (L6 : (pos r6 < N)%nat) by (destruct (o_parse_float TX _); exact L).
      destruct (S5 ltac:(lia)) as (-> & B & r2' & r3' & r4' & r5' & C1 & C2 & C3 & C4 & C5 & R5).
      rewrite B. cbn [negb]. rewrite C1, C2, C3, C4, C5. rewrite (rel_look _ _ R5 ltac:(lia)), Ed. cbn [negb].
      pose proof (rel_span isDigit _ _ R5) as K. rewrite E6 in K. destruct (K L6) as [K1 K2]. cbn [fst snd] in *.
      destruct (rd_span isDigit r5') as [xp' r6']. cbn [fst snd] in *. subst xp'.
      destruct (o_parse_float TX _); auto.
    + cbn [snd] in L. destruct (S5 L) as (-> & B & r2' & r3' & r4' & r5' & C1 & C2 & C3 & C4 & C5 & R5).
      rewrite B. cbn [negb]. rewrite C1, C2, C3, C4, C5. rewrite (rel_look _ _ R5 L), Ed. cbn [negb]. auto.
  - assert (L3 : (pos r3 < N)%nat) by (destruct (o_parse_float TX _); exact L).
    destruct (S3 L3) as (-> & B & r2' & r3' & C & D & R3). rewrite B. cbn [negb]. rewrite C, D.
    rewrite (rel_look _ _ R3 L3), Ex. destruct (o_parse_float TX _); auto.
Qed.

Lemma id_same : forall p r r', rel r r' -> same (lexID p r) (lexID p r').
Proof.
  intros p r r' H L. unfold lexID in *. apply rel_unget in H. pose proof (rel_span p _ _ H) as K.
  destruct (rd_span p (rd_unget r)) as [w r1]. destruct (rd_span p (rd_unget r')) as [w' r1'].
  destruct (K L) as [K1 K2]. cbn in *. subst. auto.
Qed.

Lemma isNext_same : forall c t f r r', rel r r' -> same (isNext c t f r) (isNext c t f r').
Proof.
  intros c t f r r' H L.
  assert (Lp : (pos r < N)%nat).
  { unfold isNext in L. pose proof (get_pos r). destruct (rd_look r =? c); [destruct (rd_get r); cbn in *; lia|].
    destruct f; exact L. }
  unfold isNext. rewrite (rel_look _ _ H Lp), (rel_offset _ _ H). destruct (rd_look r =? c).
  - destruct (rel_get _ _ H Lp) as (_ & G & _). destruct (rd_get r), (rd_get r'). auto.
  - destruct f; auto.
Qed.

(** ** Strings *)
Lemma hex_same : forall i acc r r', rel r r' -> same (hex_loop i acc r) (hex_loop i acc r').
Proof.
  induction i as [|i IH]; intros acc r r' H L; cbn [hex_loop] in *; [auto|].
  assert (Lp : (pos r < N)%nat).
  { destruct (le_lt_dec N (pos r)) as [B|B]; [|exact B]. exfalso.
    pose proof (get_beyond _ _ H B) as G. destruct (rd_get r) as [c r1] eqn:E. cbn [snd] in G.
    destruct (c =? eof); [cbn [snd] in L; lia|]. destruct (negb (isHexDigit c)).
    - cbn [snd] in L. unfold pos in *. destruct r1 as [[|x b1] a1]; cbn in *; lia.
    - destruct (hex_loop i (acc ++ [c]) r1) as [x r2] eqn:E2. cbn [snd] in L.
      assert (pos r1 <= S (pos r2))%nat; [|lia].
      clear - E2. revert E2. generalize (acc ++ [c]). revert r1 x r2. induction i as [|i IH]; intros r1 x r2 a H; cbn in H.
      + injection H as _ <-. lia.
      + pose proof (get_pos r1). destruct (rd_get r1) as [d r3]. cbn [snd] in *. destruct (d =? eof); [injection H as _ <-; lia|].
        destruct (negb (isHexDigit d)); [injection H as _ <-; unfold pos in *; destruct r3 as [[|]]; cbn in *; lia|].
        apply IH in H. lia. }
  destruct (rel_get _ _ H Lp) as (G1 & G2 & _).
  destruct (rd_get r) as [c r1]. destruct (rd_get r') as [c' r1']. cbn [fst snd] in *. subst c'.
  destruct (c =? eof); [auto|]. destruct (negb (isHexDigit c)); [split; [reflexivity|apply rel_unget, G2]|].
  apply IH; assumption.
Qed.

Lemma escaped_pos : forall cq r, nonneg (rd_after r) -> cq = 34 \/ cq = 39 -> (pos r <= pos (snd (escaped cq r)))%nat.
Proof.
  intros cq [b a] Hn Hc. destruct (escaped cq (mkRd b a)) as [[rv|e] r] eqn:E.
  - apply escaped_text in E as [_ E]; [|assumption..]. unfold pos at 1. cbn. lia.
  - apply escaped_err in E as (_ & E & _); [|assumption..]. exact E.
Qed.

Lemma escaped_same : forall cq r r', nonneg (rd_after r) -> cq = 34 \/ cq = 39 -> rel r r' ->
  same (escaped cq r) (escaped cq r').
Proof.
  intros cq r r' Hn Hc H L.
  assert (Lp : (pos r < N)%nat) by (pose proof (escaped_pos cq r Hn Hc); lia).
  destruct (rel_get _ _ H Lp) as (G1 & G2 & _). unfold escaped in *.
  destruct (rd_get r) as [c r1]. destruct (rd_get r') as [c' r1']. cbn [fst snd] in *. subst c'.
  repeat match goal with |- context [if ?x then _ else _] =>
    lazymatch x with context [isHexDigit] => fail | _ => destruct x eqn:? end; try (split; [reflexivity|exact G2]) end.
  - pose proof (hex_same 4 [] _ _ G2) as K.
    destruct (hex_loop 4 [] r1) as [[ds|e] r2]; destruct (hex_loop 4 [] r1') as [[ds'|e'] r2'];
      destruct (K L) as [K1 K2]; cbn [fst snd] in *; try discriminate K1; injection K1 as <-; auto.
  - split; [reflexivity|apply rel_unget, G2].
Qed.

Definition sameF {A} (x x' : (A + perr) * rd) : Prop :=
  fst x <> inr EFuel -> (pos (snd x) < N)%nat -> (fst x' = fst x /\ rel (snd x) (snd x')) \/ fst x' = inr EFuel.

Lemma esc_loop_same : forall n n' cq surr acc b a r', nonneg (rev b ++ 92 :: a) -> cq = 34 \/ cq = 39 ->
  rel (mkRd (92 :: b) a) r' -> sameF (esc_loop n cq surr acc (mkRd (92 :: b) a)) (esc_loop n' cq surr acc r').
Proof.
  induction n as [|n IH]; intros n' cq surr acc b a r' Hn Hc H Hf L; [destruct Hf; reflexivity|].
  destruct n' as [|n']; [right; reflexivity|]. cbn [esc_loop] in *.
  assert (Hna : nonneg a) by (apply nonneg_app_r in Hn; inversion Hn; assumption).
  pose proof (escaped_same cq (mkRd (92 :: b) a) r' Hna Hc H) as K.
  destruct (escaped cq (mkRd (92 :: b) a)) as [[rv|e] r1] eqn:Ee.
  2:{ destruct (K L) as [K1 K2]. cbn [fst snd] in *. destruct (escaped cq r') as [x r1']. cbn [fst snd] in *. subst x. left. auto. }
  apply escaped_text in Ee as [Et Ep]; [|assumption..]. cbn [rev length] in Et, Ep. rewrite <- app_assoc in Et. cbn [app] in Et.
  set (nx := fun (n : nat) (r1 : rd) acc s => let (c, r2) := rd_get r1 in
        if c =? 92 then esc_loop n cq s acc r2
        else (inl (if negb (s =? 0) then acc ++ utf8_encode rune_error else acc), rd_unget r2)).
  assert (LX : forall acc s, (pos (snd (nx n r1 acc s)) < N)%nat -> (pos r1 < N)%nat).
  { intros acc' s L'. unfold nx in L'. destruct r1 as [b1 a1]. destruct a1 as [|c a1]; cbn [rd_get rd_after rd_before] in L'.
    - change (eof =? 92) with false in L'. cbv iota in L'. cbn [snd] in L'. exfalso.
      (* the end of the first text is beyond N *)
      destruct H as (b0 & u & E1 & _ & E3). injection E1 as <- ->. unfold text in Et. cbn [rd_before rd_after] in Et.
      rewrite app_nil_r in Et. apply (f_equal (@length Z)) in Et. rewrite rev_length, !app_length, rev_length in Et. cbn in Et.
      rewrite app_length in Et. assert (0 < length q)%nat by (destruct q; [congruence|cbn; lia]).
      cbn in E3. unfold pos in L'. destruct b1 as [|x b1]; cbn in *; lia.
    - destruct (Z.eqb_spec c 92) as [-> |Hc92].
      + destruct (esc_loop n cq s acc' (mkRd (92 :: b1) a1)) as [x r2] eqn:E2.
        apply esc_loop_text with (TX := TX) in E2 as (_ & E2 & _); [|unfold text in Et; cbn in Et; rewrite Et; exact Hn|exact Hc].
        unfold pos in *. cbn [snd rd_before] in *. lia.
      + cbn in L'. exact L'. }
  assert (X : forall acc s, sameF (nx n r1 acc s) (match escaped cq r' with (inr e, r1') => (inr e, r1') | (inl rv', r1') => nx n' r1' acc s end)).
  { intros acc' s Hf' L'. specialize (LX _ _ L'). destruct (K LX) as [K1 K2]. cbn [fst snd] in K1, K2.
    destruct (escaped cq r') as [y r1']. cbn [fst snd] in K1, K2. subst y.
    destruct (rel_get _ _ K2 LX) as (G1 & G2 & _). unfold nx in *.
    destruct r1 as [b1 a1]. destruct a1 as [|c a1].
    { destruct K2 as (b0 & u & E1 & _). injection E1 as _ E1. destruct u; [|discriminate E1]. destruct q; [congruence|discriminate E1]. }
    cbn [rd_get rd_after rd_before fst snd] in *. destruct (rd_get r1') as [c' r2']. cbn [fst snd] in *. subst c'.
    destruct (Z.eqb_spec c 92) as [-> |Hc92].
    - apply IH; [unfold text in Et; cbn in Et; rewrite Et; exact Hn|exact Hc|exact G2|exact Hf'|exact L'].
    - left. split; [reflexivity|]. cbn [snd]. apply rel_unget in G2. exact G2. }
  destruct (negb (surr =? 0)) eqn:Es; [destruct (negb (utf16_decode surr rv =? rune_error)) eqn:Eu|destruct (is_surrogate rv) eqn:Eu];
  (match type of L with (pos (snd (let (_, _) := rd_get r1 in if _ then esc_loop n cq ?s ?a _ else _)) < _)%nat =>
         change (pos (snd (nx n r1 a s)) < N)%nat in L; pose proof (X a s) as Y; specialize (LX a s L) end;
   destruct (K LX) as [K1 K2]; cbn [fst snd] in K1, K2; destruct (escaped cq r') as [y r1']; cbn [fst snd] in K1, K2; subst y;
   rewrite ?Eu; apply Y; [exact Hf|exact L]).
Qed.

Lemma lexString_same : forall n n' cq acc b a r', nonneg (rev b ++ a) -> cq = 34 \/ cq = 39 ->
  rel (mkRd b a) r' -> sameF (lexString_loop n cq acc (mkRd b a)) (lexString_loop n' cq acc r').
Proof.
  induction n as [|n IH]; intros n' cq acc b a r' Hn Hc H Hf L; [destruct Hf; reflexivity|].
  destruct n' as [|n']; [right; reflexivity|].
  assert (Lp : (pos (mkRd b a) < N)%nat).
  { destruct (lexString_loop (S n) cq acc (mkRd b a)) as [x r] eqn:E. apply lexString_text with (TX := TX) in E as (_ & E & _); [|assumption..].
    cbn [snd] in L. unfold pos at 1. cbn. lia. }
  destruct (rel_get _ _ H Lp) as (G1 & G2 & _). cbn [lexString_loop] in *.
  destruct a as [|c a].
  { destruct H as (b0 & u & E1 & _). injection E1 as _ E1. destruct u; [|discriminate E1]. destruct q; [congruence|discriminate E1]. }
  cbn [rd_get rd_after rd_before fst snd] in *. destruct (rd_get r') as [c' r1']. cbn [fst snd] in *. subst c'.
  assert (Ht : rev (c :: b) ++ a = rev b ++ c :: a) by (cbn; rewrite <- app_assoc; reflexivity).
  destruct (c =? eof); [left; auto|]. destruct (c =? cq); [left; auto|]. destruct (Z.eqb_spec c 92) as [-> |Hc92].
  - cbn [rd_after] in *. pose proof (esc_loop_same (S (length a)) (S (length (rd_after r1'))) cq 0 acc b a r1' Hn Hc G2) as K.
    destruct (esc_loop (S (length a)) cq 0 acc (mkRd (92 :: b) a)) as [[acc'|e] r2] eqn:E2.
    + apply esc_loop_text with (TX := TX) in E2 as (T2 & P2 & _); [|assumption..].
      destruct r2 as [b2 a2]. unfold text in T2. cbn [rd_before rd_after] in T2.
      assert (L2 : (pos (mkRd b2 a2) < N)%nat).
      { destruct (lexString_loop n cq acc' (mkRd b2 a2)) as [x r] eqn:E. apply lexString_text with (TX := TX) in E as (_ & E & _); [|rewrite T2; assumption|assumption].
        cbn [snd] in L. unfold pos at 1. cbn. lia. }
      destruct (K ltac:(discriminate) L2) as [[K1 K2]|K1]; cbn [fst snd] in *;
        destruct (esc_loop (S (length (rd_after r1'))) cq 0 acc r1') as [y r2']; cbn [fst snd] in *; subst y.
      * apply IH; [rewrite T2; exact Hn|exact Hc|exact K2|exact Hf|exact L].
      * right. reflexivity.
    + cbn [fst snd] in *. destruct (K Hf L) as [[K1 K2]|K1]; 
        destruct (esc_loop (S (length (rd_after r1'))) cq 0 acc r1') as [y r2']; cbn [fst snd] in *; subst y; [left; auto|right; reflexivity].
  - destruct (c <? 32); [left; auto|]. apply IH; [rewrite Ht; exact Hn|exact Hc|exact G2|exact Hf|exact L].
Qed.

Lemma string_same : forall cq b a r', nonneg (rev b ++ a) -> nonneg (rd_after r') -> cq = 34 \/ cq = 39 ->
  rel (mkRd b a) r' -> same (lex_string_tok cq (mkRd b a)) (lex_string_tok cq r').
Proof.
  intros cq b a r' Hn Hn' Hc H L. unfold lex_string_tok in *.
  pose proof (lexString_same (S (S (length a))) (S (S (length (rd_after r')))) cq [] b a r' Hn Hc H) as K.
  fold (lexString cq r') in K. change (lexString_loop (S (S (length a))) cq [] (mkRd b a)) with (lexString cq (mkRd b a)) in K.
  assert (C : fst (lexString cq (mkRd b a)) <> inr EFuel).
  { intro E. destruct (lexString cq (mkRd b a)) as [x r] eqn:E'. cbn in E. subst x.
    apply lexString_clean in E'; [exact E'|apply nonneg_app_r in Hn; exact Hn|exact Hc]. }
  assert (C' : fst (lexString cq r') <> inr EFuel).
  { intro E. destruct (lexString cq r') as [x r] eqn:E'. cbn in E. subst x.
    apply lexString_clean in E'; [exact E'|exact Hn'|exact Hc]. }
  assert (L' : (pos (snd (lexString cq (mkRd b a))) < N)%nat) by (destruct (lexString cq (mkRd b a)) as [[v|e] r]; exact L).
  destruct (K C L') as [[K1 K2]|K1]; [|contradiction].
  destruct (lexString cq (mkRd b a)) as [[v|e] r]; destruct (lexString cq r') as [[v'|e'] r1']; cbn [fst snd] in *;
    try discriminate K1; injection K1 as <-; auto.
Qed.

Lemma rel_nonneg : forall r r', rel r r' -> nonneg q' -> nonneg (text r) -> nonneg (text r').
Proof.
  intros r r' (b & u & -> & -> & _) Hq' H. unfold text in *. cbn [rd_before rd_after] in *.
  rewrite app_assoc in *. apply Forall_app in H as [H _]. apply Forall_app. auto.
Qed.

Lemma ws_ws : forall r, ws (ws r) = ws r.
Proof.
  intro r. destruct (ws_spec r) as (w & _ & _ & _ & H). destruct (ws r) as [b a]. cbn [rd_after] in H.
  apply (ws_app b [] a); [constructor|exact H].
Qed.
Lemma lexPath_ws : forall r, lexPath_rd TX (ws r) = lexPath_rd TX r.
Proof. intro r. unfold lexPath_rd. rewrite ws_ws. reflexivity. Qed.
Lemma lexExpr_ws : forall r, lexExpr_rd TX (ws r) = lexExpr_rd TX r.
Proof. intro r. unfold lexExpr_rd. rewrite ws_ws. reflexivity. Qed.

Lemma text_ws : forall r, text (ws r) = text r.
Proof. intro r. apply ws_text. Qed.

Lemma rel_end : forall r r', rel r r' -> (N < length (text r))%nat.
Proof.
  intros r r' (b & u & -> & -> & H). unfold text. cbn [rd_before rd_after]. rewrite !app_length, rev_length.
  assert (0 < length q)%nat by (destruct q; [congruence|cbn; lia]). lia.
Qed.

Lemma minus_same : forall r r', nonneg (text r) -> rel r r' ->
  let f := fun r0 => (let r := ws r0 in
    let (d, r1) := rd_get r in
    if negb (isDigit d) then
      let r2 := rd_unget r1 in (tokenErr (rd_look r2) r2, r2)
    else
      let (fol, r2) := lexNumber TX false r1 in
      match lx_tok fol, lx_val fol with
      | TInt, LInt n =>
        if n =? max_int64 then (lex_err EIntOverflow, r2)
        else (mkLex TInt (LInt (- n)) (lx_err fol), r2)
      | _, _ => (tokenErr 45 r2, r2)
      end) in same (f r) (f r').
Proof.
  intros r r' Hn H f L.
  assert (Hw : text (ws r) = text r) by apply text_ws.
  assert (S : snd (f r) = (let (d, r1) := rd_get (ws r) in if negb (isDigit d) then rd_unget r1 else snd (lexNumber TX false r1))).
  { unfold f. cbv zeta. destruct (rd_get (ws r)) as [d r1]. destruct (negb (isDigit d)); [reflexivity|].
    destruct (lexNumber TX false r1) as [fol r2]. destruct (lx_tok fol); try reflexivity.
    destruct (lx_val fol); try reflexivity. destruct (z =? max_int64); reflexivity. }
  assert (Lw : (pos (ws r) < N)%nat).
  { rewrite S in L. pose proof (rel_end _ _ H) as E. rewrite <- Hw in E. destruct (ws r) as [b [|d a]].
    - cbn [rd_get rd_after] in L. change (isDigit eof) with false in L. cbn [negb] in L.
      unfold text in E. cbn [rd_before rd_after] in E. rewrite app_nil_r, rev_length in E. unfold pos in *.
      destruct b as [|x b]; cbn in *; lia.
    - cbn [rd_get rd_after rd_before] in L. destruct (isDigit d) eqn:Ed; cbn [negb] in L.
      + destruct (lexNumber TX false (mkRd (d :: b) a)) as [fol r2] eqn:E2.
        apply number_over in E2 as (w & O & Hw2 & _); [|apply isDigit_iff, Ed]. apply over_text in O as [_ O].
        cbn [snd] in L. rewrite O in L. unfold pos in *. cbn in *. lia.
      + exact L. }
  pose proof (rel_ws _ _ H Lw) as R. destruct (rel_get _ _ R Lw) as (G1 & G2 & G3).
  pose proof L as L2. rewrite S in L2. clear S. unfold f in L |- *. cbv zeta in L |- *. destruct (rd_get (ws r)) as [d r1]. destruct (rd_get (ws r')) as [d' r1'].
  cbn [fst snd] in G1, G2, G3. subst d'.
  destruct (negb (isDigit d)) eqn:Ed.
  - cbn [fst snd] in *. apply rel_unget in G2. split; [|exact G2]. unfold tokenErr.
    rewrite (rel_offset _ _ G2), (rel_look _ _ G2 L). reflexivity.
  - pose proof (number_same false r1 r1' ltac:(lia) G2) as K. clear L. rename L2 into L. cbn [snd] in L.
    destruct (lexNumber TX false r1) as [fol r2]. destruct (lexNumber TX false r1') as [fol' r2'].
    destruct (K L) as [K1 K2]. cbn [fst snd] in *. subst fol'. pose proof (rel_offset _ _ K2) as O. unfold tokenErr.
    rewrite O. destruct (lx_tok fol); auto. destruct (lx_val fol) as [|v|z|v]; auto.
    destruct (z =? max_int64); auto.
Qed.

Lemma lexPath_same : forall r r', nonneg q' -> nonneg (text r) -> rel r r' -> same (lexPath_rd TX r) (lexPath_rd TX r').
Proof.
  intros r r' Hq' Hn H L.
  assert (Lw : (pos (ws r) < N)%nat).
  { pose proof (lexPath_good TX (ws r)) as G. rewrite text_ws, lexPath_ws in G. destruct (G Hn) as (_ & G2 & _). lia. }
  pose proof (rel_ws _ _ H Lw) as R. destruct (rel_get _ _ R Lw) as (G1 & G2 & G3).
  assert (T1 : nonneg (text (snd (rd_get (ws r))))) by (rewrite get_text, text_ws; exact Hn).
  pose proof (rel_nonneg _ _ G2 Hq' T1) as T1'.
  unfold lexPath_rd in *. destruct (rd_get (ws r)) as [c r1]. destruct (rd_get (ws r')) as [c' r1']. cbn [fst snd] in *. subst c'.
  destruct (c =? eof); [auto|]. destruct (mem_Z c _); [auto|].
  destruct (c =? 46); [apply isNext_same; assumption|]. destruct (c =? 63); [apply isNext_same; assumption|].
  destruct ((c =? 34) || (c =? 39)) eqn:Eq.
  { destruct r1 as [b a]. apply string_same; try assumption; [apply nonneg_text, T1'|].
    apply orb_true_iff in Eq as [Eq|Eq]; apply Z.eqb_eq in Eq; auto. }
  destruct (Z.eqb_spec c 45) as [-> |_].
  { apply (minus_same r1 r1' T1 G2). exact L. }
  destruct (isDigit c); [apply number_same; [lia|assumption..]|].
  destruct (isLetter c); [apply id_same; assumption|].
  cbn [fst snd] in *. unfold tokenErr. rewrite (rel_offset _ _ G2). auto.
Qed.

Lemma lexExpr_same : forall r r', nonneg q' -> nonneg (text r) -> rel r r' -> same (lexExpr_rd TX r) (lexExpr_rd TX r').
Proof.
  intros r r' Hq' Hn H L.
  assert (Lw : (pos (ws r) < N)%nat).
  { pose proof (lexExpr_good TX (ws r)) as G. rewrite text_ws, lexExpr_ws in G. destruct (G Hn) as (_ & G2 & _). lia. }
  pose proof (rel_ws _ _ H Lw) as R. destruct (rel_get _ _ R Lw) as (G1 & G2 & G3).
  assert (T1 : nonneg (text (snd (rd_get (ws r))))) by (rewrite get_text, text_ws; exact Hn).
  pose proof (rel_nonneg _ _ G2 Hq' T1) as T1'.
  unfold lexExpr_rd in *. destruct (rd_get (ws r)) as [c r1]. destruct (rd_get (ws r')) as [c' r1']. cbn [fst snd] in *. subst c'.
  destruct (c =? eof); [auto|]. destruct (mem_Z c _); [auto|]. destruct (c =? 47); [auto|].
  destruct (c =? 38); [apply isNext_same; assumption|]. destruct (c =? 124); [apply isNext_same; assumption|].
  destruct (c =? 60); [apply isNext_same; assumption|]. destruct (c =? 62); [apply isNext_same; assumption|].
  destruct (c =? 61).
  { pose proof (isNext_same 61 TEQ (TChar 61) _ _ G2) as K. unfold same in K.
    assert (E : forall r, snd (isNext 61 TEQ (TChar 61) r) = if rd_look r =? 61 then snd (rd_get r) else r).
    { intro x. unfold isNext. destruct (rd_look x =? 61); [destruct (rd_get x); reflexivity|reflexivity]. }
    assert (Lk : (pos r1 < N)%nat).
    { destruct (isNext 61 TEQ (TChar 61) r1) as [lx r2] eqn:E2. pose proof (f_equal snd E2) as E3. rewrite E in E3. cbn [snd] in E3.
      assert (P2 : (pos r1 <= pos r2)%nat) by (rewrite <- E3; pose proof (get_pos r1); destruct (rd_look r1 =? 61); lia).
      destruct (negb (tok_eqb (lx_tok lx) (TChar 61))); [cbn [snd] in L; lia|].
      unfold isNext in L. pose proof (get_pos r2). destruct (rd_look r2 =? 126); [destruct (rd_get r2)|]; cbn [snd] in *; lia. }
    pose proof (rel_look _ _ G2 Lk) as El. destruct (rel_get _ _ G2 Lk) as (G4 & G5 & _).
    destruct (isNext 61 TEQ (TChar 61) r1) as [lx r2] eqn:E2. destruct (isNext 61 TEQ (TChar 61) r1') as [lx' r2'] eqn:E2'.
    assert (Q : lx' = lx /\ rel r2 r2').
    { unfold isNext in E2, E2'. rewrite El in E2'. destruct (rd_look r1 =? 61).
      - destruct (rd_get r1), (rd_get r1'). injection E2 as <- <-. injection E2' as <- <-. auto.
      - injection E2 as <- <-. injection E2' as <- <-. auto. }
    destruct Q as [-> Q]. destruct (negb (tok_eqb (lx_tok lx) (TChar 61))); [auto|]. apply isNext_same; assumption. }
  destruct (c =? 33); [apply isNext_same; assumption|].
  destruct ((c =? 34) || (c =? 39)) eqn:Eq.
  { destruct r1 as [b a]. apply string_same; try assumption; [apply nonneg_text, T1'|].
    apply orb_true_iff in Eq as [Eq|Eq]; apply Z.eqb_eq in Eq; auto. }
  destruct (isDigit c); [apply number_same; [lia|assumption..]|].
  destruct (isLetter c); [apply id_same; assumption|].
  cbn [fst snd] in *. unfold tokenErr. rewrite (rel_offset _ _ G2). auto.
Qed.

(** regular expressions *)
Lemma regexp_same : forall n acc b u lx r, (length u <= n)%nat -> lexRegexp_loop 47 acc b (u ++ q) = (lx, r) ->
  (length b + length u = N)%nat -> (pos r < N)%nat ->
  exists r', lexRegexp_loop 47 acc b (u ++ q') = (lx, r') /\ rel r r'.
Proof.
  assert (M : forall a acc b lx r, lexRegexp_loop 47 acc b a = (lx, r) -> (length b <= pos r)%nat).
  { intros a acc b lx r H. eapply regexp_loop_over in H as (_ & H & _); [exact H|reflexivity]. }
  induction n as [|n IH]; intros acc b u lx r Hn H HN L; [|destruct u as [|c u]].
  1:{ destruct u; [|cbn in Hn; lia]. apply M in H. cbn in HN. lia. }
  1:{ apply M in H. cbn in HN. lia. }
  cbn [app lexRegexp_loop] in *. destruct (c =? 47).
  { injection H as <- <-. eexists. split; [reflexivity|]. exists (c :: b), u. cbn in *. split; [reflexivity|]. split; [reflexivity|lia]. }
  destruct u as [|d u].
  { exfalso. cbn [app length] in *. destruct q as [|d a]; [congruence|].
    destruct ((c =? 92) && (d =? 47)); apply M in H; cbn in H; lia. }
  cbn [app] in *. destruct ((c =? 92) && (d =? 47)).
  - apply IH in H; [exact H|cbn in *; lia..].
  - apply (IH _ _ (d :: u)) in H; [exact H|cbn in *; lia..].
Qed.
End two.
