(** The lexers read exactly the tokens of the grammar: numbers, names and whole
    tokens. *)
From Verif Require Import SpecGrammar Lexer Parser LexProofs.
Local Open Scope Z_scope.

(** ** The fuel of the string loops suffices *)
(** errors that Go can report: not the exhaustion of the model's fuel *)
Definition clean (e : perr) : Prop :=
  match e with EFuel => False | EExpectedErr _ _ EFuel => False | _ => True end.

Lemma hex_loop_clean : forall i acc r e r', hex_loop i acc r = (inr e, r') -> clean e.
Proof.
  induction i as [|i IH]; intros acc r e r' H; simpl in H; [discriminate|].
  destruct (rd_get r) as [c r1]. destruct (c =? eof); [injection H as <- <-; exact I|].
  destruct (negb (isHexDigit c)); [injection H as <- <-; exact I|]. eapply IH; eauto.
Qed.

Lemma escaped_clean : forall q r e r', escaped q r = (inr e, r') -> clean e.
Proof.
  intros q r e r' H. unfold escaped in H. destruct (rd_get r) as [c r1].
  repeat match type of H with
  | (if ?b then _ else _) = _ => destruct b; try discriminate; try (injection H as <- <-; exact I)
  end.
  destruct (hex_loop 4 [] r1) as [[ds|er] r2] eqn:E; [discriminate|].
  injection H as -> ->. eapply hex_loop_clean; eauto.
Qed.

Lemma esc_loop_clean : forall n q surr acc b a e r, nonneg a -> q = 34 \/ q = 39 ->
  surr = 0 \/ surrogate surr = true ->
  (length a < n)%nat -> esc_loop n q surr acc (mkRd b a) = (inr e, r) -> clean e.
Proof.
  induction n as [|n IH]; intros q surr acc b a e r Hn Hq Hs Hl H; [lia|].
  destruct (escaped q (mkRd b a)) as [[rv|er] r1] eqn:E.
  2:{ cbn [esc_loop] in H. rewrite E in H. injection H as -> ->. eapply escaped_clean; eauto. }
  rewrite (esc_loop_unfold _ _ _ _ _ _ _ E Hs) in H.
  destruct (escaped_ok _ _ _ _ _ Hn Hq E) as (it & Hit & Ha & Hb).
  apply esc_item_nonempty in Hit. destruct r1 as [b1 a1]. simpl in Ha. subst a.
  rewrite app_length in Hl. destruct it as [|i0 it]; [congruence|]. cbn [length] in Hl.
  apply nonneg_app_r in Hn.
  destruct (pend surr) as [h|].
  - destruct (high_surrogate h && low_surrogate rv);
    (destruct a1 as [|c a1]; cbn [rd_get rd_after rd_before] in H;
     [change (eof =? 92) with false in H; discriminate|];
     destruct (c =? 92); [|discriminate]; cbn [length] in Hl; inversion Hn; subst;
     revert H; apply IH; auto; lia).
  - destruct (surrogate rv) eqn:Er;
    (destruct a1 as [|c a1]; cbn [rd_get rd_after rd_before] in H;
     [change (eof =? 92) with false in H; discriminate|];
     destruct (c =? 92); [|discriminate]; cbn [length] in Hl; inversion Hn; subst;
     revert H; apply IH; auto; lia).
Qed.

Lemma lexString_loop_clean : forall n q acc b a e r, nonneg a -> q = 34 \/ q = 39 ->
  (length a < n)%nat -> lexString_loop n q acc (mkRd b a) = (inr e, r) -> clean e.
Proof.
  induction n as [|n IH]; intros q acc b a e r Hn Hq Hl H; [lia|].
  destruct a as [|c a]; [rewrite lexString_loop_end in H; injection H as <- <-; exact I|].
  cbn [lexString_loop rd_get rd_after rd_before] in H. inversion Hn as [|? ? Hc Hna]; subst.
  destruct (c =? eof); [injection H as <- <-; exact I|]. destruct (c =? q); [discriminate|].
  cbn [length] in Hl.
  destruct (Z.eqb_spec c 92) as [->|].
  - destruct (esc_loop (S (length a)) q 0 acc (mkRd (92 :: b) a)) as [[acc'|er] r2] eqn:E.
    2:{ injection H as -> ->. eapply esc_loop_clean in E; eauto. }
    apply esc_loop_ok in E; auto. destruct E as (u & rs & t & E1 & E2 & E3 & E4 & E5).
    apply esc_run_len in E2 as [E2 [u' ->]]. injection E1 as ->.
    cbn [tl] in E5. rewrite app_length in Hl. cbn [length] in E2.
    destruct t as [|c1 t].
    + destruct (@exists_last _ u') as [u'' [c ->]]; [intros ->; simpl in E2; lia|].
      rewrite rev_app_distr in E5. cbn [rev app] in E5. rewrite after_run_nil in E5. subst r2.
      revert H. apply IH; auto.
      * rewrite app_nil_r in Hna. apply nonneg_app_r in Hna. assumption.
      * rewrite app_length in *. simpl in *. lia.
    + subst r2. revert H. apply IH; auto.
      * apply nonneg_app_r in Hna. assumption.
      * lia.
  - destruct (c <? 32); [injection H as <- <-; exact I|]. revert H. apply IH; auto. lia.
Qed.

Lemma lexString_ok : forall q r v r', nonneg (rd_after r) -> q = 34 \/ q = 39 ->
  lexString q r = (inl v, r') ->
  (exists t, str_body q t v /\ rd_after r = t ++ q :: rd_after r') \/
  (str_open q (rd_after r) v /\ rd_after r' = []).
Proof.
  intros q [b a] v r' Hn Hq H. unfold lexString in H.
  apply lexString_loop_ok in H as (v' & -> & H); auto.
Qed.

Lemma lexString_clean : forall q r e r', nonneg (rd_after r) -> q = 34 \/ q = 39 ->
  lexString q r = (inr e, r') -> clean e.
Proof.
  intros q [b a] e r' Hn Hq. unfold lexString. apply lexString_loop_clean; auto.
Qed.

(** ** Tokens *)

(** the token of a punctuation mark *)
Definition tok_of (p : bytes) : token :=
  match p with
  | [c] => TChar c
  | [c; d] =>
    if c =? 38 then TAnd else if c =? 124 then TOr else if c =? 60 then TLE
    else if c =? 62 then TGE else if c =? 33 then TNE else if c =? 46 then TNest
    else if c =? 63 then TFilter else if d =? 61 then TEQ else TMatch
  | _ => TError
  end.

Definition lexeme_of (t : gtok) : lexeme :=
  match t with
  | GPunct p => lex_tok (tok_of p)
  | GStr v => mkLex TString (LStr v) None
  | GInt z => mkLex TInt (LInt z) None
  | GReal f => mkLex TReal (LFloat f) None
  | GName s => mkLex TID (LStr s) None
  | GEnd => lex_tok TEOF
  end.

(** Characters that are read as tokens of their own in expressions but belong to no
    punctuation of the grammar *)
Definition junk (lx : lexeme) : Prop :=
  lx = lex_tok (TChar 38) \/ lx = lex_tok (TChar 124) \/ lx = lex_tok (TChar 61).

Definition bad (lx : lexeme) : Prop :=
  exists e, lx = lex_err e /\ clean e.

Definition short (ps : list bytes) : Prop := Forall (fun p => (length p <= 2)%nat) ps.

Lemma longest1 : forall ps c r, In [c] ps -> short ps ->
  (forall d, In [c; d] ps -> not_next (eq d) r) -> longest ps [c] (c :: r).
Proof.
  intros ps c r Hin Hs H. split; auto. intros p' Hp' [t Ht].
  eapply Forall_forall in Hs; eauto. destruct p' as [|a [|b [|]]]; simpl in *; try lia.
  exfalso. injection Ht as <- ->. specialize (H b Hp'). simpl in H. congruence.
Qed.

Lemma longest2 : forall ps c d r, In [c; d] ps -> short ps -> longest ps [c; d] (c :: d :: r).
Proof.
  intros ps c d r Hin Hs. split; auto. intros p' Hp' _. eapply Forall_forall in Hs; eauto.
Qed.

Lemma longest1_inv : forall ps c d r, longest ps [c] (c :: r) -> In [c; d] ps -> not_next (eq d) r.
Proof.
  intros ps c d [|x r] [_ H] Hin; simpl; auto. intros <-.
  specialize (H _ Hin (ex_intro _ r eq_refl)). simpl in H. lia.
Qed.

Lemma short_expr : short expr_puncts. Proof. repeat constructor. Qed.
Lemma short_path : short path_puncts. Proof. repeat constructor. Qed.

Ltac in_list := first [left; reflexivity | right; in_list].
Ltac in_puncts := unfold expr_puncts, path_puncts, b_of; simpl; in_list.
Ltac not_in_puncts H :=
  unfold expr_puncts, path_puncts, b_of in H; simpl in H;
  repeat match type of H with
  | _ \/ _ => destruct H as [H|H]
  | False => destruct H
  | _ = _ => first [discriminate H | injection H; intros; subst; clear H]
  end.

(** the start of a token is not white space *)
Lemma tok1_start : forall ps dash s t r, ps = expr_puncts \/ ps = path_puncts ->
  tok1 ps dash s t r -> not_next space s.
Proof.
  intros ps dash s t r Hps H. destruct H; simpl; auto.
  - destruct H as [H _].
    destruct Hps as [->| ->]; unfold expr_puncts, path_puncts, b_of in H; simpl in H;
    repeat (destruct H as [<-|H]; [simpl; unfold space; lia|]); destruct H.
  - unfold space. lia.
  - unfold letter in H. unfold space. lia.
Qed.

Lemma not_next_app : forall (P : Z -> Prop) d s, d <> [] -> Forall (fun c => ~ P c) d -> not_next P (d ++ s).
Proof. intros P [|c d] s Hd H; [congruence|]. inversion H; subst. exact H2. Qed.

Lemma digits_not_space : forall ds s, ds <> [] -> Forall digit ds -> not_next space (ds ++ s).
Proof.
  intros. apply not_next_app; auto. eapply Forall_impl; [|eassumption].
  unfold digit, space. intros. lia.
Qed.

(** ** Numbers *)
Lemma rd_look_after : forall r, rd_look r = match rd_after r with [] => eof | c :: _ => c end.
Proof. intros [b [|c a]]; reflexivity. Qed.

Lemma span_digits : forall r w r', rd_span isDigit r = (w, r') ->
  rd_after r = w ++ rd_after r' /\ Forall digit w /\ not_next digit (rd_after r').
Proof.
  intros r w r' H. apply rd_span_spec in H as (H1 & _ & H3 & H4).
  rewrite (Forall_iff _ _ w isDigit_iff) in H3. rewrite (not_next_iff _ _ _ isDigit_iff) in H4. auto.
Qed.

Lemma span_digits_app : forall b w a, Forall digit w -> not_next digit a ->
  rd_span isDigit (mkRd b (w ++ a)) = (w, mkRd (rev w ++ b) a).
Proof.
  intros. apply rd_span_app.
  - apply (Forall_iff _ _ w isDigit_iff). assumption.
  - apply (not_next_iff _ _ a isDigit_iff). assumption.
Qed.

Lemma eof_not_digit : ~ digit eof. Proof. unfold digit, eof. lia. Qed.

Definition int_tok (s : bytes) (lx : lexeme) (r : rd) : Prop :=
  exists ds, ds <> [] /\ Forall digit ds /\ s = ds ++ rd_after r /\ not_next digit (rd_after r) /\
    ((dec_val ds < 2 ^ 63 /\ lx = lexeme_of (GInt (dec_val ds))) \/
     (2 ^ 63 <= dec_val ds /\ bad lx)).

Lemma lexNumber_int : forall TX c b a lx r, digit c ->
  lexNumber TX false (mkRd (c :: b) a) = (lx, r) -> int_tok (c :: a) lx r.
Proof.
  intros TX c b a lx r Hc H. unfold lexNumber in H. cbn [rd_unget rd_before rd_after] in H.
  destruct (rd_span isDigit (mkRd b (c :: a))) as [ip r1] eqn:E.
  apply span_digits in E as (E1 & E2 & E3). simpl in E1. cbn [negb orb] in H.
  assert (Hip : ip <> []).
  { intros ->. simpl in E1. rewrite <- E1 in E3. simpl in E3. contradiction. }
  rewrite parse_int_digits in H by assumption. exists ip.
  destruct (Z.ltb_spec (dec_val ip) (2 ^ 63)); injection H as <- <-; repeat split; auto.
  right. split; auto. eexists. split; [reflexivity|exact I].
Qed.

Lemma lexNumber_int_app : forall TX c b ds rest, Forall digit (c :: ds) -> not_next digit rest ->
  dec_val (c :: ds) < 2 ^ 63 ->
  lexNumber TX false (mkRd (c :: b) (ds ++ rest)) =
    (lexeme_of (GInt (dec_val (c :: ds))), mkRd (rev (c :: ds) ++ b) rest).
Proof.
  intros TX c b ds rest Hd Hr Hv. unfold lexNumber. cbn [rd_unget rd_before rd_after].
  change (c :: ds ++ rest) with ((c :: ds) ++ rest).
  rewrite span_digits_app by assumption. cbn [negb orb].
  rewrite parse_int_digits by (try discriminate; assumption).
  destruct (Z.ltb_spec (dec_val (c :: ds)) (2 ^ 63)); [reflexivity|lia].
Qed.

(** numbers in expressions *)
Lemma lexNumber_real : forall TX c b a lx r, digit c ->
  lexNumber TX true (mkRd (c :: b) a) = (lx, r) ->
  (exists e, lx = lex_err e /\ clean e) \/
  exists t, lx = lexeme_of t /\ etok (o_parse_float TX) true (c :: a) t (rd_after r).
Proof.
  intros TX c b a lx r Hc H. unfold lexNumber in H. cbn [rd_unget rd_before rd_after] in H.
  destruct (rd_span isDigit (mkRd b (c :: a))) as [ip r1] eqn:E.
  apply span_digits in E as (E1 & E2 & E3). simpl in E1. cbn [negb orb] in H.
  assert (Hip : ip <> []).
  { intros ->. simpl in E1. rewrite <- E1 in E3. simpl in E3. contradiction. }
  rewrite rd_look_after in H.
  destruct (Z.eqb_spec (match rd_after r1 with [] => eof | c :: _ => c end) 46) as [Ed|Ed];
    cbn [negb orb] in H.
  - destruct r1 as [b1 a1]. destruct a1 as [|c1 a1]; [discriminate|]. cbn [rd_after] in Ed. subst c1.
    cbn [rd_get rd_after rd_before] in H.
    destruct (rd_span isDigit (mkRd (46 :: b1) a1)) as [fp r2] eqn:E'.
    apply span_digits in E' as (F1 & F2 & F3). cbn [rd_after] in *. rewrite rd_look_after in H.
    set (c2 := match rd_after r2 with [] => eof | c :: _ => c end) in *.
    destruct ((c2 =? 101) || (c2 =? 69)) eqn:Ee.
    + destruct r2 as [b2 a2]. unfold c2 in *. destruct a2 as [|c2' a2]; [discriminate|].
      cbn [rd_after] in *. clear c2. cbn [rd_get rd_after rd_before] in H.
      rewrite rd_look_after in H. cbn [rd_after] in H.
      assert (He : c2' = 101 \/ c2' = 69).
      { apply orb_true_iff in Ee. rewrite !Z.eqb_eq in Ee. assumption. }
      set (sgr := if _ || _ then _ else _) in H.
      assert (Hsg : let '(sg, r3) := sgr in (sg = [] \/ sg = [43] \/ sg = [45]) /\ a2 = sg ++ rd_after r3).
      { unfold sgr. destruct a2 as [|c3 a2]; [simpl; auto|].
        destruct (Z.eqb_spec c3 43) as [->|]; [simpl; auto|].
        destruct (Z.eqb_spec c3 45) as [->|]; simpl; auto. }
      destruct sgr as [sg r3]. destruct Hsg as [Hsg Ha2].
      rewrite rd_look_after in H.
      destruct (isDigit (match rd_after r3 with [] => eof | c :: _ => c end)) eqn:Ex; cbn [negb] in H.
      2:{ injection H as <- <-. left. eexists. split; [reflexivity|exact I]. }
      destruct (rd_span isDigit r3) as [xp r4] eqn:E4. apply span_digits in E4 as (G1 & G2 & G3).
      assert (Hxp : xp <> []).
      { intros ->. simpl in G1. rewrite <- G1 in G3. apply isDigit_iff in Ex.
        destruct (rd_after r3); [apply eof_not_digit in Ex|simpl in G3]; contradiction. }
      destruct (o_parse_float TX (ip ++ 46 :: fp ++ c2' :: sg ++ xp)) as [f|] eqn:Ef;
        injection H as <- <-.
      * right. exists (GReal f). split; [reflexivity|].
        assert (c :: a = [] ++ (ip ++ 46 :: fp ++ (c2' :: sg ++ xp)) ++ rd_after r4) as ->.
        { rewrite E1, F1, Ha2, G1. repeat (rewrite <- app_assoc; cbn [app]). reflexivity. }
        apply ETokRealExp; auto; try constructor; auto.
      * left. eexists. split; [reflexivity|exact I].
    + destruct (o_parse_float TX (ip ++ 46 :: fp)) as [f|] eqn:Ef; injection H as <- <-.
      * right. exists (GReal f). split; [reflexivity|].
        assert (c :: a = [] ++ (ip ++ 46 :: fp) ++ rd_after r2) as ->.
        { rewrite E1, F1. repeat (rewrite <- app_assoc; cbn [app]). reflexivity. }
        apply ETokReal; auto. unfold c2 in Ee. destruct (rd_after r2) as [|c3 a3]; simpl in *; auto.
        apply orb_false_iff in Ee as [Ea Eb]. apply Z.eqb_neq in Ea, Eb. tauto.
      * left. eexists. split; [reflexivity|exact I].
  - rewrite parse_int_digits in H by assumption.
    destruct (Z.ltb_spec (dec_val ip) (2 ^ 63)); injection H as <- <-.
    + right. exists (GInt (dec_val ip)). split; [reflexivity|].
      assert (c :: a = [] ++ ip ++ rd_after r1) as -> by (rewrite E1; reflexivity).
      apply ETokInt; auto. destruct (rd_after r1); simpl in *; auto. tauto.
    + left. eexists. split; [reflexivity|exact I].
Qed.

Lemma lexNumber_real_int : forall TX c b ds rest, Forall digit (c :: ds) ->
  not_next (fun c => digit c \/ c = 46) rest -> dec_val (c :: ds) < 2 ^ 63 ->
  lexNumber TX true (mkRd (c :: b) (ds ++ rest)) =
    (lexeme_of (GInt (dec_val (c :: ds))), mkRd (rev (c :: ds) ++ b) rest).
Proof.
  intros TX c b ds rest Hd Hr Hv. unfold lexNumber. cbn [rd_unget rd_before rd_after].
  change (c :: ds ++ rest) with ((c :: ds) ++ rest).
  rewrite span_digits_app; auto. 2:{ destruct rest; simpl in *; tauto. }
  rewrite rd_look_after. cbn [rd_after negb orb].
  destruct (Z.eqb_spec (match rest with [] => eof | c :: _ => c end) 46).
  { destruct rest; [discriminate|]. simpl in Hr. tauto. }
  cbn [negb]. rewrite parse_int_digits by (try discriminate; assumption).
  destruct (Z.ltb_spec (dec_val (c :: ds)) (2 ^ 63)); [reflexivity|lia].
Qed.

Lemma lexNumber_real_frac : forall TX c b ds fs rest f, Forall digit (c :: ds) -> Forall digit fs ->
  not_next (fun c => digit c \/ c = 101 \/ c = 69) rest ->
  o_parse_float TX ((c :: ds) ++ 46 :: fs) = Some f ->
  lexNumber TX true (mkRd (c :: b) (ds ++ 46 :: fs ++ rest)) =
    (lexeme_of (GReal f), mkRd (rev fs ++ 46 :: rev (c :: ds) ++ b) rest).
Proof.
  intros TX c b ds fs rest f Hd Hf Hr Ho. unfold lexNumber. cbn [rd_unget rd_before rd_after].
  change (c :: ds ++ 46 :: fs ++ rest) with ((c :: ds) ++ 46 :: fs ++ rest).
  rewrite span_digits_app; auto. 2:{ simpl. unfold digit. lia. }
  rewrite rd_look_after. cbn [rd_after negb orb]. change (46 =? 46) with true.
  cbn [negb rd_get rd_after rd_before].
  rewrite span_digits_app; auto. 2:{ destruct rest; simpl in *; tauto. }
  rewrite rd_look_after. cbn [rd_after].
  destruct (Z.eqb_spec (match rest with [] => eof | c :: _ => c end) 101).
  { destruct rest; [discriminate|]. simpl in Hr. tauto. }
  destruct (Z.eqb_spec (match rest with [] => eof | c :: _ => c end) 69).
  { destruct rest; [discriminate|]. simpl in Hr. tauto. }
  cbn [orb]. rewrite Ho. reflexivity.
Qed.

Lemma lexNumber_real_exp : forall TX c b ds fs ex rest f, Forall digit (c :: ds) -> Forall digit fs ->
  exponent ex -> not_next digit rest ->
  o_parse_float TX ((c :: ds) ++ 46 :: fs ++ ex) = Some f ->
  exists b', lexNumber TX true (mkRd (c :: b) (ds ++ 46 :: fs ++ ex ++ rest)) =
    (lexeme_of (GReal f), mkRd b' rest).
Proof.
  intros TX c b ds fs ex rest f Hd Hf Hx Hr Ho. destruct Hx as [e sg xs He Hsg Hxs Hx].
  unfold lexNumber. cbn [rd_unget rd_before rd_after].
  change (c :: ds ++ 46 :: fs ++ (e :: sg ++ xs) ++ rest)
    with ((c :: ds) ++ 46 :: fs ++ e :: (sg ++ xs) ++ rest).
  rewrite span_digits_app; auto. 2:{ simpl. unfold digit. lia. }
  rewrite rd_look_after. cbn [rd_after negb orb]. change (46 =? 46) with true.
  cbn [negb rd_get rd_after rd_before].
  rewrite span_digits_app; auto. 2:{ simpl. unfold digit. lia. }
  rewrite rd_look_after. cbn [rd_after].
  assert ((e =? 101) || (e =? 69) = true) as ->.
  { destruct He as [->| ->]; reflexivity. }
  cbn [rd_get rd_after rd_before]. rewrite <- app_assoc. rewrite rd_look_after. cbn [rd_after].
  assert (Hxd : exists x xs', xs = x :: xs' /\ digit x).
  { destruct xs as [|x xs']; [congruence|]. inversion Hx; subst. eauto. }
  destruct Hxd as (x & xs' & Exs & Hdx).
  set (sgr := if _ || _ then _ else _).
  assert (Hs : exists b3, sgr = (sg, mkRd b3 (xs ++ rest))).
  { unfold sgr. destruct Hsg as [->|[->| ->]].
    - rewrite Exs. cbn [app]. unfold digit in Hdx.
      destruct (Z.eqb_spec x 43); [lia|]. destruct (Z.eqb_spec x 45); [lia|]. cbn [orb]. eauto.
    - cbn. eauto.
    - cbn. eauto. }
  destruct Hs as [b3 ->]. rewrite rd_look_after. cbn [rd_after].
  assert (isDigit (match xs ++ rest with [] => eof | c :: _ => c end) = true) as ->.
  { rewrite Exs. cbn [app]. apply isDigit_iff. assumption. }
  cbn [negb]. rewrite span_digits_app by assumption. rewrite Ho. eauto.
Qed.
