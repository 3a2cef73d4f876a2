(** The parser's properties, put together. *)
From Verif Require Import Base Syntax SpecGrammar SpecSyntax SpecTokens SpecPrint Lexer Parser LexProofs LexProofs2 LexProofs3
  LexProofs4 ParserProofs ParserSound ParserComplete ParserPath GrammarProofs PrintProofs WritableProofs TokenProofs
  LiteralProofs.
Local Open Scope Z_scope.

Lemma bytes_nonneg : forall s, is_bytes s -> nonneg s.
Proof. intros s H. eapply Forall_impl; [|exact H]. cbv beta; intros; lia. Qed.

Section exact.
Variable TX : textoracles.
Notation tf := (o_parse_float TX).
Notation re := (o_re_ok TX).

Lemma path_total : forall s, is_bytes s ->
  (exists p, ParsePath TX s = OK p) \/ (exists e, ParsePath TX s = Fail e /\ clean e).
Proof.
  intros s H. pose proof (path_sound TX s (bytes_nonneg s H)) as K.
  destruct (ParsePath TX s); try contradiction; eauto.
Qed.
Lemma script_total : forall s, is_bytes s ->
  (exists p, ParseScriptExpression TX s = OK p) \/ (exists e, ParseScriptExpression TX s = Fail e /\ clean e).
Proof.
  intros s H. pose proof (script_sound_all TX s (bytes_nonneg s H)) as K.
  destruct (ParseScriptExpression TX s); try contradiction; eauto.
Qed.

Lemma path_exact : forall s, is_bytes s ->
  (forall p, ParsePath TX s = OK p <-> g_path tf re false s p) /\
  ((forall p, ~ g_path tf re false s p) <-> exists e, ParsePath TX s = Fail e).
Proof.
  intros s H. pose proof (bytes_nonneg s H) as Hn.
  assert (A : forall p, ParsePath TX s = OK p <-> g_path tf re false s p).
  { intro p. split; intro K.
    - pose proof (path_sound TX s Hn) as K'. rewrite K in K'. eapply path_keep; eauto.
    - apply path_complete; [assumption|]. eapply path_keep; eauto. }
  split; [assumption|]. split.
  - intro N. destruct (path_total s H) as [[p K]|(e & K & _)]; [|eauto]. exfalso. eapply N, A; eauto.
  - intros [e K] p G. apply A in G. congruence.
Qed.

Lemma script_exact : forall s, is_bytes s ->
  forall e, ParseScriptExpression TX s = OK e <-> g_script tf re true s e.
Proof.
  intros s H e. pose proof (bytes_nonneg s H) as Hn. split; intro K.
  - pose proof (script_sound_all TX s Hn) as K'. rewrite K in K'. assumption.
  - apply script_complete_all; assumption.
Qed.

Lemma script_documented : forall s, is_bytes s -> ~ ends_in_escaped_quote s ->
  (forall e, ParseScriptExpression TX s = OK e <-> g_script tf re false s e) /\
  ((forall e, ~ g_script tf re false s e) <-> exists e, ParseScriptExpression TX s = Fail e).
Proof.
  intros s H Hq.
  assert (A : forall e, ParseScriptExpression TX s = OK e <-> g_script tf re false s e).
  { intro e. rewrite (script_exact s H e). split; intro K; [apply script_strict|apply script_relax]; assumption. }
  split; [assumption|]. split.
  - intro N. destruct (script_total s H) as [[p K]|(e & K & _)]; [|eauto]. exfalso. eapply N, A; eauto.
  - intros [e K] p G. apply A in G. congruence.
Qed.

Lemma script_documented_sound : forall s e, is_bytes s -> g_script tf re false s e ->
  ParseScriptExpression TX s = OK e.
Proof. intros s e H K. apply script_exact; [assumption|]. apply script_relax. assumption. Qed.

(** the text '\' *)
Definition bad_script : bytes := [39; 92; 39].

Lemma quote_body : forall u r v, [92; 39] = u ++ 39 :: r -> ~ str_body 39 u v.
Proof.
  intros u r v E H. destruct u as [|x [|y u]]; [discriminate| |destruct u; discriminate].
  injection E as <- _. inversion H as [|c t v' N1 N2 N3 H' E1|u' rs t v' Hu Hn H' E1]; subst; [congruence|].
  inversion Hu as [t' r' Hi|t' r' u2 rs' Hi Hu2]; subst; cbn [app] in E1; injection E1 as E1.
  - apply app_eq_nil in E1 as [E1 _]. subst. inversion Hi.
  - apply app_eq_nil in E1 as [E1 _]. apply app_eq_nil in E1 as [E1 _]. subst. inversion Hi.
Qed.

Lemma bad_unclosed : unclosed bad_script.
Proof.
  exists [], 39, [92; 39]. split; [reflexivity|]. split; [constructor|]. split; [auto|]. apply quote_body.
Qed.

Lemma bad_accepted : ParseScriptExpression TX bad_script = OK (EStr [39]).
Proof. reflexivity. Qed.

Lemma bad_underivable : forall e, ~ g_script tf re false bad_script e.
Proof.
  intros e H. apply script_toks in H as (r & K1 & K2). apply (end_stuckE TX _ _ 0 false) in K2 as [K2 K3].
  destruct (unclosed_stuck TX (InExpr 0 true) _ bad_unclosed) as [S1 S2].
  destruct (stuck_unique TX false _ _ _ _ _ _ (TkNil tf false (InExpr 0 true) bad_script) S1 K1 K2) as [_ <-].
  contradiction.
Qed.

(** ** Printing *)
Variable ft : f64 -> bytes.

Lemma nn_app : forall a b, nonneg a -> nonneg b -> nonneg (a ++ b).
Proof. intros. apply Forall_app. auto. Qed.
Lemma nn_sp : forall a, nonneg a -> nonneg (sp a).
Proof. intros. constructor; [lia|assumption]. Qed.
Lemma nn_b_of : forall s, nonneg (b_of s).
Proof. induction s as [|c s IH]; constructor; [apply N2Z.is_nonneg|exact IH]. Qed.
Lemma nn_spp : forall s, nonneg (spp s).
Proof. intro. apply nn_sp, nn_b_of. Qed.
Lemma nn_digits : forall z, nonneg (digits z).
Proof. intro z. apply nonneg_digits, digits_digit. Qed.
Lemma nn_int : forall z, nonneg (print_int z).
Proof. intro z. unfold print_int. destruct (z <? 0); [constructor; [lia|]|]; apply nn_digits. Qed.
Lemma nn_str : forall s, is_bytes s -> nonneg (print_str 39 s).
Proof.
  intros s H. constructor; [lia|]. apply nn_app; [apply print_body_nonneg; [lia|assumption]|].
  constructor; [lia|constructor].
Qed.
Lemma nn_ident : forall d s, identifier d s -> nonneg s.
Proof.
  intros d s (c & t & -> & H1 & H2). constructor; [unfold letter in H1; lia|].
  eapply Forall_impl; [|exact H2]. intros x [H|[H|[_ H]]]; unfold letter, digit in H; lia.
Qed.
Lemma nn_re : forall s, is_bytes s -> nonneg (print_re s).
Proof.
  intros s H. induction H as [|c s Hc H IH]; [constructor|]. cbn [print_re flat_map]. apply nn_app; [|exact IH].
  destruct (c =? 47); repeat (constructor; [lia|]); constructor.
Qed.
Lemma nn_real : forall t, real_text t -> nonneg t.
Proof.
  intros t [ds fs _ D1 D2|ds fs ex _ D1 D2 [e sg es He Hs _ D3]]; apply nonneg_digits in D1, D2;
    (apply nn_app; [assumption|]); (constructor; [lia|]); [assumption|].
  apply nonneg_digits in D3. apply nn_app; [assumption|]. constructor; [lia|]. apply nn_app; [|assumption].
  destruct Hs as [->|[->| ->]]; repeat (constructor; [lia|]); constructor.
Qed.
Lemma nn_commas : forall l, Forall (fun s => nonneg s) l -> nonneg (commas l).
Proof.
  intros l H. induction H as [|x l Hx Hl IH]; [constructor|]. destruct l as [|y l]; [assumption|].
  change (commas (x :: y :: l)) with (x ++ spp "," ++ commas (y :: l)). auto using nn_app, nn_spp.
Qed.
Hint Resolve nn_app nn_sp nn_spp nn_digits nn_int nn_str nn_re nn_real nn_commas : nn.

Lemma nn_expr : forall n e, (depth e <= n)%nat -> writable ft tf re e -> nonneg (print_expr ft e).
Proof.
  induction n as [n IHn] using lt_wf_ind. intros e Hn H.
  assert (IH : forall x, (depth x < depth e)%nat -> writable ft tf re x -> nonneg (print_expr ft x)).
  { intros x Hx Hwx. apply (IHn (depth x)); auto. lia. }
  clear IHn Hn.
  assert (L : forall l, (forall x, In x l -> (depth x < depth e)%nat) -> Forall (writable ft tf re) l ->
    nonneg (commas (map (print_expr ft) l))).
  { intros l Hd Hl. apply nn_commas. rewrite Forall_map. rewrite Forall_forall in *. intros x Hx. apply IH; auto. }
  destruct H as [z Hz|f F1 F2|s Hs|b| |s Hs Hk| | |p P0 P1 P2|o a Ho Ha|o a b Ho Ha Hb|a s Ha Hs|l Hl|f l Hf Hk Hl].
  - apply nn_sp, nn_digits.
  - apply nn_sp, nn_real. assumption.
  - apply nn_sp, nn_str. assumption.
  - destruct b; apply nn_spp.
  - apply nn_spp.
  - eapply nn_sp, nn_ident; eauto.
  - apply nn_spp.
  - apply nn_spp.
  - cbn [print_expr]. repeat apply nn_app; auto with nn. constructor; [lia|constructor].
  - assert (nonneg (print_expr ft a)) by (apply IH; auto; simpl; lia).
    destruct Ho as [-> | ->]; cbn [print_expr map]; auto 8 with nn.
  - assert (nonneg (print_expr ft a)) by (apply IH; auto; simpl; lia).
    assert (nonneg (print_expr ft b)) by (apply IH; auto; simpl; lia).
    rewrite print_binary by assumption. destruct (op_beq o OpIndex); auto 10 with nn.
    assert (nonneg (op_text o)) by (destruct o; simpl; repeat (constructor; [lia|]); constructor).
    auto 10 with nn.
  - assert (nonneg (print_expr ft a)) by (apply IH; auto; simpl; lia).
    apply nn_ident in Hs. cbn [print_expr map]. auto 10 with nn.
  - change (print_expr ft (EInner OpArray l)) with (spp "(" ++ (spp "[" ++ commas (map (print_expr ft) l) ++ spp "]") ++ spp ")").
    assert (nonneg (commas (map (print_expr ft) l))).
    { apply L; auto. intros x Hx. simpl. apply depth_in in Hx. lia. }
    auto 10 with nn.
  - change (print_expr ft (EInner OpCall (EName f :: l))) with
      (spp "(" ++ (sp f ++ spp "(" ++ commas (map (print_expr ft) l) ++ spp ")") ++ spp ")").
    assert (nonneg (commas (map (print_expr ft) l))).
    { apply L; auto. intros x Hx. simpl. apply depth_in in Hx. lia. }
    apply nn_ident in Hf. auto 10 with nn.
Qed.

Lemma nn_pr : forall e, writable ft tf re e -> nonneg (print_expr ft e).
Proof. intros e H. eapply nn_expr; eauto. Qed.
Hint Resolve nn_pr : nn.
Lemma nn_paren : forall e, writable ft tf re e -> nonneg (print_paren ft e).
Proof. intros e H. unfold print_paren. auto with nn. Qed.
Hint Resolve nn_paren : nn.
Lemma nn_bound : forall b, writable_bound ft tf re b -> nonneg (print_bound ft b).
Proof. intros b []; unfold print_bound; auto with nn. Qed.
Hint Resolve nn_bound : nn.
Lemma nn_obound : forall b, writable_obound ft tf re b -> nonneg (print_obound ft b).
Proof. intros [b|] H; simpl; auto with nn. constructor. Qed.
Hint Resolve nn_obound : nn.
Lemma nn_slice : forall s, writable_obound ft tf re (sl_start s) -> writable_obound ft tf re (sl_end s) ->
  writable_obound ft tf re (sl_stride s) -> nonneg (print_slice ft s).
Proof.
  intros [a b c] Ha Hb Hc. unfold print_slice. cbn [sl_start sl_end sl_stride] in *.
  assert (nonneg (match c with None => [] | Some b => spp ":" ++ print_bound ft b end)).
  { destruct c; [|constructor]. simpl in Hc. auto with nn. }
  auto with nn.
Qed.
Lemma nn_elem : forall v, writable_elem ft tf re v -> nonneg (print_val ft v).
Proof.
  intros v [z H|s H|s H|s H1 H2 H3]; cbn [print_val]; auto with nn.
  - apply nn_ident in H. auto with nn.
  - apply nn_slice; assumption.
Qed.
Lemma nn_member : forall v, writable_member ft tf re v -> nonneg (print_val ft v).
Proof. intros v [z H|s H|e H]; cbn [print_val]; auto with nn. apply nn_ident in H. auto with nn. Qed.
Lemma nn_step : forall st, writable_step ft tf re st ->
  nonneg (print_step ft st) /\ nonneg (print_step ft (nested st)).
Proof.
  intros st H. induction H as [|v Hv|v Hv|e He|l Hl Hv|e He|st H [IH1 IH2] Hn].
  - unfold print_step, nested. cbn [st_op st_args]. split; auto 12 with nn.
  - apply nn_member in Hv. unfold print_step, nested. cbn [st_op st_args]. split; auto 12 with nn.
  - apply nn_elem in Hv. unfold print_step, nested, print_vals. cbn [st_op st_args map commas]. split; auto 12 with nn.
  - unfold print_step, nested, print_vals. cbn [st_op st_args map commas print_val]. split; auto 12 with nn.
  - assert (nonneg (print_vals ft l)).
    { apply nn_commas. rewrite Forall_map. eapply Forall_impl; [|exact Hv]. exact nn_elem. }
    unfold print_step, nested. cbn [st_op st_args]. split; auto 12 with nn.
  - unfold print_step, nested. cbn [st_op st_args]. split; auto 12 with nn.
  - split; [assumption|]. replace (nested (nested st)) with (nested st); [assumption|].
    destruct st as [o a]. destruct o; reflexivity.
Qed.
Lemma nn_path : forall p, writable_path ft tf re p -> nonneg (print_path ft p).
Proof.
  intros p H. unfold print_path. apply nn_app; [apply nn_b_of|].
  induction H as [|st p Hst Hp IH]; [constructor|]. cbn [flat_map]. apply nn_app; [apply nn_step; assumption|assumption].
Qed.

Lemma path_round_trip : forall p, writable_path ft tf re p -> ParsePath TX (print_path ft p) = OK p.
Proof. intros p H. apply path_complete; [apply nn_path; assumption|]. apply print_path_ok. assumption. Qed.
Lemma script_round_trip : forall e, writable ft tf re e -> ParseScriptExpression TX (print_expr ft e) = OK e.
Proof. intros e H. apply script_complete_all; [apply nn_pr; assumption|]. apply print_script. assumption. Qed.

Lemma path_reprint : prints_literals ft tf -> forall s p, is_bytes s -> ParsePath TX s = OK p ->
  writable_path ft tf re p /\ ParsePath TX (print_path ft p) = OK p.
Proof.
  intros Hft s p Hs H. assert (K : writable_path ft tf re p).
  { apply (path_exact s Hs) in H. eapply path_w; eauto. }
  split; [assumption|]. apply path_round_trip. assumption.
Qed.
Lemma script_reprint : prints_literals ft tf -> forall s e, is_bytes s -> ParseScriptExpression TX s = OK e ->
  writable ft tf re e /\ ParseScriptExpression TX (print_expr ft e) = OK e.
Proof.
  intros Hft s p Hs H. assert (K : writable ft tf re p).
  { apply (script_exact s Hs) in H. eapply script_w; eauto. }
  split; [assumption|]. apply script_round_trip. assumption.
Qed.

(** ** Well-formedness *)
Lemma path_wf : literal_floats tf -> forall s p, is_bytes s -> ParsePath TX s = OK p -> wf_path p.
Proof. intros Hl s p Hs H. apply (path_exact s Hs) in H. eapply wf_of_path; eauto. Qed.
Lemma script_wf : literal_floats tf -> forall s p, is_bytes s -> ParseScriptExpression TX s = OK p -> wf_expr p.
Proof. intros Hl s p Hs H. apply (script_exact s Hs) in H. eapply wf_of_script; eauto. Qed.
End exact.

(** ** Escapes *)
Lemma utf8_encode_ok : forall r, 0 <= r <= 1114111 -> surrogate r = false -> utf8 r (utf8_encode r).
Proof.
  intros r Hr Hs. unfold utf8_encode.
  destruct (Z.ltb_spec r 0); [lia|]. destruct (Z.ltb_spec 1114111 r); [lia|]. cbn [orb].
  assert (E : (55296 <=? r) && (r <=? 57343) = false).
  { unfold surrogate, high_surrogate, low_surrogate in Hs.
    destruct (Z.leb_spec 55296 r), (Z.leb_spec r 57343), (Z.leb_spec r 56319), (Z.leb_spec 56320 r);
      simpl in *; auto; try discriminate; lia. }
  rewrite E.
  pose proof (Z.mod_pos_bound r 64). pose proof (Z.mod_pos_bound (r / 64) 64).
  pose proof (Z.mod_pos_bound (r / 4096) 64).
  assert (E1 : r = (r / 64) * 64 + r mod 64) by (pose proof (Z.div_mod r 64); lia).
  assert (E2 : r / 64 = (r / 4096) * 64 + (r / 64) mod 64).
  { pose proof (Z.div_mod (r / 64) 64). rewrite Z.div_div in * by lia. change (64 * 64) with 4096 in *. lia. }
  assert (E3 : r / 4096 = (r / 262144) * 64 + (r / 4096) mod 64).
  { pose proof (Z.div_mod (r / 4096) 64). rewrite Z.div_div in * by lia. change (4096 * 64) with 262144 in *. lia. }
  destruct (Z.ltb_spec r 128); [constructor; lia|].
  destruct (Z.ltb_spec r 2048).
  { rewrite E1 at 1. constructor; lia. }
  destruct (Z.ltb_spec r 65536).
  { rewrite E1 at 1. rewrite E2 at 1. constructor; lia. }
  rewrite E1 at 1. rewrite E2 at 1. rewrite E3 at 1. constructor; lia.
Qed.

Lemma hex_char_range : forall c, hexdigit c -> 0 <= hex_digit_val c < 16.
Proof.
  intros c H. unfold hexdigit in H. unfold hex_digit_val. destruct (Z.leb_spec c 57); [lia|].
  destruct (Z.leb_spec c 70); lia.
Qed.

Lemma esc_item_range : forall q x r, q = 34 \/ q = 39 -> esc_item q x r -> 0 <= r <= 1114111 /\ nonneg x.
Proof.
  intros q x r Hq H. destruct H as [ | | | | | | | |a b c d Ha Hb Hc Hd].
  9: { split.
    - apply hex_char_range in Ha, Hb, Hc, Hd. unfold hex_val. cbn [fold_left]. lia.
    - unfold hexdigit in *. repeat (constructor; [lia|]); constructor. }
  all: split; [lia|repeat (constructor; [lia|]); constructor].
Qed.

Lemma escape_text : forall TX q x r t1 v1 t2 v2, q = 34 \/ q = 39 -> esc_item q x r -> surrogate r = false ->
  is_bytes t1 -> is_bytes t2 -> str_body q t1 v1 -> str_body q t2 v2 ->
  exists bs, utf8 r bs /\
    ParsePath TX (36 :: 91 :: (q :: (t1 ++ 92 :: x ++ t2) ++ [q]) ++ [93]) =
      OK [mkStep OpSelect [PStr (v1 ++ bs ++ v2)]] /\
    ParseScriptExpression TX (q :: (t1 ++ 92 :: x ++ t2) ++ [q]) = OK (EStr (v1 ++ bs ++ v2)).
Proof.
  intros TX q x r t1 v1 t2 v2 Hq Hx Hr B1 B2 H1 H2. destruct (esc_item_range q x r Hq Hx) as [Rr Rx].
  exists (utf8_encode r). split; [apply utf8_encode_ok; assumption|].
  apply str_text; auto.
  - apply nn_app; [apply bytes_nonneg; assumption|]. constructor; [lia|]. apply nn_app; [assumption|apply bytes_nonneg; assumption].
  - apply str_escape_mid; assumption.
Qed.

Lemma json_text : forall TX q t v, q = 34 \/ q = 39 -> is_bytes t ->
  json_body (fun rs => lone_before_pair None rs = false) q t v ->
  ParsePath TX (36 :: 91 :: (q :: t ++ [q]) ++ [93]) = OK [mkStep OpSelect [PStr v]] /\
  ParseScriptExpression TX (q :: t ++ [q]) = OK (EStr v).
Proof. intros TX q t v Hq Hb H. apply str_text; auto using bytes_nonneg, json_str. Qed.

(** the escapes d800 d801 dc00: the pair is lost *)
Lemma u_item : forall q a b c d, Forall hexdigit [a; b; c; d] ->
  esc_item q [117; a; b; c; d] (hex_val [a; b; c; d]).
Proof.
  intros q a b c d H. rewrite Forall_forall in H. constructor; apply H; simpl; tauto.
Qed.
Ltac hexs := repeat (constructor; [unfold hexdigit; lia|]); constructor.

Definition lost_text : bytes :=
  [92; 117; 100; 56; 48; 48; 92; 117; 100; 56; 48; 49; 92; 117; 100; 99; 48; 48].

Lemma lost_run : esc_run 39 lost_text [55296; 55297; 56320].
Proof.
  apply (RunMore 39 [117; 100; 56; 48; 48] 55296 [92; 117; 100; 56; 48; 49; 92; 117; 100; 99; 48; 48]).
  { apply (u_item 39 100 56 48 48). hexs. }
  apply (RunMore 39 [117; 100; 56; 48; 49] 55297 [92; 117; 100; 99; 48; 48]).
  { apply (u_item 39 100 56 48 49). hexs. }
  apply (RunOne 39 [117; 100; 99; 48; 48] 56320). apply (u_item 39 100 99 48 48). hexs.
Qed.

Lemma surrogates_lost : exists t v, json_body (fun _ => True) 39 t v /\
  forall TX, ParseScriptExpression TX (39 :: t ++ [39]) <> OK (EStr v).
Proof.
  exists lost_text, (json_run None [55296; 55297; 56320]). split.
  - pose proof (JEsc (fun _ => True) 39 _ _ [] [] lost_run I I (JEnd _ _)) as K. rewrite !app_nil_r in K. exact K.
  - intros TX K. assert (E : ParseScriptExpression TX (39 :: lost_text ++ [39]) =
      OK (EStr [239; 191; 189; 239; 191; 189; 239; 191; 189])) by (vm_compute; reflexivity).
    rewrite E in K. vm_compute in K. discriminate.
Qed.

Lemma smile : json_body (fun rs => lone_before_pair None rs = false) 39
  (b_of "a\ud83d\ude00\udc00z") (97 :: [240; 159; 152; 128] ++ [239; 191; 189] ++ [122]).
Proof.
  change (b_of "a\ud83d\ude00\udc00z") with (97 :: [92; 117; 100; 56; 51; 100; 92; 117; 100; 101; 48; 48; 92; 117; 100; 99; 48; 48] ++ [122]).
  apply JChar; try lia.
  change ([240; 159; 152; 128] ++ [239; 191; 189] ++ [122]) with (json_run None [55357; 56832; 56320] ++ [122]).
  apply JEsc.
  - apply (RunMore 39 [117; 100; 56; 51; 100] 55357 [92; 117; 100; 101; 48; 48; 92; 117; 100; 99; 48; 48]).
    { apply (u_item 39 100 56 51 100). hexs. }
    apply (RunMore 39 [117; 100; 101; 48; 48] 56832 [92; 117; 100; 99; 48; 48]).
    { apply (u_item 39 100 101 48 48). hexs. }
    apply (RunOne 39 [117; 100; 99; 48; 48] 56320). apply (u_item 39 100 99 48 48). hexs.
  - reflexivity.
  - simpl. lia.
  - apply JChar; try lia. constructor.
Qed.

Lemma path_unclosed_bytes : forall TX s m r, is_bytes s -> toks (o_parse_float TX) false InPath s m r -> unclosed r ->
  exists e, ParsePath TX s = Fail e.
Proof. intros. eapply path_unclosed; eauto using bytes_nonneg. Qed.
Lemma script_unclosed_bytes : forall TX s m r, is_bytes s -> ~ ends_in_escaped_quote s ->
  toks (o_parse_float TX) false (InExpr 0 true) s m r -> unclosed r ->
  exists e, ParseScriptExpression TX s = Fail e.
Proof. intros. eapply script_unclosed; eauto using bytes_nonneg. Qed.
Lemma path_big_bytes : forall TX s m r, is_bytes s -> toks (o_parse_float TX) true InPath s m r ->
  big_int m r -> exists e, ParsePath TX s = Fail e.
Proof. intros. eapply path_big; eauto using bytes_nonneg. Qed.
Lemma script_big_bytes : forall TX s m r, is_bytes s -> toks (o_parse_float TX) true (InExpr 0 true) s m r ->
  big_int m r -> exists e, ParseScriptExpression TX s = Fail e.
Proof. intros. eapply script_big; eauto using bytes_nonneg. Qed.

Lemma script_unclosed_accepted : exists s, is_bytes s /\ unclosed s /\
  forall TX, exists e, ParseScriptExpression TX s = OK e.
Proof.
  exists bad_script. split; [|split].
  - unfold bad_script, is_bytes. repeat (constructor; [lia|]). constructor.
  - apply bad_unclosed.
  - intro TX. exists (EStr [39]). apply bad_accepted.
Qed.

(** ** Reading concrete tokens *)
Definition real_token (ps : list bytes) (t : gtok) : Prop :=
  match t with GPunct p => In p ps | GName _ | GInt _ => True | _ => False end.

Lemma etok_run : forall TX lax s t r r', nonneg s -> real_token expr_puncts t ->
  lexExpr_rd TX (mkRd [] s) = (lexeme_of t, r) -> rd_after r = r' -> etok (o_parse_float TX) lax s t r'.
Proof.
  intros TX lax s t r r' Hn Ht H <-. pose proof (lexExpr_rd_ok TX (mkRd [] s) _ _ Hn H) as [K|[K|(t' & E & K)]].
  - destruct K as (e & K & _). destruct t as [p| | | | | ]; discriminate K.
  - exfalso. destruct K as [K _]. destruct t as [p| | | | | ]; try (destruct K as [K|[K|K]]; discriminate K).
    simpl in Ht. repeat (destruct Ht as [<-|Ht]; [destruct K as [K|[K|K]]; discriminate K|]). all: destruct Ht.
  - assert (Et : t = t').
    { eapply lexeme_inj; [left; reflexivity| | |exact E].
      - intros p ->. exact Ht.
      - intros p ->. eapply etok_punct_in; eauto. }
    subst t'. eapply etok_keep; eauto. right. intros v ->. exact Ht.
Qed.
Lemma ptok_run : forall TX lax s t r r', nonneg s -> real_token path_puncts t ->
  lexPath_rd TX (mkRd [] s) = (lexeme_of t, r) -> rd_after r = r' -> ptok lax s t r'.
Proof.
  intros TX lax s t r r' Hn Ht H <-. pose proof (lexPath_rd_ok TX (mkRd [] s) _ _ Hn H) as [K|(t' & E & K)].
  - destruct K as (e & K & _). destruct t as [p| | | | | ]; discriminate K.
  - assert (Et : t = t').
    { eapply lexeme_inj; [right; reflexivity| | |exact E].
      - intros p ->. exact Ht.
      - intros p ->. eapply ptok_punct_in'; eauto. }
    subst t'. eapply ptok_keep; eauto. right. intros v ->. exact Ht.
Qed.

Ltac nnc := repeat (constructor; [vm_compute; discriminate|]); constructor.
Ltac ptk t := eapply TkCons; [eapply (TSPath _ _ _ t); [eapply (ptok_run (mkText (fun _ => None) (fun _ => true))); [nnc|simpl; tauto|vm_compute; reflexivity|reflexivity]|reflexivity]|].
Ltac etk t := eapply TkCons; [eapply (TSExpr _ _ _ _ _ t); [eapply etok_run; [nnc|simpl; tauto|vm_compute; reflexivity|reflexivity]|reflexivity]|].

Lemma unclosed_example : forall tf, toks tf false InPath (b_of "$[?(@.a=~/'/ &&'x\") (InExpr 0 true) (b_of "'x\") /\
  unclosed (b_of "'x\").
Proof.
  intro tf. split.
  - set (TX := mkText tf (fun _ => true)). change tf with (o_parse_float TX).
    ptk (GPunct (b_of "$")). ptk (GPunct (b_of "[")). ptk (GPunct (b_of "?(")).
    etk (GPunct (b_of "@")). etk (GPunct (b_of ".")). etk (GName (b_of "a")). etk (GPunct (b_of "=~")).
    eapply TkCons.
    { apply (TSRegexp _ _ _ _ [39] [39] (b_of " &&'x\")).
      - eapply etok_run; [nnc|simpl; tauto|vm_compute; reflexivity|reflexivity].
      - apply ReChar; [lia|lia|constructor]. }
    etk (GPunct (b_of "&&")). constructor.
  - exists [], 39, [120; 92]. split; [reflexivity|]. split; [constructor|]. split; [auto|].
    intros u r v E _. destruct u as [|? [|? u]]; try discriminate. destruct u; discriminate.
Qed.

Lemma range_example : forall tf, toks tf true InPath (b_of "$.a[-9223372036854775807]") InPath
    (b_of "-9223372036854775807]") /\
  big_int InPath (b_of "-9223372036854775807]") /\ big_int (InExpr 0 true) (b_of "9223372036854775808 + 1").
Proof.
  intro tf. split; [|split].
  - set (TX := mkText tf (fun _ => true)). change tf with (o_parse_float TX).
    ptk (GPunct (b_of "$")). ptk (GPunct (b_of ".")). ptk (GName (b_of "a")). ptk (GPunct (b_of "[")). constructor.
  - exists [], (b_of "9223372036854775807"), (b_of "]"). split; [constructor|]. split; [discriminate|].
    split; [repeat (constructor; [vm_compute; split; discriminate|]); constructor|]. right.
    exists []. split; [constructor|]. split; [reflexivity|]. split; [simpl; unfold digit; lia|]. vm_compute. discriminate.
  - exists [], (b_of "9223372036854775808"), (b_of " + 1"). split; [constructor|]. split; [discriminate|].
    split; [repeat (constructor; [vm_compute; split; discriminate|]); constructor|].
    split; [reflexivity|]. split; [simpl; unfold digit; lia|]. vm_compute. discriminate.
Qed.

Lemma script_more_accepted : exists s, is_bytes s /\ forall TX,
  (exists e, ParseScriptExpression TX s = OK e) /\
  forall e, ~ g_script (o_parse_float TX) (o_re_ok TX) false s e.
Proof.
  exists bad_script. split.
  - unfold bad_script, is_bytes. repeat (constructor; [lia|]). constructor.
  - intro TX. split; [exists (EStr [39]); apply bad_accepted|apply bad_underivable].
Qed.
