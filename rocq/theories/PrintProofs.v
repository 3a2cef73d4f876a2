(** Printed trees are read back. *)
From Coq Require Import DecimalN DecimalPos.
From Verif Require Import Syntax SpecGrammar SpecSyntax SpecPrint LexProofs LexProofs2 LexProofs3 LexProofs4.
Local Open Scope Z_scope.

(** ** Numbers *)
Lemma dec_val_snoc : forall ds a, fold_left (fun a c => 10 * a + (c - 48)) ds a =
  a * 10 ^ Z.of_nat (length ds) + dec_val ds.
Proof.
  unfold dec_val. induction ds as [|c ds IH]; intro a; cbn [fold_left length].
  - rewrite Z.mul_1_r. lia.
  - rewrite IH, (IH (10 * 0 + (c - 48))), Nat2Z.inj_succ, Z.pow_succ_r by lia. ring.
Qed.

Lemma of_uint_acc : forall d p, Z.pos (Pos.of_uint_acc d p) =
  fold_left (fun a c => 10 * a + (c - 48)) (uint_bytes d) (Z.pos p).
Proof.
  induction d as [|d IH|d IH|d IH|d IH|d IH|d IH|d IH|d IH|d IH|d IH]; intro p;
    cbn [Pos.of_uint_acc uint_bytes fold_left]; [reflexivity|..]; rewrite IH; f_equal; lia.
Qed.

Lemma of_uint_val : forall d, Z.of_N (Pos.of_uint d) = dec_val (uint_bytes d).
Proof.
  induction d as [|d IH|d IH|d IH|d IH|d IH|d IH|d IH|d IH|d IH|d IH]; unfold dec_val;
    cbn [Pos.of_uint uint_bytes fold_left]; [reflexivity|exact IH|..];
    rewrite (of_uint_acc d _) || (cbn [Z.of_N]; rewrite (of_uint_acc d _)); reflexivity.
Qed.

Lemma digits_val : forall z, 0 <= z -> dec_val (digits z) = z.
Proof.
  intros z Hz. unfold digits. rewrite <- of_uint_val.
  change (Pos.of_uint ?x) with (N.of_uint x). rewrite DecimalN.Unsigned.of_to. apply Z2N.id. assumption.
Qed.

Lemma digits_digit : forall z, Forall digit (digits z).
Proof.
  intro z. unfold digits. generalize (N.to_uint (Z.to_N z)).
  induction u; cbn [uint_bytes]; constructor; auto; unfold digit; lia.
Qed.

Lemma digits_ne : forall z, digits z <> [].
Proof.
  intros z H. unfold digits in H.
  assert (K : N.to_uint (Z.to_N z) <> Decimal.Nil).
  { destruct (Z.to_N z); [discriminate|]. apply DecimalPos.Unsigned.to_uint_nonnil. }
  destruct (N.to_uint (Z.to_N z)); simpl in H; congruence.
Qed.

(** ** Strings *)
Lemma str_body_escape : forall q t v x r, str_body q t v -> esc_item q x r -> surrogate r = false ->
  str_body q (92 :: x ++ t) (utf8_encode r ++ v).
Proof.
  intros q t v x r H Hx Hr.
  assert (One : forall t v, not_next (eq 92) t -> str_body q t v -> str_body q (92 :: x ++ t) (utf8_encode r ++ v)).
  { intros t' v' Hn H'. pose proof (StrEsc q (92 :: x) [r] t' v' (RunOne q x r Hx) Hn H') as K.
    cbn [run_value] in K. rewrite Hr in K. rewrite app_nil_r in K. exact K. }
  destruct H as [|c t v N1 N2 N3 H|u rs t v Hu Hn H].
  - apply One; [exact I|constructor].
  - apply One; [simpl; congruence|constructor; assumption].
  - pose proof (StrEsc q (92 :: x ++ u) (r :: rs) t v (RunMore q x r u rs Hx Hu) Hn H) as K.
    cbn [run_value] in K. rewrite Hr in K. rewrite <- app_assoc in K. cbn [app] in K.
    rewrite <- app_assoc in K. exact K.
Qed.

Lemma hex_char_ok : forall z, 0 <= z < 16 -> hexdigit (hex_char z) /\ hex_digit_val (hex_char z) = z.
Proof.
  intros z Hz. unfold hex_char, hexdigit, hex_digit_val. destruct (Z.ltb_spec z 10).
  - split; [lia|]. destruct (Z.leb_spec (48 + z) 57); lia.
  - split; [lia|]. destruct (Z.leb_spec (87 + z) 57); [lia|]. destruct (Z.leb_spec (87 + z) 70); lia.
Qed.

Lemma hexdigit_0 : hexdigit 48. Proof. left. lia. Qed.

Lemma utf8_ascii : forall c, 0 <= c < 128 -> utf8_encode c = [c].
Proof.
  intros c Hc. unfold utf8_encode. destruct (Z.ltb_spec c 0); [lia|]. destruct (Z.ltb_spec 1114111 c); [lia|].
  destruct (Z.leb_spec 55296 c); [lia|]. cbn [orb andb]. destruct (Z.ltb_spec c 128); [reflexivity|lia].
Qed.

Lemma not_surrogate : forall c, c < 55296 -> surrogate c = false.
Proof.
  intros c Hc. unfold surrogate, high_surrogate, low_surrogate.
  destruct (Z.leb_spec 55296 c); [lia|]. destruct (Z.leb_spec 56320 c); [lia|]. reflexivity.
Qed.

Lemma print_body_ok : forall q s, q = 34 \/ q = 39 -> is_bytes s -> str_body q (print_body q s) s.
Proof.
  intros q s Hq. induction s as [|c s IH]; intro Hs.
  - constructor.
  - inversion Hs as [|? ? Hc Hs']; subst. specialize (IH Hs'). cbn [print_body flat_map].
    fold (print_body q s). unfold print_byte.
    destruct (Z.eqb_spec c q) as [->|N1]; cbn [orb].
    { pose proof (str_body_escape q _ _ [q] q IH (EscQuote q)) as K.
      rewrite utf8_ascii in K by (destruct Hq; lia). apply K. apply not_surrogate. destruct Hq; lia. }
    destruct (Z.eqb_spec c 92) as [->|N2].
    { pose proof (str_body_escape q _ _ [92] 92 IH (EscBackslash q)) as K.
      rewrite utf8_ascii in K by lia. apply K. apply not_surrogate. lia. }
    destruct (Z.ltb_spec c 32) as [L|L].
    { destruct (hex_char_ok (c / 16)) as [A1 A2]; [split; [apply Z.div_pos; lia|apply Z.div_lt_upper_bound; lia]|].
      destruct (hex_char_ok (c mod 16)) as [B1 B2]; [apply Z.mod_pos_bound; lia|].
      assert (E : hex_val [48; 48; hex_char (c / 16); hex_char (c mod 16)] = c).
      { unfold hex_val. cbn [fold_left]. rewrite A2, B2. change (hex_digit_val 48) with 0.
        pose proof (Z.div_mod c 16). lia. }
      pose proof (EscU q 48 48 _ _ hexdigit_0 hexdigit_0 A1 B1) as Hu. rewrite E in Hu.
      pose proof (str_body_escape q _ _ _ c IH Hu) as K. rewrite utf8_ascii in K by lia.
      apply K. apply not_surrogate. lia. }
    constructor; auto; lia.
Qed.

(** ** Tokens followed by a space *)
Definition spaced (r : bytes) : Prop := match r with [] => True | c :: _ => c = 32 end.

Lemma spaced_not : forall (P : Z -> Prop) r, spaced r -> ~ P 32 -> not_next P r.
Proof. intros P [|c r] H N; simpl in *; auto. subst. assumption. Qed.

Definition no_space (ps : list bytes) : Prop := Forall (fun p => ~ In 32 p) ps.
Lemma no_space_expr : no_space expr_puncts.
Proof. repeat constructor; simpl; intuition discriminate. Qed.
Lemma no_space_path : no_space path_puncts.
Proof. repeat constructor; simpl; intuition discriminate. Qed.

Lemma longer_has_space : forall p r p' t, spaced r -> (length p < length p')%nat ->
  p ++ r = p' ++ t -> In 32 p'.
Proof.
  induction p as [|x p IH]; intros r p' t Hr L E; (destruct p' as [|y p']; [simpl in L; lia|]).
  - simpl in E. destruct r as [|c r]; [discriminate|]. injection E as -> _. simpl in Hr. subst. left. reflexivity.
  - injection E as -> E. right. apply (IH r p' t); auto. simpl in L. lia.
Qed.
Lemma longest_spaced : forall ps p r, no_space ps -> In p ps -> spaced r -> longest ps p (p ++ r).
Proof.
  intros ps p r Hns Hin Hr. split; [assumption|]. intros p' Hin' [t E].
  destruct (Nat.le_gt_cases (length p') (length p)) as [|L]; [assumption|exfalso].
  unfold no_space in Hns. rewrite Forall_forall in Hns. apply (Hns _ Hin').
  eapply longer_has_space; eauto.
Qed.

Section tokens.
Variable tf : bytes -> option f64.
Variable lax : bool.
Notation etk := (etok tf lax).
Notation ptk := (ptok lax).

Lemma space32 : Forall space [32]. Proof. constructor; [left; reflexivity|constructor]. Qed.

Lemma e_tok1 : forall s t r, tok1 expr_puncts false s t r -> etk (32 :: s) t r.
Proof. intros. apply (ETok1 _ _ [32]); [exact space32|assumption]. Qed.
Lemma p_tok1 : forall s t r, tok1 path_puncts true s t r -> ptk (32 :: s) t r.
Proof. intros. apply (PTok1 _ [32]); [exact space32|assumption]. Qed.

Lemma e_punct : forall p r, In p expr_puncts -> spaced r -> etk (sp p ++ r) (GPunct p) r.
Proof. intros p r H Hr. apply e_tok1. constructor. apply longest_spaced; auto. apply no_space_expr. Qed.
Lemma p_punct : forall p r, In p path_puncts -> spaced r -> ptk (sp p ++ r) (GPunct p) r.
Proof. intros p r H Hr. apply p_tok1. constructor. apply longest_spaced; auto. apply no_space_path. Qed.

Lemma not_name32 : forall d, ~ name_char d 32.
Proof. intros d [H|[H|[_ H]]]; unfold letter, digit in H; lia. Qed.

Lemma e_name : forall n r, identifier false n -> spaced r -> etk (sp n ++ r) (GName n) r.
Proof.
  intros n r (c & t & -> & H1 & H2) Hr. apply e_tok1. cbn [app]. constructor; auto.
  apply spaced_not; auto. apply not_name32.
Qed.
Lemma p_name : forall n r, identifier true n -> spaced r -> ptk (sp n ++ r) (GName n) r.
Proof.
  intros n r (c & t & -> & H1 & H2) Hr. apply p_tok1. cbn [app]. constructor; auto.
  apply spaced_not; auto. apply not_name32.
Qed.

Lemma e_str : forall v r, is_bytes v -> etk (sp (print_str 39 v) ++ r) (GStr v) r.
Proof.
  intros v r H. unfold sp, print_str. cbn [app]. rewrite <- app_assoc. cbn [app].
  apply e_tok1. apply TokStr; auto. apply print_body_ok; auto.
Qed.
Lemma p_str : forall v r, is_bytes v -> ptk (sp (print_str 39 v) ++ r) (GStr v) r.
Proof.
  intros v r H. unfold sp, print_str. cbn [app]. rewrite <- app_assoc. cbn [app].
  apply p_tok1. apply TokStr; auto. apply print_body_ok; auto.
Qed.

Lemma not_digit32 : ~ digit 32. Proof. unfold digit. lia. Qed.

Lemma e_int : forall z r, 0 <= z < 2 ^ 63 -> spaced r -> etk (sp (digits z) ++ r) (GInt z) r.
Proof.
  intros z r H Hr. assert (E : dec_val (digits z) = z) by (apply digits_val; lia).
  rewrite <- E at 2. apply (ETokInt _ _ [32]); auto using space32, digits_ne, digits_digit; [|lia].
  apply spaced_not; auto. unfold digit. lia.
Qed.
Lemma p_int : forall z r, path_int z -> spaced r -> ptk (sp (print_int z) ++ r) (GInt z) r.
Proof.
  intros z r H Hr. unfold path_int in H. unfold print_int. destruct (Z.ltb_spec z 0).
  - assert (E : dec_val (digits (- z)) = - z) by (apply digits_val; lia).
    replace (GInt z) with (GInt (- dec_val (digits (- z)))) by (f_equal; lia).
    unfold sp. cbn [app].
    apply (PTokNeg _ [32] []); auto using space32, digits_ne, digits_digit.
    + apply spaced_not; auto using not_digit32.
    + lia.
  - assert (E : dec_val (digits z) = z) by (apply digits_val; lia).
    rewrite <- E at 2. apply (PTokInt _ [32]); auto using space32, digits_ne, digits_digit; [|lia].
    apply spaced_not; auto using not_digit32.
Qed.

Lemma e_real : forall t f r, real_text t -> tf t = Some f -> spaced r -> etk (sp t ++ r) (GReal f) r.
Proof.
  intros t f r H Hf Hr. destruct H.
  - apply (ETokReal _ _ [32]); auto using space32. apply spaced_not; auto. unfold digit. lia.
  - apply (ETokRealExp _ _ [32]); auto using space32. apply spaced_not; auto using not_digit32.
Qed.
End tokens.

(** ** Trees *)
Section trees.
Variable ft : f64 -> bytes.
Variable tf : bytes -> option f64.
Variable re : bytes -> bool.
Variable lax : bool.
Notation gx := (g_expr tf re lax).
Notation gu := (g_unary tf re lax).
Notation gp := (g_postfix tf re lax).
Notation ga := (g_atom tf re lax).
Notation gl := (g_list tf re lax).
Notation gi := (g_items tf re lax).
Notation wr := (writable ft tf re).
Notation pr := (print_expr ft).

Lemma atom_expr : forall s e r k, ga s e r -> (k <= 6)%nat -> gx k s e r.
Proof.
  intros s e r k H Hk. assert (K : forall j, (j <= 6)%nat -> gx (6 - j) s e r).
  { induction j as [|j IH]; intro Hj.
    - apply GUnary, GPost, GAtom. assumption.
    - replace (6 - j)%nat with (S (6 - S j)) in IH by lia. apply GUp; [lia|]. apply IH. lia. }
  replace k with (6 - (6 - k))%nat by lia. apply K. lia.
Qed.

Definition starts32 (s : bytes) : Prop := exists t, s = 32 :: t.
Lemma starts_spaced : forall s r, starts32 s -> spaced (s ++ r).
Proof. intros s r [t ->]. reflexivity. Qed.
Lemma starts_spaced0 : forall s, starts32 s -> spaced s.
Proof. intros s [t ->]. reflexivity. Qed.
Lemma starts_app : forall s r, starts32 s -> starts32 (s ++ r).
Proof. intros s r [t ->]. eexists. reflexivity. Qed.
Lemma starts_sp : forall t, starts32 (sp t). Proof. eexists. reflexivity. Qed.
Lemma starts_spp : forall t, starts32 (spp t). Proof. eexists. reflexivity. Qed.
Lemma starts_pr : forall e, starts32 (pr e).
Proof. intros [ | | |[]| | | | | | ]; eexists; reflexivity. Qed.
Hint Resolve starts_spaced starts_spaced0 starts_app starts_sp starts_spp starts_pr : st.
Ltac st := eauto 6 with st.

Lemma ex_punct : forall p r, In (b_of p) expr_puncts -> spaced r -> punct tf lax (spp p ++ r) p r.
Proof. intros p r H Hr. apply (e_punct tf lax (b_of p)); assumption. Qed.
Lemma px_punct : forall p r, In (b_of p) path_puncts -> spaced r -> ppunct lax (spp p ++ r) p r.
Proof. intros p r H Hr. apply (p_punct lax (b_of p)); assumption. Qed.
Ltac inp := simpl; repeat (first [left; reflexivity|right]).

Lemma wrap : forall body e, starts32 body -> (forall r, spaced r -> gx 0 (body ++ r) e r) ->
  forall r, spaced r -> ga ((spp "(" ++ body ++ spp ")") ++ r) e r.
Proof.
  intros body e Hb H r Hr. rewrite <- !app_assoc. eapply GParen.
  - apply ex_punct; [inp|st].
  - apply H. st.
  - apply ex_punct; [inp|st].
Qed.

Lemma commas_items : forall l, l <> [] -> (forall e, In e l -> forall r, spaced r -> ga (pr e ++ r) e r) ->
  starts32 (commas (map pr l)) /\ forall r, spaced r -> gi (commas (map pr l) ++ r) l r.
Proof.
  induction l as [|e l IH]; intros Hl H; [congruence|].
  destruct l as [|e2 l].
  - cbn [map commas]. split; [st|]. intros r Hr. apply GItemsOne. apply atom_expr; [|lia].
    apply H; [left; reflexivity|assumption].
  - destruct IH as [I1 I2]; [discriminate|intros; apply H; [right; assumption|assumption]|].
    change (commas (map pr (e :: e2 :: l))) with (pr e ++ spp "," ++ commas (map pr (e2 :: l))).
    split; [st|]. intros r Hr. rewrite <- !app_assoc. eapply GItemsMore.
    + apply atom_expr; [|lia]. apply H; [left; reflexivity|st].
    + apply ex_punct; [inp|st].
    + apply I2. assumption.
Qed.

Lemma list_ok : forall l c, In (b_of c) expr_puncts ->
  (forall e, In e l -> forall r, spaced r -> ga (pr e ++ r) e r) ->
  forall r, spaced r -> gl c (commas (map pr l) ++ spp c ++ r) l r.
Proof.
  intros l c Hc H r Hr. destruct l as [|e l].
  - apply GListNil. apply ex_punct; assumption.
  - destruct (commas_items (e :: l)) as [I1 I2]; [discriminate|assumption|].
    eapply GListCons; [apply I2; st|]. apply ex_punct; assumption.
Qed.

Lemma commas_spaced : forall l r, starts32 r -> spaced (commas (map pr l) ++ r).
Proof.
  intros [|e l] r Hr; [st|]. destruct l as [|e2 l]; cbn [map commas]; [st|].
  rewrite <- app_assoc. st.
Qed.

Lemma re_ok : forall p, (forall u, p <> u ++ [92]) -> re_body (print_re p) p.
Proof.
  induction p as [|c p IH]; intro H; [constructor|]. cbn [print_re flat_map]. fold (print_re p).
  assert (IH' : re_body (print_re p) p).
  { apply IH. intros u ->. apply (H (c :: u)). reflexivity. }
  destruct (Z.eqb_spec c 47) as [->|N].
  - apply ReSlash. assumption.
  - apply ReChar; auto. intros ->.
    destruct p as [|d p]; [exfalso; apply (H []); reflexivity|].
    cbn [print_re flat_map]. destruct (Z.eqb_spec d 47) as [->|N']; cbn [app not_next]; split; try discriminate; congruence.
Qed.

Lemma print_binary : forall o a b, is_binary o = true ->
  pr (EInner o [a; b]) = spp "(" ++ (if op_beq o OpIndex then pr a ++ spp "[" ++ pr b ++ spp "]"
                                     else pr a ++ sp (op_text o) ++ pr b) ++ spp ")".
Proof. intros o a b H. destruct o; try discriminate; reflexivity. Qed.

Ltac lett := left; vm_compute; split; discriminate.
Ltac letts := repeat (apply Forall_cons; [left; lett|]); apply Forall_nil.

Lemma op_level : forall o, is_binary o = true -> o <> OpIndex -> exists k, (k <= 5)%nat /\
  forall r, spaced r -> binary_op tf lax (sp (op_text o) ++ r) o k r.
Proof.
  assert (P : forall p o k r, In (p, o, k) op_table -> In p expr_puncts -> spaced r ->
    binary_op tf lax (sp p ++ r) o k r).
  { intros p o k r H1 H2 Hr. eapply BinPunct; [exact H1|]. apply e_punct; assumption. }
  assert (N : forall c t r, letter c -> Forall (name_char false) t -> spaced r ->
    etok tf lax (sp (c :: t) ++ r) (GName (c :: t)) r).
  { intros c t r H1 H2 Hr. apply e_name; [|assumption]. exists c, t. auto. }
  intros o H Ho. destruct o; try discriminate; try congruence;
    try (eexists; split; [|intros r Hr; apply P; [simpl; eauto 20|simpl; eauto 30|exact Hr]]; lia).
  - exists 3%nat. split; [lia|]. intros r Hr. apply BinIn. apply N; auto.
    + lett.
    + letts.
  - exists 3%nat. split; [lia|]. intros r Hr. apply BinNin. apply N; auto.
    + lett.
    + letts.
Qed.

Lemma name_atom : forall s r, identifier false s -> ~ keyword s -> spaced r -> ga (sp s ++ r) (EName s) r.
Proof.
  intros s r H Hk Hr. pose proof (GNameAtom tf re lax _ s r (e_name tf lax s r H Hr)) as K.
  unfold name_expr in K. 
  assert (B : forall t, beqb s t = true -> s = t).
  { clear. induction s as [|x s IH]; intros [|y t] E; simpl in E; try discriminate; auto.
    apply andb_true_iff in E as [E1 E2]. apply Z.eqb_eq in E1. f_equal; auto. }
  unfold keyword in Hk.
  destruct (beqb s (b_of "true")) eqn:E1; [apply B in E1; tauto|].
  destruct (beqb s (b_of "false")) eqn:E2; [apply B in E2; tauto|].
  destruct (beqb s (b_of "null")) eqn:E3; [apply B in E3; tauto|]. exact K.
Qed.

Lemma kw_ident : forall s, In s [b_of "true"; b_of "false"; b_of "null"] -> identifier false s.
Proof.
  intros s H. simpl in H. repeat (destruct H as [<-|H]; [eexists _, _; split; [reflexivity|];
    split; [lett|letts]|]). destruct H.
Qed.

Lemma kw_atom : forall s r, In s [b_of "true"; b_of "false"; b_of "null"] -> spaced r ->
  ga (sp s ++ r) (name_expr s) r.
Proof. intros s r H Hr. apply GNameAtom. apply e_name; auto. apply kw_ident; assumption. Qed.

Fixpoint depth (e : expr) : nat :=
  match e with EInner _ l => S (fold_right (fun x n => Nat.max (depth x) n) 0%nat l) | _ => 0%nat end.

Lemma depth_in : forall e l, In e l -> (depth e <= fold_right (fun x n => Nat.max (depth x) n) 0 l)%nat.
Proof. induction l as [|x l IH]; intro H; [destruct H|]. simpl. destruct H as [->|H]; [lia|]. apply IH in H. lia. Qed.

Lemma print_ok : forall n e, (depth e <= n)%nat -> wr e -> forall r, spaced r -> ga (pr e ++ r) e r.
Proof.
  induction n as [n IHn] using lt_wf_ind. intros e Hn H r Hr.
  assert (IH : forall x, (depth x < depth e)%nat -> wr x -> forall r, spaced r -> ga (pr x ++ r) x r).
  { intros x Hx Hwx. apply (IHn (depth x)); auto. lia. }
  clear IHn Hn. revert r Hr.
  destruct H as [z Hz|f F1 F2|s Hs|b| |s Hs Hk| | |p P0 P1 P2|o a Ho Ha|o a b Ho Ha Hb|a s Ha Hs|l Hl|f l Hf Hk Hl]; intros r Hr.
  - apply GIntAtom. apply e_int; assumption.
  - apply GRealAtom. apply e_real; assumption.
  - apply GStrAtom. apply e_str; assumption.
  - destruct b; apply kw_atom; auto; inp.
  - apply (kw_atom (b_of "null")); auto; inp.
  - apply name_atom; assumption.
  - apply GCurrent. apply ex_punct; [inp|assumption].
  - apply GRoot. apply ex_punct; [inp|assumption].
  - cbn [print_expr]. rewrite <- !app_assoc. eapply GRegexp.
    + apply (e_tok1 tf lax (b_of "/" ++ (print_re p ++ [47] ++ r))). constructor. split; [inp|].
      intros p' Hp' [t Et]. simpl in Et. simpl in Hp'.
      repeat (destruct Hp' as [<-|Hp']; [first [simpl; lia|discriminate Et]|]). destruct Hp'.
    + reflexivity.
    + apply re_ok. assumption.
    + assumption.
  - destruct Ho as [->| ->]; cbn [print_expr map]; apply wrap; auto; try st; intros r' Hr';
      rewrite <- app_assoc; repeat (apply GUp; [lia|]); apply GUnary.
    + eapply GNeg; [apply ex_punct; [inp|st]|]. apply GPost, GAtom. apply IH; auto. simpl. lia.
    + eapply GNot; [apply ex_punct; [inp|st]|]. apply GPost, GAtom. apply IH; auto. simpl. lia.
  - rewrite print_binary by assumption.
    assert (IHa : forall r, spaced r -> ga (pr a ++ r) a r) by (apply IH; auto; simpl; lia).
    assert (IHb : forall r, spaced r -> ga (pr b ++ r) b r) by (apply IH; auto; simpl; lia).
    destruct (op_beq o OpIndex) eqn:Eo.
    + apply internal_op_dec_bl in Eo. subst o. apply wrap; auto; [st|]. intros r' Hr'. rewrite <- !app_assoc.
      repeat (apply GUp; [lia|]). apply GUnary, GPost. eapply GIndex.
      * apply GAtom. apply IHa. st.
      * apply ex_punct; [inp|st].
      * apply atom_expr; [|lia]. apply IHb. st.
      * apply ex_punct; [inp|assumption].
    + assert (Ho' : o <> OpIndex) by (intros ->; discriminate).
      destruct (op_level o Ho Ho') as (k & Hk & Hop).
      apply wrap; auto; [st|]. intros r' Hr'. rewrite <- !app_assoc.
      assert (K : gx k (pr a ++ sp (op_text o) ++ pr b ++ r') (EInner o [a; b]) r').
      { eapply GBin; [apply atom_expr; [apply IHa; st|lia]|apply Hop; st|apply atom_expr; [apply IHb; assumption|lia]]. }
      clear -K Hk. induction k as [|k IHk]; [assumption|]. apply IHk; [lia|apply GUp; [lia|assumption]].
  - cbn [print_expr map]. apply wrap; auto; [st|]. intros r' Hr'. rewrite <- !app_assoc.
    repeat (apply GUp; [lia|]). apply GUnary, GPost. eapply GDot.
    + apply GAtom. apply IH; auto; [simpl; lia|st].
    + apply ex_punct; [inp|st].
    + apply e_name; assumption.
  - change (pr (EInner OpArray l)) with (spp "(" ++ (spp "[" ++ commas (map pr l) ++ spp "]") ++ spp ")").
    apply wrap; auto; [st|]. intros r' Hr'. rewrite <- !app_assoc. apply atom_expr; [|lia].
    eapply GArray; [apply ex_punct; [inp|apply commas_spaced; st]|].
    apply list_ok; auto; [inp|]. intros x Hx. rewrite Forall_forall in Hl. apply IH; auto.
    simpl. apply depth_in in Hx. lia.
  - change (pr (EInner OpCall (EName f :: l))) with
      (spp "(" ++ (sp f ++ spp "(" ++ commas (map pr l) ++ spp ")") ++ spp ")").
    apply wrap; auto; [st|]. intros r' Hr'. rewrite <- !app_assoc.
    repeat (apply GUp; [lia|]). apply GUnary, GPost. eapply GCall.
    + apply GAtom. apply name_atom; auto. st.
    + apply ex_punct; [inp|apply commas_spaced; st].
    + apply list_ok; auto; [inp|]. intros x Hx. rewrite Forall_forall in Hl. apply IH; auto.
      simpl. apply depth_in in Hx. lia.
Qed.

Lemma print_atom : forall e r, wr e -> spaced r -> ga (pr e ++ r) e r.
Proof. intros. eapply print_ok; eauto. Qed.

Lemma print_script : forall e, wr e -> g_script tf re lax (pr e) e.
Proof.
  intros e H. exists []. split.
  - rewrite <- (app_nil_r (pr e)) at 1. apply atom_expr; [|lia]. apply print_atom; [assumption|exact I].
  - apply (ETok1 _ _ [] []); constructor.
Qed.

(** *** Paths *)
Lemma paren_ok : forall e r, wr e -> spaced r -> g_paren tf re lax (print_paren ft e ++ r) e r.
Proof.
  intros e r H Hr. unfold print_paren. rewrite <- !app_assoc. econstructor.
  - apply px_punct; [inp|st].
  - apply atom_expr; [|lia]. apply print_atom; [assumption|st].
  - apply px_punct; [inp|assumption].
Qed.

Lemma bound_ok : forall b r, writable_bound ft tf re b -> spaced r ->
  g_bound tf re lax (print_bound ft b ++ r) b r.
Proof.
  intros b r [z H|e H] Hr.
  - apply GBInt. apply p_int; assumption.
  - apply GBExpr. apply paren_ok; assumption.
Qed.

Lemma starts_bound : forall b, starts32 (print_bound ft b).
Proof. intros [z|e]; unfold print_bound, print_paren; st. Qed.
Hint Resolve starts_bound : st.

Lemma obound_ok : forall b r, writable_obound ft tf re b -> spaced r ->
  g_obound tf re lax (print_obound ft b ++ r) b r.
Proof.
  intros [b|] r H Hr; simpl.
  - apply GBSome. apply bound_ok; assumption.
  - apply GBNone.
Qed.

Lemma obound_spaced : forall b r, spaced r -> spaced (print_obound ft b ++ r).
Proof. intros [b|] r Hr; simpl; st. Qed.

Lemma slice_ok : forall s r, writable_obound ft tf re (sl_start s) -> writable_obound ft tf re (sl_end s) ->
  writable_obound ft tf re (sl_stride s) -> spaced r -> g_slice tf re lax (print_slice ft s ++ r) s r.
Proof.
  intros [a b c] r Ha Hb Hc Hr. unfold print_slice. cbn [sl_start sl_end sl_stride] in *. rewrite <- !app_assoc.
  destruct c as [c|].
  - eapply GSlice3.
    + apply obound_ok; [assumption|st].
    + apply px_punct; [inp|]. apply obound_spaced. rewrite <- app_assoc. st.
    + apply obound_ok; [assumption|]. rewrite <- app_assoc. st.
    + rewrite <- app_assoc. apply px_punct; [inp|st].
    + apply GBSome. apply bound_ok; assumption.
  - eapply GSlice2.
    + apply obound_ok; [assumption|st].
    + apply px_punct; [inp|]. apply obound_spaced. assumption.
    + apply obound_ok; assumption.
Qed.

Lemma elem_ok : forall v r, writable_elem ft tf re v -> spaced r ->
  g_elem tf re lax (print_val ft v ++ r) v r.
Proof.
  intros v r [z H|s H|s H|s H1 H2 H3] Hr; simpl.
  - apply GElInt. apply p_int; assumption.
  - apply GElStr. apply p_str; assumption.
  - apply GElName. apply p_name; assumption.
  - apply GElSlice. apply slice_ok; assumption.
Qed.

Lemma starts_slice : forall s, starts32 (print_slice ft s).
Proof. intros [[a|] b c]; unfold print_slice; simpl; st. Qed.
Hint Resolve starts_slice : st.

Lemma starts_val : forall v, starts32 (print_val ft v).
Proof. intros [z|s|s|s|e]; simpl; unfold print_paren; st. Qed.
Hint Resolve starts_val : st.

Lemma elems_ok : forall l, Forall (writable_elem ft tf re) l -> l <> [] ->
  starts32 (print_vals ft l) /\ forall r, spaced r -> g_elems tf re lax (print_vals ft l ++ r) l r.
Proof.
  intros l H. induction H as [|v l Hv Hl IH]; intro Hne; [congruence|].
  destruct l as [|v2 l].
  - unfold print_vals. cbn [map commas]. split; [st|]. intros r Hr. apply GElOne. apply elem_ok; assumption.
  - destruct IH as [I1 I2]; [discriminate|].
    change (print_vals ft (v :: v2 :: l)) with (print_val ft v ++ spp "," ++ print_vals ft (v2 :: l)).
    split; [st|]. intros r Hr. rewrite <- !app_assoc. eapply GElMore.
    + apply elem_ok; [assumption|st].
    + apply px_punct; [inp|st].
    + apply I2. assumption.
Qed.

(** the text between the brackets of a step *)
Definition sub_text (st : pstep) : bytes :=
  match st_op st, st_args st with
  | OpFilter, [PExpr e] => spp "?(" ++ pr e ++ spp ")"
  | _, l => print_vals ft l
  end.

Lemma starts_vals : forall v l, starts32 (print_vals ft (v :: l)).
Proof. intros v [|v2 l]; unfold print_vals; cbn [map commas]; st. Qed.
Hint Resolve starts_vals : st.

Lemma sub_ok : forall st, writable_step ft tf re st -> In (st_op st) [OpSelect; OpUnion; OpFilter] ->
  starts32 (sub_text st) /\ forall r, spaced r -> g_subscript tf re lax (sub_text st ++ r) st r.
Proof.
  intros st H Hin. destruct H as [|v Hv|v Hv|e He|l Hl Hv|e He|st H Hn]; simpl in Hin; try (intuition discriminate).
  - unfold sub_text. cbn [st_op st_args]. split; [st|]. intros r Hr.
    unfold print_vals. cbn [map commas]. apply GSubOne. apply elem_ok; assumption.
  - unfold sub_text. cbn [st_op st_args]. split; [st|]. intros r Hr.
    unfold print_vals. cbn [map commas]. apply GSubExpr. apply paren_ok; assumption.
  - destruct (elems_ok l Hv) as [I1 I2]; [intros ->; simpl in Hl; lia|].
    unfold sub_text. cbn [st_op st_args]. split; [assumption|]. intros r Hr. apply GSubUnion; auto.
  - unfold sub_text. cbn [st_op st_args]. split; [st|]. intros r Hr. rewrite <- !app_assoc. eapply GSubFilter.
    + apply px_punct; [inp|st].
    + apply atom_expr; [|lia]. apply print_atom; [assumption|st].
    + apply px_punct; [inp|assumption].
  - exfalso. destruct st as [o args]. unfold nested in *. simpl in *. destruct o; simpl in *; intuition congruence.
Qed.

(** the text after the dot of a step *)
Lemma member_ok : forall v r, writable_member ft tf re v -> spaced r ->
  g_member tf re lax (print_val ft v ++ r) (mkStep OpMember [v]) r.
Proof.
  intros v r [z H|s H|e H] Hr; simpl.
  - apply GMemInt. apply p_int; assumption.
  - apply GMemName. apply p_name; assumption.
  - apply GMemExpr. apply paren_ok; assumption.
Qed.

Lemma plain_step : forall st, writable_step ft tf re st -> st_op st <> st_op (nested st) ->
  (starts32 (print_step ft st) /\ forall r, spaced r -> g_step tf re lax (print_step ft st ++ r) st r) /\
  (starts32 (print_step ft (nested st)) /\
     forall r, spaced r -> g_step tf re lax (print_step ft (nested st) ++ r) (nested st) r).
Proof.
  intros st H Hn.
  assert (Sub : In (st_op st) [OpSelect; OpUnion; OpFilter] ->
    print_step ft st = spp "[" ++ sub_text st ++ spp "]" /\
    print_step ft (nested st) = spp ".." ++ spp "[" ++ sub_text st ++ spp "]").
  { intro Hin. destruct H as [|v Hv|v Hv|e He|l Hl Hv|e He|st H Hn']; simpl in Hin; try (intuition discriminate);
      try (split; reflexivity).
    - unfold sub_text, print_step, nested. cbn [st_op st_args]. rewrite <- !app_assoc. split; reflexivity.
    - exfalso. destruct st as [o args]. unfold nested in *. simpl in *. destruct o; simpl in *; intuition congruence. }
  assert (Go : In (st_op st) [OpSelect; OpUnion; OpFilter] ->
   (starts32 (print_step ft st) /\ forall r, spaced r -> g_step tf re lax (print_step ft st ++ r) st r) /\
   (starts32 (print_step ft (nested st)) /\
     forall r, spaced r -> g_step tf re lax (print_step ft (nested st) ++ r) (nested st) r)).
  { intro Hin. destruct (Sub Hin) as [E1 E2]. destruct (sub_ok st H Hin) as [S1 S2].
    rewrite E1, E2. split; (split; [st|]); intros r Hr; rewrite <- !app_assoc.
    - eapply GStepSub; [apply px_punct; [inp|st]|apply S2; st|apply px_punct; [inp|assumption]].
    - eapply GStepNestSub; [apply px_punct; [inp|st]|apply px_punct; [inp|st]|apply S2; st|apply px_punct; [inp|assumption]]. }
  clear Sub. destruct H as [|v Hv|v Hv|e He|l Hl Hv|e He|st H Hn']; try (apply Go; simpl; auto; fail); clear Go.
  - unfold print_step, nested. cbn [st_op st_args]. split; (split; [st|]); intros r Hr; rewrite <- !app_assoc.
    + eapply GStepMember; [apply px_punct; [inp|st]|]. apply GMemWild. apply px_punct; [inp|assumption].
    + apply (GStepNestMember _ _ _ _ (spp "*" ++ r) (mkStep OpWild [])); [apply px_punct; [inp|st]|].
      apply GMemWild. apply px_punct; [inp|assumption].
  - unfold print_step, nested. cbn [st_op st_args]. split; (split; [st|]); intros r Hr; rewrite <- !app_assoc.
    + eapply GStepMember; [apply px_punct; [inp|st]|]. apply member_ok; assumption.
    + apply (GStepNestMember _ _ _ _ (print_val ft v ++ r) (mkStep OpMember [v])); [apply px_punct; [inp|st]|].
      apply member_ok; assumption.
  - exfalso. destruct st as [o args]. unfold nested in *. simpl in *. destruct o; simpl in *; congruence.
Qed.

Lemma step_ok : forall st, writable_step ft tf re st ->
  starts32 (print_step ft st) /\ forall r, spaced r -> g_step tf re lax (print_step ft st ++ r) st r.
Proof.
  intros st H. destruct (op_beq (st_op st) (st_op (nested st))) eqn:E.
  - apply internal_op_dec_bl in E. inversion H; subst; try discriminate E.
    apply plain_step; assumption.
  - apply plain_step; auto. intro K. rewrite <- K in E. rewrite internal_op_dec_lb in E; congruence.
Qed.

Lemma print_path_ok : forall p, writable_path ft tf re p -> g_path tf re lax (print_path ft p) p.
Proof.
  intros p H.
  assert (K : spaced (flat_map (print_step ft) p) /\ g_steps tf re lax (flat_map (print_step ft) p) p).
  { induction H as [|st p Hst Hp [IH1 IH2]]; simpl.
    - split; [exact I|]. apply GStepsEnd. apply (PTok1 _ [] []); constructor.
    - destruct (step_ok st Hst) as [S1 S2]. split; [st|]. eapply GStepsMore; [apply S2; assumption|assumption]. }
  destruct K as [K1 K2]. exists (flat_map (print_step ft) p). split; [|assumption].
  apply (PTok1 _ [] (b_of "$" ++ flat_map (print_step ft) p)); [constructor|].
  apply TokPunct. apply longest_spaced; [apply no_space_path|inp|assumption].
Qed.
End trees.
