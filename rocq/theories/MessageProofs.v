(** The text of a syntax error determines the error. *)
From Coq Require Import DecimalN DecimalPos.
From Verif Require Import SpecGrammar SpecErrors SpecMessages Messages DetermProofs.
Local Open Scope Z_scope.

(** ** Prefixes *)
Fixpoint prefb (u v : bytes) : bool :=
  match u, v with
  | [], _ => true
  | x :: u, y :: v => (x =? y) && prefb u v
  | _, _ => false
  end.

Lemma prefb_app : forall u x, prefb u (u ++ x) = true.
Proof. induction u as [|a u IH]; intro x; [reflexivity|]. cbn. rewrite Z.eqb_refl. apply IH. Qed.

Lemma prefb_either : forall u v x y, u ++ x = v ++ y -> prefb u v = true \/ prefb v u = true.
Proof.
  induction u as [|a u IH]; intros v x y H; [left; reflexivity|].
  destruct v as [|b v]; [right; reflexivity|]. injection H as <- H. cbn. rewrite Z.eqb_refl. cbn. eauto.
Qed.

Definition apart (u v : bytes) : bool := negb (prefb u v) && negb (prefb v u).
Lemma apart_ne : forall u v x y, apart u v = true -> u ++ x = v ++ y -> False.
Proof.
  intros u v x y H E. apply andb_prop in H as [H1 H2]. destruct (prefb_either _ _ _ _ E) as [K|K]; rewrite K in *; discriminate.
Qed.

(** ** Decimal numbers *)
Definition no_digit (x : bytes) : Prop := match x with [] => True | c :: _ => ~ 48 <= c <= 57 end.

Lemma uint_bytes_app : forall u v x y, no_digit x -> no_digit y -> uint_bytes u ++ x = uint_bytes v ++ y -> u = v /\ x = y.
Proof.
  induction u; intros v x y Hx Hy H; destruct v; cbn in H;
    try (injection H as H; apply IHu in H as [-> ->]; auto; fail); try discriminate H; auto;
    exfalso; subst; cbn in *; lia.
Qed.

Lemma sprint_int_app : forall a b x y, no_digit x -> no_digit y -> sprint_int a ++ x = sprint_int b ++ y -> a = b /\ x = y.
Proof.
  assert (N : forall n, exists c r, uint_bytes (N.to_uint n) = c :: r /\ 48 <= c).
  { intro n. pose proof (DecimalN.Unsigned.of_to n) as K. destruct (N.to_uint n) eqn:E; cbn; try (do 2 eexists; split; [reflexivity|lia]).
    exfalso. destruct n; [discriminate E|]. revert E. apply DecimalPos.Unsigned.to_uint_nonnil. }
  intros a b x y Hx Hy H. unfold sprint_int in H. destruct (Z.ltb_spec a 0), (Z.ltb_spec b 0).
  - injection H as H. apply uint_bytes_app in H as [H ->]; try assumption.
    apply (f_equal N.of_uint) in H. rewrite !DecimalN.Unsigned.of_to in H. split; [lia|reflexivity].
  - destruct (N (Z.to_N b)) as (c & r & E & L). rewrite E in H. injection H as H _. lia.
  - destruct (N (Z.to_N a)) as (c & r & E & L). rewrite E in H. injection H as H _. lia.
  - apply uint_bytes_app in H as [H ->]; try assumption.
    apply (f_equal N.of_uint) in H. rewrite !DecimalN.Unsigned.of_to in H. split; [lia|reflexivity].
Qed.

Lemma sprint_int_inj : forall a b, sprint_int a = sprint_int b -> a = b.
Proof. intros a b H. apply (sprint_int_app a b [] []); [exact I|exact I|]. rewrite !app_nil_r. exact H. Qed.

Lemma sprint_int_solid : forall a, Forall (fun c => c <> 32) (sprint_int a).
Proof.
  assert (U : forall u, Forall (fun c => c <> 32) (uint_bytes u)) by (induction u; constructor; (lia || assumption)).
  intro a. unfold sprint_int. destruct (a <? 0); [constructor; [lia|]|]; apply U.
Qed.

Lemma offset_app : forall a b x y, no_digit x -> no_digit y -> offset_String a ++ x = offset_String b ++ y -> a = b /\ x = y.
Proof. intros a b x y Hx Hy H. unfold offset_String in H. rewrite <- !app_assoc in H. apply app_inv_head in H. apply sprint_int_app; assumption. Qed.

Lemma offset_inj : forall a b, offset_String a = offset_String b -> a = b.
Proof. intros a b H. unfold offset_String in H. apply app_inv_head in H. apply sprint_int_inj, H. Qed.

Lemma after_last_space : forall x y d e, Forall (fun c => c <> 32) d -> Forall (fun c => c <> 32) e ->
  x ++ 32 :: d = y ++ 32 :: e -> x = y /\ d = e.
Proof.
  induction x as [|a x IH]; intros y d e Hd He H; destruct y as [|b y]; cbn in H.
  - injection H as H. auto.
  - injection H as <- H. exfalso. rewrite H in Hd. apply Forall_app in Hd as [_ Hd]. inversion Hd. congruence.
  - injection H as -> H. exfalso. rewrite <- H in He. apply Forall_app in He as [_ He]. inversion He. congruence.
  - injection H as <- H. apply IH in H as [-> ->]; auto.
Qed.

(** ** Finite sets of characters, tokens and operators *)
Definition runes : list Z := map (fun n => Z.of_nat n - 1) (seq 0 257).
Definition tokens : list token :=
  map (fun n => TChar (Z.of_nat n)) (seq 0 256) ++
  [TError; TEOF; TID; TString; TInt; TNest; TReal; TRE; TLE; TGE; TEQ; TNE; TFilter; TAnd; TOr; TMatch; TIn; TNin].

Definition tok_ok (t : token) : Prop := match t with TChar c => 0 <= c < 256 | _ => True end.

Lemma in_runes : forall c, -1 <= c < 256 -> In c runes.
Proof. intros c H. apply in_map_iff. exists (Z.to_nat (c + 1)). split; [lia|]. apply in_seq. lia. Qed.

Lemma in_tokens : forall t, tok_ok t -> In t tokens.
Proof.
  intros t H. apply in_or_app. destruct t; try (right; cbn; tauto).
  left. cbn in H. apply in_map_iff. exists (Z.to_nat c). split; [f_equal; lia|]. apply in_seq. lia.
Qed.

Lemma tok_eqb_eq : forall a b, tok_eqb a b = true -> a = b.
Proof. intros a b H. destruct a, b; try discriminate H; try reflexivity. apply Z.eqb_eq in H. congruence. Qed.

Lemma all2 : forall A (f : A -> A -> bool) l, forallb (fun a => forallb (f a) l) l = true ->
  forall a b, In a l -> In b l -> f a b = true.
Proof. intros A f l H a b Ha Hb. rewrite forallb_forall in H. specialize (H a Ha). rewrite forallb_forall in H. auto. Qed.

Definition sp : bytes := b_of " ".
Definition lp : bytes := b_of "(".

Lemma rune_apart : forall c d, In c runes -> In d runes -> (c =? d) || apart (rune_quoted c) (rune_quoted d) = true.
Proof. apply all2. vm_compute. reflexivity. Qed.

Lemma rune_app : forall c d x y, -1 <= c < 256 -> -1 <= d < 256 -> rune_quoted c ++ x = rune_quoted d ++ y -> c = d /\ x = y.
Proof.
  intros c d x y Hc Hd H. pose proof (rune_apart c d (in_runes c Hc) (in_runes d Hd)) as K.
  destruct (Z.eqb_spec c d) as [-> |_]; [apply app_inv_head in H; auto|]. destruct (apart_ne _ _ _ _ K H).
Qed.

Lemma tok_apart : forall t u, In t tokens -> In u tokens -> tok_eqb t u || apart (token_String t ++ sp) (token_String u ++ sp) = true.
Proof. apply all2. vm_compute. reflexivity. Qed.

Lemma tok_app : forall t u x y, tok_ok t -> tok_ok u -> token_String t ++ 32 :: x = token_String u ++ 32 :: y -> t = u /\ x = y.
Proof.
  intros t u x y Ht Hu H. pose proof (tok_apart t u (in_tokens t Ht) (in_tokens u Hu)) as K.
  destruct (tok_eqb t u) eqn:E.
  - apply tok_eqb_eq in E as ->. apply app_inv_head in H. injection H as H. auto.
  - exfalso. eapply apart_ne; [exact K|]. rewrite <- !app_assoc. exact H.
Qed.

Lemma tok_inj : forall t u, tok_ok t -> tok_ok u -> token_String t = token_String u -> t = u.
Proof. intros t u Ht Hu H. apply (tok_app t u [] []); try assumption. rewrite H. reflexivity. Qed.

(** a token's value in brackets *)
Lemma tok_brackets : forall t u, In t tokens -> In u tokens ->
  negb (hasVal t) ||
  (negb (prefb (token_String t ++ lp) (token_String u)) && apart (token_String t ++ lp) (token_String u ++ sp) &&
   (tok_eqb t u || apart (token_String t ++ lp) (token_String u ++ lp))) = true.
Proof. apply all2. vm_compute. reflexivity. Qed.

Lemma tok_not_longer : forall t u, In t tokens -> In u tokens -> negb (prefb (token_String u ++ sp) (token_String t)) = true.
Proof. apply all2. vm_compute. reflexivity. Qed.

Lemma tok_words : forall t, tok_ok t -> forall w, In w (map b_of ["char "; "character "; "token "]%string) -> apart (token_String t ++ sp) w = true.
Proof.
  intros t Ht w Hw. apply in_tokens in Ht. revert t Ht w Hw.
  assert (K : forallb (fun t => forallb (fun w => apart (token_String t ++ sp) w) (map b_of ["char "; "character "; "token "]%string)) tokens = true)
    by (vm_compute; reflexivity).
  intros t Ht w Hw. rewrite forallb_forall in K. specialize (K t Ht). rewrite forallb_forall in K. auto.
Qed.

Lemma tok_no_word : forall t w x y, tok_ok t -> In w (map b_of ["char "; "character "; "token "]%string) ->
  token_String t ++ 32 :: x = w ++ y -> False.
Proof.
  intros t w x y Ht Hw H. eapply apart_ne; [apply (tok_words t Ht w Hw)|]. rewrite <- app_assoc. exact H.
Qed.

(** ** The text of a lexeme *)
Section texts.
Variable F : printers.
Variable G : messages.
Variable TX : textoracles.
Hypothesis floats : forall a b f g, o_parse_float TX a = Some f -> o_parse_float TX b = Some g -> pr_float F f = pr_float F g -> f = g.
Hypothesis regexps : forall p, exists x, mg_regexp G p = b_of "error parsing regexp: " ++ x.

Definition val_ok (t : token) (v : lexval) : Prop :=
  match t with
  | TID | TString => exists s, v = LStr s
  | TInt => exists z, v = LInt z
  | TReal => exists a f, o_parse_float TX a = Some f /\ v = LFloat f
  | TRE => False
  | TIn => v = LStr (b_of "in")
  | TNin => v = LStr (b_of "nin")
  | _ => v = LNone
  end.

Lemma lexeme_inj : forall t v u w, tok_ok t -> tok_ok u -> val_ok t v -> val_ok u w ->
  lexeme_String F t v = lexeme_String F u w -> t = u /\ v = w.
Proof.
  intros t v u w Ht Hu Hv Hw H. unfold lexeme_String in H.
  pose proof (tok_brackets t u (in_tokens t Ht) (in_tokens u Hu)) as K1.
  pose proof (tok_brackets u t (in_tokens u Hu) (in_tokens t Ht)) as K2.
  destruct (hasVal t) eqn:Et, (hasVal u) eqn:Eu; cbn [negb orb] in K1, K2.
  - apply andb_prop in K1 as [_ K1]. destruct (tok_eqb t u) eqn:E.
    + apply tok_eqb_eq in E as <-. split; [reflexivity|]. apply app_inv_head, app_inv_head, app_inv_tail in H.
      destruct t; try discriminate Et; cbn in Hv, Hw.
      * destruct Hv as (a & ->), Hw as (b & ->). cbn in H. congruence.
      * destruct Hv as (a & ->), Hw as (b & ->). cbn in H. congruence.
      * destruct Hv as (a & ->), Hw as (b & ->). cbn in H. apply sprint_int_inj in H. congruence.
      * destruct Hv as (a & f & Hf & ->), Hw as (b & g & Hg & ->). cbn in H. f_equal. eapply floats; eassumption.
      * destruct Hv.
    + exfalso. eapply apart_ne; [exact K1|]. rewrite <- !app_assoc. exact H.
  - exfalso. apply andb_prop in K1 as [K1 _]. apply andb_prop in K1 as [K1 _]. rewrite <- H, app_assoc, prefb_app in K1. discriminate K1.
  - exfalso. apply andb_prop in K2 as [K2 _]. apply andb_prop in K2 as [K2 _]. rewrite H, app_assoc, prefb_app in K2. discriminate K2.
  - apply tok_inj in H; try assumption. subst u. split; [reflexivity|].
    destruct t; try discriminate Et; cbn in Hv, Hw; congruence.
Qed.

Lemma lexeme_not_space : forall t v u x, tok_ok t -> tok_ok u -> lexeme_String F t v = token_String u ++ 32 :: x -> False.
Proof.
  intros t v u x Ht Hu H. unfold lexeme_String in H.
  pose proof (tok_brackets t u (in_tokens t Ht) (in_tokens u Hu)) as K1.
  pose proof (tok_not_longer t u (in_tokens t Ht) (in_tokens u Hu)) as K2.
  destruct (hasVal t) eqn:Et; cbn [negb orb] in K1.
  - apply andb_prop in K1 as [K1 _]. apply andb_prop in K1 as [_ K1]. eapply apart_ne; [exact K1|]. rewrite <- !app_assoc. exact H.
  - rewrite H in K2. change (32 :: x) with (sp ++ x) in K2. rewrite app_assoc, prefb_app in K2. discriminate K2.
Qed.

(** ** The errors that have reasons *)
Fixpoint sayable (e : perr) : Prop :=
  match e with
  | EFuel => False
  | ECharAfter c a _ => -1 <= c < 256 /\ a = 40
  | EChar c _ => -1 <= c < 256
  | EExpectedErr t _ e => In t [TChar 36; TChar 41; TChar 93] /\ sayable e
  | EExpectedTok t _ u => In t [TChar 36; TChar 41; TChar 93] /\ tok_ok u
  | EUnexpectedLex t v => tok_ok t /\ val_ok t v
  | EUnexpectedTok t _ | ESliceTok t _ | EMissingOp _ t | ETerm t => tok_ok t
  | EInUnion o => In o [OpWild; OpExp; OpFilter]
  | ENotCallable o => ~ step_op o
  | _ => True
  end.

Lemma ends_ok : forall s k t, is_bytes s -> ends s k t -> tok_ok t.
Proof.
  intros s k t Hs (a & w & b & E & Hw & _). destruct t; try exact I. cbn.
  inversion Hw; subst.
  - unfold is_bytes in Hs. rewrite Forall_app in Hs. destruct Hs as [_ Hs]. inversion Hs. assumption.
  - exfalso. match goal with H : In _ _ |- _ => cbn in H; intuition discriminate end.
Qed.

Lemma ends_val : forall s k t v, ends_with TX s k t v -> val_ok t v.
Proof.
  intros s k t v (a & w & b & E & Hw & Hv & _).
  destruct Hv; cbn; eauto.
  - destruct H as [-> | ->]; inversion Hw; subst; cbn in *;
      repeat (match goal with H : _ \/ _ |- _ => destruct H as [H|H] | H : (_, _) = (_, _) |- _ => first [discriminate H|injection H as <-] end);
      try reflexivity; contradiction.
  - destruct t; cbn; try reflexivity; exfalso; apply H; cbn; auto 10.
Qed.

Lemma byte_after_ok : forall s k, is_bytes s -> -1 <= byte_after s k < 256.
Proof.
  intros s k H. unfold byte_after. destruct (Nat.lt_ge_cases k (length s)).
  - unfold is_bytes in H. rewrite Forall_forall in H. specialize (H (nth k s (-1)) (nth_In _ _ H0)). lia.
  - rewrite nth_overflow by assumption. lia.
Qed.

Lemma in_bytes : forall s c, is_bytes s -> In c s -> 0 <= c < 256.
Proof. intros s c H. unfold is_bytes in H. rewrite Forall_forall in H. apply H. Qed.

Lemma bytes_suffix : forall a b, is_bytes (a ++ b) -> is_bytes b.
Proof. intros a b H. apply Forall_app in H. apply H. Qed.

Lemma reason_sayable : forall s e, is_bytes s -> reason TX s e -> sayable e.
Proof.
  intros s e Hs H. induction H; cbn; try exact I; try (eapply ends_ok; [exact Hs|eassumption]; fail).
  - split; [|reflexivity]. apply byte_after_ok. rewrite H in Hs. apply bytes_suffix in Hs. inversion Hs; assumption.
  - assert (0 <= c < 256) by (eapply in_bytes; [exact Hs|]; rewrite H; apply in_or_app; right; left; reflexivity). lia.
  - apply byte_after_ok. rewrite H in Hs. apply bytes_suffix in Hs. inversion Hs as [|? ? _ Hs']; subst. eapply bytes_suffix, Hs'.
  - rewrite H in Hs. apply bytes_suffix in Hs.
    assert (In (last (45 :: w) 0) (45 :: w)).
    { clear. generalize 45. induction w as [|x w IH]; intro c; [left; reflexivity|]. right. apply (IH x). }
    pose proof (in_bytes _ _ Hs H1) as K. cbn in K. lia.
  - lia.
  - split; [cbn; intuition congruence|exact IHreason].
  - split; [cbn; intuition congruence|eapply ends_ok; eassumption].
  - split; [|eapply ends_val; eassumption].
    destruct H as (a & w & b & E & Hw & _ & Hk). eapply ends_ok; [exact Hs|]. exists a, w, b. eauto.
  - cbn in H. intuition congruence.
  - exact H0.
Qed.

(** ** Errors and tokens *)
Lemma msg_not_tok : forall e t, sayable e -> tok_ok t -> perr_Error F G e = token_String t -> False.
Proof.
  intros e t He Ht H.
  assert (W : exists h x, In h (map b_of ["un"; "overflow"; "invalid"; "must"; "strconv"; "expected"; "* c"; "(exp) c"; "?(f"; "missing"; "error"]%string) /\
    perr_Error F G e = h ++ x).
  { destruct e; try (exfalso; exact He);
      try (cbn [perr_Error]; unfold range_error; rewrite <- ?app_assoc;
           first [exists (b_of "un"); eexists; split; [cbn; tauto|reflexivity]
                 |exists (b_of "overflow"); eexists; split; [cbn; tauto|reflexivity]
                 |exists (b_of "invalid"); eexists; split; [cbn; tauto|reflexivity]
                 |exists (b_of "must"); eexists; split; [cbn; tauto|reflexivity]
                 |exists (b_of "strconv"); eexists; split; [cbn; tauto|reflexivity]
                 |exists (b_of "expected"); eexists; split; [cbn; tauto|reflexivity]
                 |exists (b_of "missing"); eexists; split; [cbn; tauto|reflexivity]]; fail).
    - cbn in He. destruct He as [<-|[<-|[<-|[]]]].
      + exists (b_of "* c"). eexists. split; [cbn; tauto|reflexivity].
      + exists (b_of "(exp) c"). eexists. split; [cbn; tauto|reflexivity].
      + exists (b_of "?(f"). eexists. split; [cbn; tauto|reflexivity].
    - destruct (regexps s) as (x & E). cbn [perr_Error]. rewrite E. exists (b_of "error"). eexists. split; [cbn; tauto|reflexivity]. }
  destruct W as (h & x & Hh & E). rewrite E in H.
  assert (K : forallb (fun h => forallb (fun t => negb (prefb h (token_String t))) tokens)
    (map b_of ["un"; "overflow"; "invalid"; "must"; "strconv"; "expected"; "* c"; "(exp) c"; "?(f"; "missing"; "error"]%string) = true)
    by (vm_compute; reflexivity).
  rewrite forallb_forall in K. specialize (K h Hh). rewrite forallb_forall in K. specialize (K t (in_tokens t Ht)).
  rewrite <- H, prefb_app in K. discriminate K.
Qed.

Lemma op_inj : forall o p, ~ step_op o -> ~ step_op p -> op_String o = op_String p -> o = p.
Proof.
  intros o p Ho Hp. unfold step_op in *. destruct o; try (exfalso; apply Ho; cbn; tauto); clear Ho;
    destruct p; try (exfalso; apply Hp; cbn; tauto); intro H; first [reflexivity|discriminate H].
Qed.

Lemma token_quoted_app : forall t u x y, token_quoted t ++ 32 :: x = token_quoted u ++ 32 :: y ->
  In t [TChar 36; TChar 41; TChar 93] -> In u [TChar 36; TChar 41; TChar 93] -> t = u /\ x = y.
Proof.
  intros t u x y H Ht Hu. cbn in Ht, Hu.
  destruct Ht as [<-|[<-|[<-|[]]]], Hu as [<-|[<-|[<-|[]]]]; first [discriminate H|split; [reflexivity|injection H as H; exact H]].
Qed.

(** ** Different errors *)
Lemma range_inj : forall f a b, range_error f a = range_error f b -> a = b.
Proof. intros f a b H. unfold range_error in H. apply app_inv_head, app_inv_head, app_inv_head in H. eapply app_inv_tail, H. Qed.

Lemma texts_apart : forall e e', sayable e -> sayable e' -> perr_Error F G e = perr_Error F G e' -> same_cause e e'.
Proof.
  induction e; intros e' He He' H; try (exfalso; exact He);
    destruct e'; try (exfalso; exact He'); try (constructor; fail);
    try (cbn [perr_Error] in H; discriminate H);
    try (match goal with |- same_cause (ERegexpSyntax _ _) (ERegexpSyntax _ _) => fail 1 | |- same_cause (ERegexpSyntax ?p _) _ =>
           exfalso; cbn [perr_Error] in H; destruct (regexps p) as (x & Ex); rewrite Ex in H; rewrite <- ?app_assoc in H; try discriminate H;
           cbn in He'; destruct He' as [<-|[<-|[<-|[]]]]; discriminate H end);
    try (match goal with |- same_cause (ERegexpSyntax _ _) (ERegexpSyntax _ _) => fail 1 | |- same_cause _ (ERegexpSyntax ?p _) =>
           exfalso; cbn [perr_Error] in H; destruct (regexps p) as (x & Ex); rewrite Ex in H; rewrite <- ?app_assoc in H; try discriminate H;
           cbn in He; destruct He as [<-|[<-|[<-|[]]]]; discriminate H end);
    try (match goal with |- same_cause (EInUnion _) (EInUnion _) => fail 1 | |- same_cause (EInUnion _) _ =>
           exfalso; cbn [sayable In] in He; destruct He as [<-|[<-|[<-|[]]]]; discriminate H end);
    try (match goal with |- same_cause (EInUnion _) (EInUnion _) => fail 1 | |- same_cause _ (EInUnion _) =>
           exfalso; cbn [sayable In] in He'; destruct He' as [<-|[<-|[<-|[]]]]; discriminate H end);
    cbn [perr_Error sayable] in H, He, He'.
  - apply range_inj in H as ->. constructor.
  - apply range_inj in H as ->. constructor.
  - destruct He as [H1 ->], He' as [H2 ->]. apply app_inv_head in H. apply rune_app in H as [-> H]; [|assumption..].
    apply app_inv_head, app_inv_head, app_inv_head, offset_inj in H as ->. constructor.
  - exfalso. change (b_of "unexpected char ") with (b_of "unexpected " ++ b_of "char ") in H. rewrite <- app_assoc in H.
    apply app_inv_head in H. symmetry in H. eapply (tok_no_word t (b_of "char ")); [exact He'|cbn; tauto|exact H].
  - apply app_inv_head in H. apply rune_app in H as [-> H]; [|assumption..].
    apply app_inv_head, offset_inj in H as ->. constructor.
  - exfalso. change (b_of "unexpected character ") with (b_of "unexpected " ++ b_of "character ") in H. rewrite <- app_assoc in H.
    apply app_inv_head in H. symmetry in H. eapply (tok_no_word t (b_of "character ")); [exact He'|cbn; tauto|exact H].
  - apply app_inv_head in H. apply token_quoted_app in H as [-> H]; [|apply He|apply He'].
    apply (app_inv_head [97; 116; 32]) in H. apply offset_app in H as [-> H]; [|cbn; lia..].
    apply app_inv_head in H. constructor. apply IHe; [apply He|apply He'|exact H].
  - exfalso. apply app_inv_head in H. apply token_quoted_app in H as [-> H]; [|apply He|apply He'].
    apply (app_inv_head [97; 116; 32]) in H. apply offset_app in H as [-> H]; [|cbn; lia..].
    apply app_inv_head in H. eapply msg_not_tok; [apply He|apply He'|exact H].
  - exfalso. apply app_inv_head in H. apply token_quoted_app in H as [-> H]; [|apply He|apply He'].
    apply (app_inv_head [97; 116; 32]) in H. apply offset_app in H as [-> H]; [|cbn; lia..].
    apply app_inv_head in H. symmetry in H. eapply msg_not_tok; [apply He'|apply He|exact H].
  - apply app_inv_head in H. apply token_quoted_app in H as [-> H]; [|apply He|apply He'].
    apply (app_inv_head [97; 116; 32]) in H. apply offset_app in H as [-> H]; [|cbn; lia..].
    apply app_inv_head in H. apply tok_inj in H as ->; [constructor|apply He|apply He'].
  - apply app_inv_head in H. apply lexeme_inj in H as [-> ->]; [constructor|apply He|apply He'|apply He|apply He'].
  - exfalso. change (b_of "unexpected token ") with (b_of "unexpected " ++ b_of "token ") in H. rewrite <- app_assoc in H.
    apply app_inv_head in H. symmetry in H. eapply (tok_no_word t0 (b_of "token ")); [exact He'|cbn; tauto|exact H].
  - exfalso. apply app_inv_head in H. eapply lexeme_not_space; [apply He|exact He'|exact H].
  - exfalso. apply app_inv_head in H. eapply lexeme_not_space; [apply He|exact He'|exact H].
  - exfalso. change (b_of "unexpected char ") with (b_of "unexpected " ++ b_of "char ") in H. rewrite <- app_assoc in H.
    apply app_inv_head in H. eapply (tok_no_word t (b_of "char ")); [exact He|cbn; tauto|exact H].
  - exfalso. change (b_of "unexpected character ") with (b_of "unexpected " ++ b_of "character ") in H. rewrite <- app_assoc in H.
    apply app_inv_head in H. eapply (tok_no_word t (b_of "character ")); [exact He|cbn; tauto|exact H].
  - exfalso. change (b_of "unexpected token ") with (b_of "unexpected " ++ b_of "token ") in H. rewrite <- app_assoc in H.
    apply app_inv_head in H. eapply (tok_no_word t (b_of "token ")); [exact He|cbn; tauto|exact H].
  - apply app_inv_head in H. apply tok_app in H as [-> H]; [|assumption..]. apply (app_inv_head [97; 116; 32]) in H.
    apply offset_inj in H as ->. constructor.
  - exfalso. change (b_of "unexpected token ") with (b_of "unexpected " ++ b_of "token ") in H. rewrite <- app_assoc in H.
    apply app_inv_head in H. eapply (tok_no_word t (b_of "token ")); [exact He|cbn; tauto|exact H].
  - exfalso. change (b_of "unexpected token ") with (b_of "unexpected " ++ b_of "token ") in H. rewrite <- app_assoc in H.
    apply app_inv_head in H. eapply (tok_no_word t (b_of "token ")); [exact He|cbn; tauto|exact H].
  - exfalso. apply app_inv_head in H. symmetry in H. eapply lexeme_not_space; [apply He'|exact He|exact H].
  - exfalso. change (b_of "unexpected token ") with (b_of "unexpected " ++ b_of "token ") in H. rewrite <- app_assoc in H.
    apply app_inv_head in H. symmetry in H. eapply (tok_no_word t0 (b_of "token ")); [exact He'|cbn; tauto|exact H].
  - apply app_inv_head in H. apply tok_app in H as [-> H]; [|assumption..]. apply (app_inv_head [97; 116; 32]) in H.
    apply offset_inj in H as ->. constructor.
  - exfalso. apply app_inv_head in H. apply tok_app in H as [_ H]; [|assumption..]. discriminate H.
  - cbn [In] in He, He'. destruct He as [<-|[<-|[<-|[]]]], He' as [<-|[<-|[<-|[]]]]; first [constructor|discriminate H].
  - apply app_inv_head in H. apply offset_app in H as [-> H]; [|cbn; lia..].
    apply app_inv_head, tok_inj in H as ->; [constructor|assumption..].
  - apply app_inv_head, op_inj in H as ->; [constructor|assumption..].
  - exfalso. apply app_inv_head in H. symmetry in H. eapply lexeme_not_space; [apply He'|exact He|exact H].
  - exfalso. change (b_of "unexpected token ") with (b_of "unexpected " ++ b_of "token ") in H. rewrite <- app_assoc in H.
    apply app_inv_head in H. symmetry in H. eapply (tok_no_word t0 (b_of "token ")); [exact He'|cbn; tauto|exact H].
  - exfalso. apply app_inv_head in H. apply tok_app in H as [_ H]; [|assumption..]. discriminate H.
  - apply app_inv_head in H. apply tok_app in H as [-> _]; [|assumption..]. constructor.
  - unfold offset_String in H. change (b_of " at ") with [32; 97; 116; 32] in H. change (b_of "offset ") with ([111; 102; 102; 115; 101; 116] ++ [32]) in H.
    assert (Q : forall x d, x ++ [32; 97; 116; 32] ++ ([111; 102; 102; 115; 101; 116] ++ [32]) ++ d =
      (x ++ [32; 97; 116; 32; 111; 102; 102; 115; 101; 116]) ++ 32 :: d) by (intros; rewrite <- !app_assoc; reflexivity).
    rewrite !Q in H. apply after_last_space in H as [_ H]; [|apply sprint_int_solid..]. apply sprint_int_inj in H as ->. constructor.
Qed.
End texts.

Lemma message_cause : forall F G TX,
  (forall a b f g, o_parse_float TX a = Some f -> o_parse_float TX b = Some g -> pr_float F f = pr_float F g -> f = g) ->
  (forall p, exists x, mg_regexp G p = b_of "error parsing regexp: " ++ x) ->
  forall s s' e e', is_bytes s -> is_bytes s' -> reason TX s e -> reason TX s' e' ->
  perr_Error F G e = perr_Error F G e' -> same_cause e e'.
Proof.
  intros F G TX HF HG s s' e e' Hs Hs' He He' H.
  apply (texts_apart F G TX HF HG); [eapply reason_sayable; [exact Hs|exact He]|eapply reason_sayable; [exact Hs'|exact He']|exact H].
Qed.

Lemma parse_cause : forall F G TX s s' e e', plain_texts F G TX -> is_bytes s -> is_bytes s' ->
  ParsePath TX s = Fail e \/ ParseScriptExpression TX s = Fail e ->
  ParsePath TX s' = Fail e' \/ ParseScriptExpression TX s' = Fail e' ->
  perr_Error F G e = perr_Error F G e' -> same_cause e e'.
Proof.
  intros F G TX s s' e e' [HF HG] Hs Hs' He He' H.
  eapply message_cause; [exact HF|exact HG|exact Hs|exact Hs'| | |exact H].
  - destruct He as [He|He]; [eapply path_why|eapply script_why]; eassumption.
  - destruct He' as [He'|He']; [eapply path_why|eapply script_why]; eassumption.
Qed.

Lemma compile_cause : forall F G TX s s' e e', plain_texts F G TX -> is_bytes s -> is_bytes s' ->
  JP_Compile TX s = Fail e -> JP_Compile TX s' = Fail e' -> api_Error F G e = api_Error F G e' ->
  match e, e' with AParse a, AParse b => same_cause a b | ACompile a, ACompile b => a = b | _, _ => False end.
Proof.
  intros F G TX s s' e e' HP Hs Hs' He He' H. unfold JP_Compile in He, He'.
  assert (N : forall s e, is_bytes s -> ParsePath TX s = Fail e -> perr_Error F G e = b_of "program has too many values" -> False).
  { intros s0 e0 B K E. apply path_why in K; [|exact B].
    assert (S : sayable TX e0) by (eapply reason_sayable; [exact B|exact K]). destruct HP as [_ HG].
    destruct e0; try discriminate E; try (exfalso; exact S).
    - cbn in S. destruct S as [<-|[<-|[<-|[]]]]; discriminate E.
    - cbn [perr_Error] in E. destruct (HG s1) as (x & Ex). rewrite Ex in E. discriminate E. }
  assert (I : forall s e, is_bytes s -> match ParsePath TX s with
    | OK p => match Compile p with OK g => OK (mkJP s g) | Fail e => Fail (ACompile e) | Panics => Panics | OutOfFuel => OutOfFuel end
    | Fail e => Fail (AParse e) | Panics => Panics | OutOfFuel => OutOfFuel end = Fail e ->
    (exists a, e = AParse a /\ ParsePath TX s = Fail a) \/ (exists a, e = ACompile a)).
  { intros s0 e0 B K. destruct (ParsePath TX s0) as [p|a| |] eqn:Ep; try discriminate K.
    - destruct (Compile p); try discriminate K. injection K as <-. eauto.
    - injection K as <-. eauto. }
  destruct (I _ _ Hs He) as [(a & -> & Ha)|(a & ->)], (I _ _ Hs' He') as [(b & -> & Hb)|(b & ->)]; cbn [api_Error] in H.
  - eapply parse_cause; [exact HP|exact Hs|exact Hs'|left; exact Ha|left; exact Hb|exact H].
  - destruct b. exact (N _ _ Hs Ha H).
  - destruct a. symmetry in H. exact (N _ _ Hs' Hb H).
  - destruct a, b. reflexivity.
Qed.
