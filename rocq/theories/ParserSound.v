(** The expression parser accepts only texts of the grammar, never panics, and its fuel
    suffices. *)
From Verif Require Import SpecGrammar Lexer Parser LexProofs LexProofs2 LexProofs3 LexProofs4 ParserProofs.
Local Open Scope Z_scope.

Section sound.
Variable TX : textoracles.
Notation etk := (etok (o_parse_float TX) true).
Notation gx := (g_expr (o_parse_float TX) (o_re_ok TX) true).
Notation gu := (g_unary (o_parse_float TX) (o_re_ok TX) true).
Notation gp := (g_postfix (o_parse_float TX) (o_re_ok TX) true).
Notation ga := (g_atom (o_parse_float TX) (o_re_ok TX) true).
Notation gl := (g_list (o_parse_float TX) (o_re_ok TX) true).
Notation gi := (g_items (o_parse_float TX) (o_re_ok TX) true).
Notation at_ := (atE TX).
Notation reads := (readE TX).

(** the operator after a complete operand *)
Lemma read_binary : forall s lx l, reads s lx l -> 0 <= precedence (tok2op (lx_tok lx)) ->
  seen lx = lx_tok lx ->
  exists k, precedence (tok2op (lx_tok lx)) = Z.of_nat k /\ (k <= 5)%nat /\ lx_err lx = None /\
    binary_op (o_parse_float TX) true s (tok2op (lx_tok lx)) k (rest l).
Proof.
  intros s lx l H Hp Hs. apply read_cases in H. destruct H as [(e & -> & _)|H H'|t -> H| -> H| -> H].
  - simpl in Hp. lia.
  - destruct H as [->|[->| ->]]; simpl in Hp; lia.
  - destruct t as [p|v|z|f|nm|]; try (simpl in Hp; lia).
    pose proof (etok_punct_in _ _ _ _ _ H) as Hin. unfold expr_puncts in Hin. simpl in Hin.
    repeat (destruct Hin as [<-|Hin];
      [first [exfalso; simpl in Hp; lia
             |match goal with |- exists k, precedence ?o = _ /\ _ =>
                let z := eval compute in (Z.to_nat (precedence o)) in exists z end;
              split; [reflexivity|]; split; [lia|]; split; [reflexivity|];
              eapply BinPunct; [|exact H]; simpl; in_list]|]).
    destruct Hin.
  - exists 3%nat. repeat split; [lia|]. apply BinIn. assumption.
  - exists 3%nat. repeat split; [lia|]. apply BinNin. assumption.
Qed.

Lemma g_expr_up : forall j s e r, gx j s e r -> (j <= 6)%nat -> forall k, (k <= j)%nat -> gx k s e r.
Proof.
  intros j s e r H Hj k Hk. induction j as [|j IH].
  - assert (k = 0)%nat by lia. subst. assumption.
  - destruct (Nat.eq_dec k (S j)) as [->|]; [assumption|].
    apply IH; try lia. apply GUp; [lia|assumption].
Qed.


(** the closing brackets that are expected *)
Lemma expect_ok : forall l s c, at_ l s -> c <> 38 -> c <> 124 -> c <> 61 ->
  match p_expect (lexExpr TX l) (TChar c) with
  | OK l' => at_ l' (rest l') /\ etk s (GPunct [c]) (rest l') /\ (length (rest l') < length s)%nat
  | Fail e => clean e
  | _ => False
  end.
Proof.
  intros l s c H N1 N2 N3. destruct (lexExpr_at _ _ _ H) as (lx & l' & E & Hr). rewrite E.
  unfold p_expect. pose proof (read_cases _ _ _ _ Hr) as Hc.
  destruct (lx_err lx) as [er|] eqn:Ee.
  - destruct Hc as [(e & -> & He)|H1 H2|t -> H1| -> H1| -> H1]; try discriminate.
    + injection Ee as <-. simpl. destruct e; simpl in *; auto.
    + destruct H1 as [->|[->| ->]]; discriminate.
    + destruct t; discriminate.
  - destruct (tok_eqb (lx_tok lx) (TChar c)) eqn:Et; [|exact I].
    assert (Ht : lx_tok lx = TChar c).
    { destruct (lx_tok lx); simpl in Et; try discriminate. apply Z.eqb_eq in Et. congruence. }
    assert (Hne : lx_tok lx <> TEOF) by congruence.
    pose proof (read_at _ _ _ _ Hr Ee) as Hra. pose proof (read_len _ _ _ _ Hr Ee Hne) as Hrl.
    split; [assumption|]. split; [|assumption].
    destruct Hc as [(e & -> & He)|H1 H2|t -> H1| -> H1| -> H1]; try discriminate.
    + exfalso. destruct H1 as [->|[->| ->]]; simpl in Ht; congruence.
    + apply lexeme_char in Ht. subst t. assumption.
Qed.

(** a looked-at token, consumed *)
Lemma look_cases : forall l s, at_ l s -> exists lx l', reads s lx l' /\
  lookExpr TX l = OK (seen lx, mkLexer (l_rd l') (Some lx)) /\
  lookExpr TX (mkLexer (l_rd l') (Some lx)) = OK (seen lx, mkLexer (l_rd l') (Some lx)) /\
  at_ (mkLexer (l_rd l') (Some lx)) s /\
  lexExpr TX (mkLexer (l_rd l') (Some lx)) = (lx, l') /\
  forall c, seen lx = TChar c ->
    lx_err lx = None /\ at_ l' (rest l') /\ (length (rest l') < length s)%nat /\
    (c <> 38 -> c <> 124 -> c <> 61 -> etk s (GPunct [c]) (rest l')).
Proof.
  intros l s H. destruct (lookExpr_at _ _ _ H) as (lx & l' & Hr & E).
  exists lx, l'. destruct (read_peek _ _ _ _ Hr) as (P0 & P1 & P2).
  split; [assumption|]. split; [assumption|].
  split. { unfold lookExpr. rewrite P2. unfold p_look. rewrite P0. reflexivity. }
  split; [assumption|]. split; [assumption|].
  intros c Hc0. unfold seen in Hc0. destruct (lx_err lx) eqn:Ee; [discriminate|].
  split; [reflexivity|]. split; [eapply read_at; eauto|].
  split; [eapply read_len; eauto; congruence|].
  intros N1 N2 N3. pose proof (read_cases _ _ _ _ Hr) as Hc.
  destruct Hc as [(e & -> & He)|H1 H2|t -> H1| -> H1| -> H1]; try discriminate.
  - exfalso. destruct H1 as [->|[->| ->]]; simpl in Hc0; congruence.
  - apply lexeme_char in Hc0. subst t. assumption.
Qed.

(** every operator after the state binds no tighter than j / less tightly than j *)
Definition next_le (j : nat) (l : lexer) : Prop :=
  forall t l', lookOp TX l = OK (t, l') -> precedence (tok2op t) <= Z.of_nat j.
Definition next_lt (j : nat) (l : lexer) : Prop :=
  forall t l', lookOp TX l = OK (t, l') -> precedence (tok2op t) < Z.of_nat j.

Lemma next_le_6 : forall l, next_le 6 l.
Proof.
  intros l t l' _. destruct t as [c| | | | | | | | | | | | | | | | | |]; simpl; try lia.
  repeat match goal with |- context [if ?b then _ else _] => destruct b; try (simpl; lia) end.
Qed.

Notation len s := (Datatypes.length s).

Definition fits {A} (n : nat) (s : bytes) (k : nat) (res : P A) (Q : A -> lexer -> Prop) : Prop :=
  match res with
  | OK (x, l') => Q x l'
  | Fail e => clean e
  | Panics => False
  | OutOfFuel => (n < 8 * len s + k)%nat
  end.

Lemma fits_bind : forall A B n s k n' s' k' (m : P A) (f : A * lexer -> P B) Q R,
  fits n' s' k' m Q ->
  ((n' < 8 * len s' + k')%nat -> (n < 8 * len s + k)%nat) ->
  (forall x l', Q x l' -> fits n s k (f (x, l')) R) ->
  fits n s k (obind m f) R.
Proof.
  intros A B n s k n' s' k' m f Q R Hm Hlt Hf. destruct m as [[x l']|e| |]; simpl in *; auto.
Qed.

(** one step of each parsing function *)
Lemma p_expr_S : forall (n : nat) (pri : Z) (l : lexer), p_expr TX (S n) pri l =
    let! (e, l1) := p_primary TX n l in
    p_expr_loop TX n pri e l1.
Proof. reflexivity. Qed.

Lemma p_expr_loop_S : forall (n : nat) (pri : Z) (e : expr) (l : lexer), p_expr_loop TX (S n) pri e l =
    let! (t, l1) := lookOp TX l in
    if precedence (tok2op t) >=? pri then
      let! (lx, l2) := lexOp TX l1 in
      match lx_err lx with
      | Some er => Fail er
      | None =>
        let o := tok2op (lx_tok lx) in
        let! (rhs, l3) := p_expr TX n (precedence o + associativity o) l2 in
        p_expr_loop TX n pri (EInner o [e; rhs]) l3
      end
    else OK (e, l1).
Proof. reflexivity. Qed.

Lemma p_unary_S : forall (n : nat) (o : op) (l : lexer), p_unary TX (S n) o l =
    let! (arg, l1) := p_primary TX n l in
    OK (EInner o [arg], l1).
Proof. reflexivity. Qed.

Lemma p_primary_S : forall (n : nat) (l : lexer), p_primary TX (S n) l =
    let! (e, l1) := p_primary1 TX n l in
    p_primary_loop TX n e l1.
Proof. reflexivity. Qed.

Lemma p_primary_loop_S : forall (n : nat) (e : expr) (l : lexer), p_primary_loop TX (S n) e l =
    let! (t, l1) := lookExpr TX l in
    match t with
    | TChar c =>
      if c =? 40 then
        if negb (op_beq (opcode e) OpID) then Fail (ENotCallable (opcode e))
        else
          let l2 := advanceExpr TX l1 in
          let! (e', l3) := p_application TX n OpCall (TChar 41) [e] l2 in
          p_primary_loop TX n e' l3
      else if c =? 91 then
        let l2 := advanceExpr TX l1 in
        let! (ix, l3) := p_expr TX n 0 l2 in
        let! l4 := p_expect (lexExpr TX l3) (TChar 93) in
        p_primary_loop TX n (EInner OpIndex [e; ix]) l4
      else if c =? 46 then
        let l2 := advanceExpr TX l1 in
        let (lx, l3) := lexExpr TX l2 in
        match lx_err lx with
        | Some er => Fail er
        | None =>
          if negb (tok_eqb (lx_tok lx) TID) then Fail ENoSelId
          else
            let! s := lx_s lx in
            p_primary_loop TX n (EInner OpDot [e; EName s]) l3
        end
      else OK (e, l1)
    | _ => OK (e, l1)
    end.
Proof. reflexivity. Qed.

Lemma p_application_S : forall (n : nat) (o : op) (end_ : token) (args : list expr) (l : lexer), p_application TX (S n) o end_ args l =
    let! (t, l1) := lookExpr TX l in
    let! (args', l2) :=
      if negb (tok_eqb t end_) then p_exprlist TX n args l1 else OK (args, l1) in
    let! l3 := p_expect (lexExpr TX l2) end_ in
    OK (EInner o args', l3).
Proof. reflexivity. Qed.

Lemma p_exprlist_S : forall (n : nat) (list_ : list expr) (l : lexer), p_exprlist TX (S n) list_ l =
    let! (e, l1) := p_expr TX n 0 l in
    let list_' := list_ ++ [e] in
    let! (t, l2) := lookExpr TX l1 in
    if negb (tok_eqb t (TChar 44)) then OK (list_', l2)
    else p_exprlist TX n list_' (advanceExpr TX l2).
Proof. reflexivity. Qed.

Lemma p_primary1_S : forall (n : nat) (l : lexer), p_primary1 TX (S n) l =
    let (lx, l1) := lexExpr TX l in
    match lx_err lx with
    | Some er => Fail er
    | None =>
      match lx_tok lx with
      | TChar c =>
        if c =? 45 then p_unary TX n OpNeg l1
        else if c =? 33 then p_unary TX n OpNot l1
        else if c =? 47 then
          let (lr, l2) := lexRegexp 47 l1 in
          match lx_err lr with
          | Some er => Fail er
          | None =>
            let! s := lx_s lr in
            if o_re_ok TX s then OK (ERegexp s, l2)
            else Fail (ERegexpSyntax s (l_offset l1))
          end
        else if c =? 64 then OK (ECurrent, l1)
        else if c =? 36 then OK (ERoot, l1)
        else if c =? 40 then
          let! (e, l2) := p_expr TX n 0 l1 in
          let! l3 := p_expect (lexExpr TX l2) (TChar 41) in
          OK (e, l3)
        else if c =? 91 then p_application TX n OpArray (TChar 93) [] l1
        else Fail (ETerm (TChar c))
      | TID =>
        let! s := lx_s lx in
        if beqb s kw_true then OK (EBool true, l1)
        else if beqb s kw_false then OK (EBool false, l1)
        else if beqb s kw_null then OK (ENull, l1)
        else OK (EName s, l1)
      | TInt => let! z := lx_i lx in OK (EInt z, l1)
      | TReal => let! f := lx_f lx in OK (EFloat f, l1)
      | TString => let! s := lx_s lx in OK (EStr s, l1)
      | t => Fail (ETerm t)
      end
    end.
Proof. reflexivity. Qed.

(** the text of a closing bracket *)
Definition close (c : Z) : string := (if c =? 41 then ")"%string else "]"%string).

(** the next token does not extend a primary *)
Definition nopost (l : lexer) : Prop :=
  forall t l', lookExpr TX l = OK (t, l') -> t <> TChar 40 /\ t <> TChar 91 /\ t <> TChar 46.

Record sound (n : nat) : Prop := {
  snd_expr : forall k l s, at_ l s -> (k <= 6)%nat ->
    fits n s 3 (p_expr TX n (Z.of_nat k) l) (fun e l' =>
      exists r, at_ l' r /\ (len r < len s)%nat /\ gx k s e r /\ next_lt k l');
  snd_loop : forall k l s m e j, at_ l m -> gx j s e m -> (k <= j <= 6)%nat -> next_le j l ->
    fits n m 1 (p_expr_loop TX n (Z.of_nat k) e l) (fun e l' =>
      exists r, at_ l' r /\ (len r <= len m)%nat /\ gx k s e r /\ next_lt k l');
  snd_unary : forall o l s, at_ l s ->
    fits n s 3 (p_unary TX n o l) (fun e l' =>
      exists a r, e = EInner o [a] /\ at_ l' r /\ (len r < len s)%nat /\ gu s a r /\ nopost l');
  snd_primary : forall l s, at_ l s ->
    fits n s 2 (p_primary TX n l) (fun e l' =>
      exists r, at_ l' r /\ (len r < len s)%nat /\ gu s e r /\ nopost l');
  snd_ploop : forall l s m e, at_ l m -> gp s e m \/ (gu s e m /\ nopost l) ->
    fits n m 1 (p_primary_loop TX n e l) (fun e l' =>
      exists r, at_ l' r /\ (len r <= len m)%nat /\ gu s e r /\ nopost l');
  snd_app : forall o c args l s, at_ l s -> c = 41 \/ c = 93 ->
    fits n s 5 (p_application TX n o (TChar c) args l) (fun e l' =>
      exists r kids, at_ l' r /\ (len r < len s)%nat /\ e = EInner o (args ++ kids) /\
        gl (close c) s kids r);
  snd_list : forall args l s, at_ l s ->
    fits n s 4 (p_exprlist TX n args l) (fun es l' =>
      exists r kids, at_ l' r /\ (len r < len s)%nat /\ es = args ++ kids /\ gi s kids r);
  snd_primary1 : forall l s, at_ l s ->
    fits n s 1 (p_primary1 TX n l) (fun e l' =>
      exists r, at_ l' r /\ (len r < len s)%nat /\ (ga s e r \/ (gu s e r /\ nopost l')))
}.

Lemma at_closed : forall c, c = 41 \/ c = 93 ->
  b_of (close c) = [c].
Proof. intros c [->| ->]; reflexivity. Qed.

Lemma bin_precedence : forall s o k r, binary_op (o_parse_float TX) true s o k r ->
  precedence o = Z.of_nat k /\ (k <= 5)%nat.
Proof.
  intros s o k r H. destruct H as [s p o k r Hin _| |]; [|simpl; lia|simpl; lia].
  simpl in Hin. repeat (destruct Hin as [Hin|Hin]; [injection Hin as <- <- <-; simpl; lia|]). destruct Hin.
Qed.

Definition named (e : expr) : Prop := opcode e = OpID -> exists f, e = EName f.

Lemma g_named : (forall k s e r, gx k s e r -> named e) /\ (forall s e r, gu s e r -> named e) /\
  (forall s e r, gp s e r -> named e) /\ (forall s e r, ga s e r -> named e) /\
  (forall c s l r, gl c s l r -> True) /\ (forall s l r, gi s l r -> True).
Proof.
  apply g_expr_mutind; auto; intros; try (intro X; discriminate X).
  - intro X. simpl in X. subst o. apply bin_precedence in H1. simpl in H1. lia.
  - unfold name_expr. destruct (beqb _ _); [intro X; discriminate X|].
    destruct (beqb _ _); [intro X; discriminate X|]. destruct (beqb _ _); [intro X; discriminate X|].
    intro. eauto.
Qed.

Lemma sound_all : forall n, sound n.
Proof.
  induction n as [|n IH].
  { constructor; intros; simpl; lia. }
  constructor.
  - (* expr *)
    intros k l s H Hk. rewrite p_expr_S.
    eapply fits_bind; [apply (snd_primary n IH); eassumption|lia|cbv beta iota].
    intros e l1 (r & A1 & A2 & A3 & A4).
    pose proof (snd_loop n IH k l1 s r e 6%nat A1 (GUnary _ _ _ _ _ _ A3) ltac:(lia) (next_le_6 l1)) as L.
    destruct (p_expr_loop TX n (Z.of_nat k) e l1) as [[e' l']|er| |]; simpl in *; auto; [|lia].
    destruct L as (r' & L1 & L2 & L3 & L4). exists r'. split; [exact L1|split; [lia|split; [exact L3|exact L4]]].
  - (* expr loop *)
    intros k l s m e j H Hg Hk Hnext. rewrite p_expr_loop_S.
    destruct (lookOp_at _ _ _ H) as (lx & l' & Hr & Hlook & Hlex & Hlook2 & Hseen).
    rewrite Hlook. cbn [obind].
    destruct (read_peek _ _ _ _ Hr) as (_ & P1 & P2).
    destruct (Z.geb_spec (precedence (tok2op (lx_tok lx))) (Z.of_nat k)) as [Hge|Hlt].
    + rewrite Hlex. cbn [obind].
      destruct (read_binary _ _ _ Hr ltac:(lia) Hseen) as (k' & Hk' & Hk5 & Herr & Hbin).
      rewrite Herr. pose proof (Hnext _ _ Hlook) as Hle.
      assert (Hkj : (k <= k' <= j)%nat) by lia.
      unfold associativity. rewrite Hk'. replace (Z.of_nat k' + 1) with (Z.of_nat (S k')) by lia.
      assert (Hlen : (len (rest l') < len m)%nat).
      { apply (read_len _ _ _ _ Hr Herr). intro E. rewrite E in Hk'. simpl in Hk'. lia. }
      eapply fits_bind; [apply (snd_expr n IH (S k') l' (rest l')); [eapply read_at; eauto|lia]|lia|cbv beta iota].
      intros rhs l3 (r3 & B1 & B2 & B3 & B4).
      assert (G : gx k' s (EInner (tok2op (lx_tok lx)) [e; rhs]) r3).
      { eapply GBin; [|exact Hbin|exact B3]. eapply g_expr_up; eauto; lia. }
      pose proof (snd_loop n IH k l3 s r3 _ k' B1 G ltac:(lia)) as L.
      assert (Hn' : next_le k' l3).
      { intros t l1 E. apply B4 in E. lia. }
      specialize (L Hn').
      destruct (p_expr_loop TX n (Z.of_nat k) _ l3) as [[e' l1]|er| |]; simpl in *; auto; [|lia].
      destruct L as (r' & L1 & L2 & L3 & L4). exists r'. split; [exact L1|split; [lia|split; [exact L3|exact L4]]].
    + simpl. exists m. split; [assumption|]. split; [lia|]. split; [eapply g_expr_up; eauto; lia|].
      intros t l1 E. rewrite Hlook2 in E. injection E as <- _. assumption.
  - (* unary *)
    intros o l s H. rewrite p_unary_S.
    eapply fits_bind; [apply (snd_primary n IH); eassumption|lia|cbv beta iota].
    intros e l1 (r & A1 & A2 & A3 & A4). simpl. exists e, r. auto.
  - (* primary *)
    intros l s H. rewrite p_primary_S.
    eapply fits_bind; [apply (snd_primary1 n IH); eassumption|lia|cbv beta iota].
    intros e l1 (r & A1 & A2 & A3).
    assert (A3' : gp s e r \/ (gu s e r /\ nopost l1)).
    { destruct A3 as [A3|A3]; [left; apply GAtom; assumption|right; assumption]. }
    pose proof (snd_ploop n IH l1 s r e A1 A3') as L.
    destruct (p_primary_loop TX n e l1) as [[e' l']|er| |]; simpl in *; auto; [|lia].
    destruct L as (r' & L1 & L2 & L3 & L4). exists r'. split; [exact L1|split; [lia|split; [exact L3|exact L4]]].
  - (* primary loop *)
    intros l s m e H Hg. rewrite p_primary_loop_S.
    destruct (look_cases _ _ H) as (lx & l' & Hr & Hlook & Hlook2 & P1 & P2 & Hc).
    rewrite Hlook. cbn [obind].
    assert (Hstop : seen lx <> TChar 40 -> seen lx <> TChar 91 -> seen lx <> TChar 46 ->
      fits (S n) m 1 (OK (e, mkLexer (l_rd l') (Some lx))) (fun e l' =>
        exists r, at_ l' r /\ (len r <= len m)%nat /\ gu s e r /\ nopost l')).
    { intros S1 S2 S3. simpl. exists m. split; [assumption|]. split; [lia|].
      split; [destruct Hg as [Hg|[Hg _]]; [apply GPost|]; assumption|].
      intros t l1 E. rewrite Hlook2 in E. injection E as <- _. auto. }
    destruct (seen lx) as [c| | | | | | | | | | | | | | | | | |] eqn:Es; try (apply Hstop; discriminate).
    destruct (Hc c eq_refl) as (He & Hat & Hlen & Htok).
    assert (Hgp : c = 40 \/ c = 91 \/ c = 46 -> gp s e m).
    { intro Hcc. destruct Hg as [Hg|[_ Hno]]; [assumption|]. exfalso. apply Hno in Hlook.
      destruct Hlook as (X1 & X2 & X3). destruct Hcc as [->|[->| ->]]; congruence. }
    unfold advanceExpr. rewrite P2. cbn [snd].
    destruct (Z.eqb_spec c 40) as [->|N40].
    { destruct (op_beq (opcode e) OpID) eqn:Eo; cbn [negb]; [|exact I].
      assert (Hid : exists f, e = EName f).
      { apply (proj1 (proj2 (proj2 g_named)) _ _ _ (Hgp (or_introl eq_refl))).
        destruct (opcode e); simpl in Eo; try discriminate. reflexivity. }
      destruct Hid as [f ->].
      eapply fits_bind; [apply (snd_app n IH OpCall 41 [EName f] l' (rest l')); auto|lia|cbv beta iota].
      intros e' l3 (r3 & kids & B1 & B2 & B3 & B4). subst e'. cbn [app].
      assert (G : gp s (EInner OpCall (EName f :: kids)) r3).
      { eapply GCall; [apply Hgp; auto| |exact B4]. apply Htok; discriminate. }
      pose proof (snd_ploop n IH l3 s r3 _ B1 (or_introl G)) as L.
      destruct (p_primary_loop TX n _ l3) as [[e' l1]|er| |]; simpl in *; auto; [|lia].
      destruct L as (r' & L1 & L2 & L3 & L4). exists r'. split; [exact L1|split; [lia|split; [exact L3|exact L4]]]. }
    destruct (Z.eqb_spec c 91) as [->|N91].
    { eapply fits_bind; [apply (snd_expr n IH 0%nat l' (rest l')); [assumption|lia]|lia|cbv beta iota].
      intros ix l3 (r3 & B1 & B2 & B3 & B4).
      pose proof (expect_ok l3 r3 93 B1 ltac:(discriminate) ltac:(discriminate) ltac:(discriminate)) as X.
      destruct (p_expect (lexExpr TX l3) (TChar 93)) as [l4|er| |]; simpl in *; auto; try contradiction.
      destruct X as (X1 & X2 & X3).
      assert (G : gp s (EInner OpIndex [e; ix]) (rest l4)).
      { eapply GIndex; [apply Hgp; auto| |exact B3|exact X2]. apply Htok; discriminate. }
      pose proof (snd_ploop n IH l4 s (rest l4) _ X1 (or_introl G)) as L.
      destruct (p_primary_loop TX n _ l4) as [[e' l1]|er| |]; simpl in *; auto; [|lia].
      destruct L as (r' & L1 & L2 & L3 & L4). exists r'. split; [exact L1|split; [lia|split; [exact L3|exact L4]]]. }
    destruct (Z.eqb_spec c 46) as [->|N46].
    { destruct (lexExpr_at _ _ _ Hat) as (lx2 & l3 & E3 & Hr3). rewrite E3.
      pose proof (read_cases _ _ _ _ Hr3) as Hc3.
      destruct (lx_err lx2) as [er|] eqn:Ee.
      - destruct Hc3 as [(e2 & -> & He2)|H1 H2|t -> H1| -> H1| -> H1]; try discriminate.
        + injection Ee as <-. simpl. assumption.
        + destruct H1 as [->|[->| ->]]; discriminate.
        + destruct t; discriminate.
      - destruct (tok_eqb (lx_tok lx2) TID) eqn:Et; cbn [negb]; [|exact I].
        assert (Ht : lx_tok lx2 = TID) by (destruct (lx_tok lx2); simpl in Et; congruence).
        assert (Hnm : exists nm, lx_val lx2 = LStr nm /\ etk (rest l') (GName nm) (rest l3)).
        { destruct (read_val _ _ _ _ Hr3 Ht) as [v Hv].
          destruct Hc3 as [(e2 & -> & He2)|H1 H2|t -> H1| -> H1| -> H1]; try discriminate.
          - destruct H1 as [->|[->| ->]]; discriminate.
          - destruct t as [p|x|z|f|nm|]; try discriminate. exists nm. split; [reflexivity|assumption]. }
        destruct Hnm as (nm & Hv & Hnm). unfold lx_s. rewrite Hv. cbn [obind].
        assert (Hl3 : (len (rest l3) < len (rest l'))%nat).
        { eapply read_len; eauto. congruence. }
        assert (G : gp s (EInner OpDot [e; EName nm]) (rest l3)).
        { eapply GDot; [apply Hgp; auto| |exact Hnm]. apply Htok; discriminate. }
        pose proof (snd_ploop n IH l3 s (rest l3) _ (read_at _ _ _ _ Hr3 Ee) (or_introl G)) as L.
        destruct (p_primary_loop TX n _ l3) as [[e' l1]|er| |]; simpl in *; auto; [|lia].
        destruct L as (r' & L1 & L2 & L3 & L4). exists r'. split; [exact L1|split; [lia|split; [exact L3|exact L4]]]. }
    apply Hstop; congruence.
  - (* application *)
    intros o c args l s H Hc. rewrite p_application_S.
    destruct (look_cases _ _ H) as (lx & l' & Hr & Hlook & Hlook2 & P1 & P2 & Hcs).
    rewrite Hlook. cbn [obind].
    assert (N : c <> 38 /\ c <> 124 /\ c <> 61) by lia. destruct N as (N1 & N2 & N3).
    destruct (tok_eqb (seen lx) (TChar c)) eqn:Et; cbn [negb].
    + cbn [obind].
      pose proof (expect_ok _ s c P1 N1 N2 N3) as X.
      destruct (p_expect (lexExpr TX (mkLexer (l_rd l') (Some lx))) (TChar c)) as [l4|er| |]; simpl in *; auto; try contradiction.
      destruct X as (X1 & X2 & X3). exists (rest l4), []. rewrite app_nil_r.
      split; [exact X1|]. split; [exact X3|]. split; [reflexivity|].
      apply GListNil. unfold punct. rewrite (at_closed c Hc). assumption.
    + eapply fits_bind; [apply (snd_list n IH args _ s P1)|lia|cbv beta iota].
      intros es l2 (r2 & kids & B1 & B2 & B3 & B4).
      pose proof (expect_ok _ r2 c B1 N1 N2 N3) as X.
      destruct (p_expect (lexExpr TX l2) (TChar c)) as [l4|er| |]; simpl in *; auto; try contradiction.
      destruct X as (X1 & X2 & X3). exists (rest l4), kids.
      split; [exact X1|]. split; [lia|]. split; [congruence|].
      eapply GListCons; [exact B4|]. unfold punct. rewrite (at_closed c Hc). assumption.
  - (* expression list *)
    intros args l s H. rewrite p_exprlist_S.
    eapply fits_bind; [apply (snd_expr n IH 0%nat l s H ltac:(lia))|lia|cbv beta iota].
    intros e l1 (r1 & B1 & B2 & B3 & B4).
    destruct (look_cases _ _ B1) as (lx & l' & Hr & Hlook & Hlook2 & P1 & P2 & Hcs).
    rewrite Hlook. cbn [obind].
    destruct (tok_eqb (seen lx) (TChar 44)) eqn:Et; cbn [negb].
    + assert (Hs : seen lx = TChar 44).
      { destruct (seen lx); simpl in Et; try discriminate. apply Z.eqb_eq in Et. congruence. }
      destruct (Hcs 44 Hs) as (He & Hat & Hlen & Htok).
      unfold advanceExpr. rewrite P2. cbn [snd].
      pose proof (snd_list n IH (args ++ [e]) l' (rest l') Hat) as L.
      destruct (p_exprlist TX n (args ++ [e]) l') as [[es l2]|er| |]; simpl in *; auto; [|lia].
      destruct L as (r & kids & L1 & L2 & L3 & L4). exists r, (e :: kids).
      split; [exact L1|]. split; [lia|]. split; [rewrite L3, <- app_assoc; reflexivity|].
      eapply GItemsMore; [exact B3| |exact L4]. apply Htok; discriminate.
    + simpl. exists r1, [e]. split; [exact P1|]. split; [lia|]. split; [reflexivity|].
      apply GItemsOne. assumption.
  - (* primary1 *)
    intros l s H. rewrite p_primary1_S.
    destruct (lexExpr_at _ _ _ H) as (lx & l' & E & Hr). rewrite E.
    pose proof (read_cases _ _ _ _ Hr) as Hc.
    destruct (lx_err lx) as [er|] eqn:Ee.
    { destruct Hc as [(e2 & -> & He2)|H1 H2|t -> H1| -> H1| -> H1]; try discriminate.
      - injection Ee as <-. simpl. assumption.
      - destruct H1 as [->|[->| ->]]; discriminate.
      - destruct t; discriminate. }
    pose proof (read_at _ _ _ _ Hr Ee) as Hat.
    assert (Hlen : lx_tok lx <> TEOF -> (len (rest l') < len s)%nat)
      by (intro; eapply read_len; eauto).
    destruct Hc as [(e2 & -> & He2)|H1 H2|t -> H1| -> H1| -> H1]; try discriminate.
    + destruct H1 as [->|[->| ->]]; exact I.
    + destruct t as [p|v|z|f|nm|].
      * pose proof (etok_punct_in _ _ _ _ _ H1) as Hin.
        cbn [lexeme_of lex_tok lx_tok]. cbn [lexeme_of lex_tok lx_tok] in Hlen.
        destruct (tok_of p) as [c| | | | | | | | | | | | | | | | | |] eqn:Et; try exact I.
        2-5: exfalso; unfold expr_puncts in Hin; simpl in Hin;
             repeat (destruct Hin as [<-|Hin]; [discriminate Et|]); destruct Hin.
        apply tok_of_char in Et. subst p. specialize (Hlen ltac:(discriminate)).
        destruct (Z.eqb_spec c 45) as [->|].
        { pose proof (snd_unary n IH OpNeg l' (rest l') Hat) as L.
          destruct (p_unary TX n OpNeg l') as [[e l1]|er| |]; simpl in *; auto; [|lia].
          destruct L as (a & r & -> & L1 & L2 & L3 & L4). exists r.
          split; [exact L1|]. split; [lia|]. right. split; [|exact L4]. eapply GNeg; [exact H1|exact L3]. }
        destruct (Z.eqb_spec c 33) as [->|].
        { pose proof (snd_unary n IH OpNot l' (rest l') Hat) as L.
          destruct (p_unary TX n OpNot l') as [[e l1]|er| |]; simpl in *; auto; [|lia].
          destruct L as (a & r & -> & L1 & L2 & L3 & L4). exists r.
          split; [exact L1|]. split; [lia|]. right. split; [|exact L4]. eapply GNot; [exact H1|exact L3]. }
        destruct (Z.eqb_spec c 47) as [->|].
        { unfold lexRegexp.
          destruct (lexRegexp_loop 47 [] (rd_before (l_rd l')) (rd_after (l_rd l'))) as [lr rr] eqn:Er.
          apply (lexRegexp_loop_ok _ _ _ _ _ _ (le_n _)) in Er.
          destruct Er as [(v & ->)|(t & v & T1 & T2 & ->)]; [exact I|].
          cbn [lx_err lx_s lx_val obind app].
          destruct (o_re_ok TX v) eqn:Eo; [|exact I]. simpl. exists (rd_after rr).
          assert (Hp : l_peek l' = None) by apply Hr.
          split. { split; [|left; simpl; auto]. destruct Hat as [Hnn _]. unfold rest in Hnn. rewrite T1 in Hnn.
            apply nonneg_app_r in Hnn. inversion Hnn; assumption. }
          split. { unfold rest in Hlen. rewrite T1 in Hlen. rewrite app_length in Hlen. simpl in Hlen. lia. }
          left. eapply GRegexp; [exact H1|exact T1|exact T2|exact Eo]. }
        destruct (Z.eqb_spec c 64) as [->|].
        { simpl. exists (rest l'). split; [exact Hat|]. split; [lia|]. left. apply GCurrent. exact H1. }
        destruct (Z.eqb_spec c 36) as [->|].
        { simpl. exists (rest l'). split; [exact Hat|]. split; [lia|]. left. apply GRoot. exact H1. }
        destruct (Z.eqb_spec c 40) as [->|].
        { eapply fits_bind; [apply (snd_expr n IH 0%nat l' (rest l') Hat ltac:(lia))|lia|cbv beta iota].
          intros e l2 (r2 & B1 & B2 & B3 & B4).
          pose proof (expect_ok _ r2 41 B1 ltac:(discriminate) ltac:(discriminate) ltac:(discriminate)) as X.
          destruct (p_expect (lexExpr TX l2) (TChar 41)) as [l4|er| |]; simpl in *; auto; try contradiction.
          destruct X as (X1 & X2 & X3). exists (rest l4). split; [exact X1|]. split; [lia|].
          left. eapply GParen; [exact H1|exact B3|exact X2]. }
        destruct (Z.eqb_spec c 91) as [->|].
        { pose proof (snd_app n IH OpArray 93 [] l' (rest l') Hat ltac:(auto)) as L.
          destruct (p_application TX n OpArray (TChar 93) [] l') as [[e l1]|er| |]; simpl in *; auto; [|lia].
          destruct L as (r & kids & L1 & L2 & -> & L4). exists r. split; [exact L1|]. split; [lia|].
          left. eapply GArray; [exact H1|exact L4]. }
        exact I.
      * simpl. exists (rest l'). split; [exact Hat|]. split; [apply Hlen; discriminate|].
        left. apply GStrAtom. exact H1.
      * simpl. exists (rest l'). split; [exact Hat|]. split; [apply Hlen; discriminate|].
        left. apply GIntAtom. exact H1.
      * simpl. exists (rest l'). split; [exact Hat|]. split; [apply Hlen; discriminate|].
        left. apply GRealAtom. exact H1.
      * cbn [lexeme_of lx_tok lx_s lx_val obind].
        pose proof (GNameAtom _ (o_re_ok TX) _ _ _ _ H1) as G. unfold name_expr in G.
        fold kw_true kw_false kw_null in G.
        assert (Hl : (len (rest l') < len s)%nat) by (apply Hlen; discriminate).
        destruct (beqb nm kw_true); [simpl; exists (rest l'); auto|].
        destruct (beqb nm kw_false); [simpl; exists (rest l'); auto|].
        destruct (beqb nm kw_null); simpl; exists (rest l'); auto.
      * exact I.
    + exact I.
    + exact I.
Qed.
End sound.
