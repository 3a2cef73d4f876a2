(** Facts about the grammar itself: the lax and the documented grammar agree except on
    texts ending in an escaped quote, and derived trees are well formed. *)
From Verif Require Import Syntax SpecGrammar SpecSyntax LexProofs LexProofs4.
Local Open Scope Z_scope.

Notation len s := (Datatypes.length s).

(** ** Lengths *)
Section lengths.
Variable tf : bytes -> option f64.
Variable re : bytes -> bool.
Variable lax : bool.

Lemma etk_lt : forall s t r, etok tf lax s t r -> t <> GEnd -> (len r < len s)%nat.
Proof. intros s t r H Ht. apply etok_len in H as [H|H]; [contradiction|assumption]. Qed.
Lemma ptk_lt : forall s t r, ptok lax s t r -> t <> GEnd -> (len r < len s)%nat.
Proof. intros s t r H Ht. apply ptok_len in H as [H|H]; [contradiction|assumption]. Qed.
Lemma bin_lt : forall s o k r, binary_op tf lax s o k r -> (len r < len s)%nat.
Proof. intros s o k r []; eapply etk_lt; eauto; discriminate. Qed.

Lemma g_lt : (forall k s e r, g_expr tf re lax k s e r -> (len r < len s)%nat) /\
  (forall s e r, g_unary tf re lax s e r -> (len r < len s)%nat) /\
  (forall s e r, g_postfix tf re lax s e r -> (len r < len s)%nat) /\
  (forall s e r, g_atom tf re lax s e r -> (len r < len s)%nat) /\
  (forall c s l r, g_list tf re lax c s l r -> (len r < len s)%nat) /\
  (forall s l r, g_items tf re lax s l r -> (len r < len s)%nat).
Proof.
  apply g_expr_mutind; intros; unfold punct in *;
    repeat match goal with
    | K : etok _ _ _ _ _ |- _ => apply etk_lt in K; [|discriminate]
    | K : binary_op _ _ _ _ _ _ |- _ => apply bin_lt in K
    end; try lia.
  subst. rewrite app_length in *. simpl in *. lia.
Qed.
End lengths.

Ltac lens := unfold punct, ppunct in *; repeat match goal with
    | K : ptok _ _ ?t _ |- _ => apply ptk_lt in K; [|discriminate]
    | K : etok _ _ _ _ _ |- _ => apply etk_lt in K; [|discriminate]
    | K : binary_op _ _ _ _ _ _ |- _ => apply bin_lt in K
    | K : g_expr _ _ _ _ _ _ _ |- _ => apply (proj1 (g_lt _ _ _)) in K
    | K : g_unary _ _ _ _ _ _ |- _ => apply (proj1 (proj2 (g_lt _ _ _))) in K
    | K : g_postfix _ _ _ _ _ _ |- _ => apply (proj1 (proj2 (proj2 (g_lt _ _ _)))) in K
    | K : g_atom _ _ _ _ _ _ |- _ => apply (proj1 (proj2 (proj2 (proj2 (g_lt _ _ _))))) in K
    | K : g_list _ _ _ _ _ _ _ |- _ => apply (proj1 (proj2 (proj2 (proj2 (proj2 (g_lt _ _ _)))))) in K
    | K : g_items _ _ _ _ _ _ |- _ => apply (proj2 (proj2 (proj2 (proj2 (proj2 (g_lt _ _ _)))))) in K
    end; try lia.

(** ** Changing [lax] *)
Section relax.
Variable tf : bytes -> option f64.
Variable re : bytes -> bool.
Variables lax1 lax2 : bool.

(** a token that is not an unclosed literal *)
Definition keeps (r : bytes) : Prop := lax2 = true \/ (0 < len r)%nat.

Lemma etok_keep : forall s t r, etok tf lax1 s t r -> keeps r \/ (forall v, t <> GStr v) -> etok tf lax2 s t r.
Proof.
  intros s t r H Hk. destruct H as [w s t r W H|w ds r W D1 D2 N V|w ds fs r f W D1 D2 D3 N V
    |w ds fs ex r f W D1 D2 D3 E N V|w q t v L W Q O].
  - constructor; assumption.
  - apply ETokInt; assumption.
  - apply ETokReal; assumption.
  - apply ETokRealExp; assumption.
  - destruct Hk as [[->|Hk]|Hk].
    + eapply ETokUnclosed; eauto.
    + simpl in Hk. lia.
    + exfalso. eapply Hk. reflexivity.
Qed.

Lemma ptok_keep : forall s t r, ptok lax1 s t r -> keeps r \/ (forall v, t <> GStr v) -> ptok lax2 s t r.
Proof.
  intros s t r H Hk. destruct H as [w s t r W H|w ds r W D1 D2 N V|w w' ds r W W' D1 D2 N V|w q t v L W Q O].
  - constructor; assumption.
  - apply PTokInt; assumption.
  - apply PTokNeg; assumption.
  - destruct Hk as [[->|Hk]|Hk].
    + eapply PTokUnclosed; eauto.
    + simpl in Hk. lia.
    + exfalso. eapply Hk. reflexivity.
Qed.

Lemma punct_keep : forall s p r, punct tf lax1 s p r -> punct tf lax2 s p r.
Proof. intros. eapply etok_keep; eauto. right. discriminate. Qed.
Lemma ppunct_keep : forall s p r, ppunct lax1 s p r -> ppunct lax2 s p r.
Proof. intros. eapply ptok_keep; eauto. right. discriminate. Qed.
Lemma bin_keep : forall s o k r, binary_op tf lax1 s o k r -> binary_op tf lax2 s o k r.
Proof.
  intros s o k r [? ? ? ? ? H1 H2|? ? H|? ? H].
  - eapply BinPunct; eauto. eapply etok_keep; eauto. right. discriminate.
  - apply BinIn. eapply etok_keep; eauto. right. discriminate.
  - apply BinNin. eapply etok_keep; eauto. right. discriminate.
Qed.

Lemma keeps_le : forall a b, keeps a -> (len a <= len b)%nat -> keeps b.
Proof. intros a b [H|H] L; [left; assumption|right; lia]. Qed.

Ltac kp := match goal with H : keeps ?r |- keeps ?m => apply (keeps_le r); [exact H|lens] end.

Lemma g_keep : (forall k s e r, g_expr tf re lax1 k s e r -> keeps r -> g_expr tf re lax2 k s e r) /\
  (forall s e r, g_unary tf re lax1 s e r -> keeps r -> g_unary tf re lax2 s e r) /\
  (forall s e r, g_postfix tf re lax1 s e r -> keeps r -> g_postfix tf re lax2 s e r) /\
  (forall s e r, g_atom tf re lax1 s e r -> keeps r -> g_atom tf re lax2 s e r) /\
  (forall c s l r, g_list tf re lax1 c s l r -> keeps r -> g_list tf re lax2 c s l r) /\
  (forall s l r, g_items tf re lax1 s l r -> keeps r -> g_items tf re lax2 s l r).
Proof.
  apply g_expr_mutind.
  - intros. apply GUp; auto.
  - intros k s a m o m' b r Ha IHa Hb Hr IHb K. eapply GBin; [apply IHa; kp|apply bin_keep; exact Hb|auto].
  - intros. apply GUnary. auto.
  - intros. eapply GNeg; [apply punct_keep; eassumption|auto].
  - intros. eapply GNot; [apply punct_keep; eassumption|auto].
  - intros. apply GPost. auto.
  - intros. apply GAtom. auto.
  - intros s f m m' l r Hp IHp Ht Hl IHl K. eapply GCall; [apply IHp; kp|apply punct_keep; exact Ht|auto].
  - intros s a m m' e m'' r Hp IHp Ht He IHe Ht2 K.
    eapply GIndex; [apply IHp; kp|apply punct_keep; exact Ht|apply IHe; kp|apply punct_keep; exact Ht2].
  - intros s a m m' n r Hp IHp Ht Hn K.
    eapply GDot; [apply IHp; kp|apply punct_keep; exact Ht|eapply etok_keep; [exact Hn|right; discriminate]].
  - intros. eapply GRegexp; eauto. apply punct_keep; assumption.
  - intros. apply GCurrent. apply punct_keep; assumption.
  - intros. apply GRoot. apply punct_keep; assumption.
  - intros s m e m' r Ht He IHe Ht2 K.
    eapply GParen; [apply punct_keep; exact Ht|apply IHe; kp|apply punct_keep; exact Ht2].
  - intros. eapply GArray; [apply punct_keep; eassumption|auto].
  - intros. apply GNameAtom. eapply etok_keep; eauto.
  - intros. apply GIntAtom. eapply etok_keep; eauto.
  - intros. apply GRealAtom. eapply etok_keep; eauto.
  - intros. apply GStrAtom. eapply etok_keep; eauto.
  - intros. apply GListNil. apply punct_keep; assumption.
  - intros c s l m r Hi IHi Ht K. eapply GListCons; [apply IHi; kp|apply punct_keep; exact Ht].
  - intros. apply GItemsOne. auto.
  - intros s e m m' l r He IHe Ht Hi IHi K.
    eapply GItemsMore; [apply IHe; kp|apply punct_keep; exact Ht|auto].
Qed.

Lemma paren_keep : forall s e r, g_paren tf re lax1 s e r -> g_paren tf re lax2 s e r.
Proof.
  intros s e r [? m e' m' r' H1 H2 H3].
  econstructor; [apply ppunct_keep; exact H1| |apply ppunct_keep; exact H3].
  apply (proj1 g_keep); auto. right. lens.
Qed.
Lemma bound_keep : forall s b r, g_bound tf re lax1 s b r -> g_bound tf re lax2 s b r.
Proof.
  intros s b r [? ? ? H|? ? ? H]; [apply GBInt; eapply ptok_keep; eauto; right; discriminate|].
  apply GBExpr, paren_keep. assumption.
Qed.
Lemma obound_keep : forall s b r, g_obound tf re lax1 s b r -> g_obound tf re lax2 s b r.
Proof. intros s b r [?|? ? ? H]; constructor. apply bound_keep. assumption. Qed.
Lemma slice_keep : forall s b r, g_slice tf re lax1 s b r -> g_slice tf re lax2 s b r.
Proof.
  intros s b r [? a m m' b' r' H1 H2 H3|? a m m' b' n n' c r' H1 H2 H3 H4 H5].
  - eapply GSlice2; [apply obound_keep; exact H1|apply ppunct_keep; exact H2|apply obound_keep; exact H3].
  - eapply GSlice3; [apply obound_keep; exact H1|apply ppunct_keep; exact H2|apply obound_keep; exact H3
      |apply ppunct_keep; exact H4|apply obound_keep; exact H5].
Qed.
Lemma elem_keep : forall s v r, g_elem tf re lax1 s v r -> keeps r -> g_elem tf re lax2 s v r.
Proof.
  intros s v r [? ? ? H|? ? ? H|? ? ? H|? ? ? H] K.
  - apply GElInt. eapply ptok_keep; eauto.
  - apply GElStr. eapply ptok_keep; eauto.
  - apply GElName. eapply ptok_keep; eauto.
  - apply GElSlice. apply slice_keep. assumption.
Qed.
Lemma paren_lt : forall lax s e r, g_paren tf re lax s e r -> (len r < len s)%nat.
Proof. intros lax s e r []. lens. Qed.
Lemma bound_lt : forall lax s e r, g_bound tf re lax s e r -> (len r < len s)%nat.
Proof. intros lax s e r [? ? ? K|? ? ? K]; [lens|apply paren_lt in K; assumption]. Qed.
Lemma obound_le : forall lax s e r, g_obound tf re lax s e r -> (len r <= len s)%nat.
Proof. intros lax s e r [?|? ? ? K]; [lia|apply bound_lt in K; lia]. Qed.
Lemma slice_lt : forall lax s e r, g_slice tf re lax s e r -> (len r < len s)%nat.
Proof. intros lax s e r []; repeat match goal with K : g_obound _ _ _ _ _ _ |- _ => apply obound_le in K end; lens. Qed.
Lemma elem_lt : forall lax s e r, g_elem tf re lax s e r -> (len r < len s)%nat.
Proof. intros lax s e r [ | | |? ? ? K]; intros; try (apply slice_lt in K; assumption); lens. Qed.
Lemma elems_lt : forall lax s e r, g_elems tf re lax s e r -> (len r < len s)%nat.
Proof.
  intros lax s e r H. induction H as [? ? ? K|? ? ? ? ? ? K K2 _ IH]; apply elem_lt in K; [assumption|]. lens.
Qed.
Lemma elems_keep : forall s v r, g_elems tf re lax1 s v r -> keeps r -> g_elems tf re lax2 s v r.
Proof.
  intros s v r H. induction H as [? ? ? H|? ? ? ? ? ? H1 H2 H3 IH]; intro K.
  - apply GElOne. apply elem_keep; assumption.
  - pose proof (elems_lt _ _ _ _ H3).
    eapply GElMore; [apply elem_keep; [exact H1|kp]|apply ppunct_keep; exact H2|auto].
Qed.
Lemma sub_keep : forall s v r, g_subscript tf re lax1 s v r -> keeps r -> g_subscript tf re lax2 s v r.
Proof.
  intros s v r [? ? H|? ? ? ? ? H1 H2 H3|? ? ? H|? ? ? H|? ? ? H H'] K.
  - apply GSubWild. apply ppunct_keep; assumption.
  - eapply GSubFilter; [apply ppunct_keep; exact H1| |apply ppunct_keep; exact H3].
    apply (proj1 g_keep); auto. kp.
  - apply GSubExpr. apply paren_keep; assumption.
  - apply GSubOne. apply elem_keep; assumption.
  - apply GSubUnion; auto. apply elems_keep; assumption.
Qed.
Lemma member_keep : forall s v r, g_member tf re lax1 s v r -> g_member tf re lax2 s v r.
Proof.
  intros s v r [? ? H|? ? ? H|? ? ? H|? ? ? H].
  - apply GMemWild. apply ppunct_keep; assumption.
  - apply GMemName. eapply ptok_keep; eauto. right. discriminate.
  - apply GMemInt. eapply ptok_keep; eauto. right. discriminate.
  - apply GMemExpr. apply paren_keep; assumption.
Qed.
Lemma step_keep : forall s v r, g_step tf re lax1 s v r -> g_step tf re lax2 s v r.
Proof.
  assert (K : forall lax m p r, ppunct lax m p r -> keeps m) by (intros; right; lens).
  intros s v r [? ? ? ? H1 H2|? ? ? ? ? H1 H2 H3|? ? ? ? H1 H2|? ? ? ? ? ? H1 H2 H3 H4].
  - eapply GStepMember; [apply ppunct_keep; exact H1|apply member_keep; exact H2].
  - eapply GStepSub; [apply ppunct_keep; exact H1|apply sub_keep; [exact H2|eapply K; exact H3]|apply ppunct_keep; exact H3].
  - eapply GStepNestMember; [apply ppunct_keep; exact H1|apply member_keep; exact H2].
  - eapply GStepNestSub; [apply ppunct_keep; exact H1|apply ppunct_keep; exact H2
      |apply sub_keep; [exact H3|eapply K; exact H4]|apply ppunct_keep; exact H4].
Qed.
Lemma steps_keep : forall s p, g_steps tf re lax1 s p -> g_steps tf re lax2 s p.
Proof.
  intros s p H. induction H as [s H|s st m p H H' IH].
  - apply GStepsEnd. eapply ptok_keep; eauto. right. discriminate.
  - eapply GStepsMore; [apply step_keep; exact H|exact IH].
Qed.
Lemma path_keep : forall s p, g_path tf re lax1 s p -> g_path tf re lax2 s p.
Proof. intros s p (m & H1 & H2). exists m. split; [apply ppunct_keep; exact H1|apply steps_keep; exact H2]. Qed.
End relax.

(** ** Texts ending in an escaped quote *)
Lemma app_last : forall (A : Type) (u v : list A) a, u ++ [a] = v -> v <> [] /\ last v a = a.
Proof. intros A u v a <-. split; [destruct u; discriminate|apply last_last]. Qed.

Lemma esc_item_last : forall q t r u, q = 34 \/ q = 39 -> esc_item q t r -> t = u ++ [q] -> t = [q].
Proof.
  intros q t r u Hq H E.
  destruct H; try reflexivity; exfalso.
  all: try (apply (f_equal (fun l => last l 0)) in E; rewrite last_last in E; simpl in E;
            unfold hexdigit in *; destruct Hq; subst; lia).
Qed.

Lemma esc_run_last : forall q u rs, q = 34 \/ q = 39 -> esc_run q u rs -> forall u', u = u' ++ [q] ->
  exists u'', u = u'' ++ [92; q].
Proof.
  intros q u rs Hq H. induction H as [t r Hi|t r u rs Hi Hu IH]; intros u' E.
  - destruct u' as [|x u']; [injection E as E1 E2; destruct Hq; lia|].
    injection E as <- E. pose proof (esc_item_last _ _ _ _ Hq Hi E) as ->. exists []. reflexivity.
  - destruct u' as [|x u']; [injection E as E1 E2; destruct Hq; lia|].
    injection E as <- E.
    destruct (exists_last (l := u)) as (w & a & Hw). { destruct Hu; discriminate. }
    assert (a = q).
    { apply (f_equal (fun l => last l 0)) in E. rewrite Hw, app_assoc, !last_last in E. assumption. }
    subst a. destruct (IH _ Hw) as (u'' & ->). exists (92 :: t ++ u''). simpl. rewrite app_assoc. reflexivity.
Qed.

Lemma str_open_last : forall q t v, q = 34 \/ q = 39 -> str_open q t v -> exists u, t = u ++ [92; q].
Proof.
  intros q t v Hq H. induction H as [u rs Hr (u' & Hu)|c t v N1 N2 N3 H IH|u rs t v Hr Hn H IH].
  - eapply esc_run_last; eauto.
  - destruct (IH) as [w ->]. exists (c :: w). reflexivity.
  - destruct (IH) as [w ->]. exists (u ++ w). rewrite app_assoc. reflexivity.
Qed.

Section scripts.
Variable tf : bytes -> option f64.
Variable re : bytes -> bool.

(** a derivation from a text not ending in an escaped quote needs no unclosed token *)
Lemma etok_strict : forall s t r, etok tf true s t r -> ~ ends_in_escaped_quote s -> etok tf false s t r.
Proof.
  intros s t r H Hn. destruct H as [w s t r W H|w ds r W D1 D2 N V|w ds fs r f W D1 D2 D3 N V
    |w ds fs ex r f W D1 D2 D3 E N V|w q t v L W Q O].
  - constructor; assumption.
  - apply ETokInt; assumption.
  - apply ETokReal; assumption.
  - apply ETokRealExp; assumption.
  - exfalso. apply Hn. destruct (str_open_last _ _ _ Q O) as [u ->].
    exists (w ++ q :: u), q. split; [assumption|]. rewrite <- app_assoc. reflexivity.
Qed.

Lemma not_escaped_suffix : forall w s, ~ ends_in_escaped_quote (w ++ s) -> ~ ends_in_escaped_quote s.
Proof. intros w s H (u & q & Hq & ->). apply H. exists (w ++ u), q. rewrite app_assoc. auto. Qed.

Lemma g_suffix : forall lax, (forall k s e r, g_expr tf re lax k s e r -> exists w, s = w ++ r) /\
  (forall s e r, g_unary tf re lax s e r -> exists w, s = w ++ r) /\
  (forall s e r, g_postfix tf re lax s e r -> exists w, s = w ++ r) /\
  (forall s e r, g_atom tf re lax s e r -> exists w, s = w ++ r) /\
  (forall c s l r, g_list tf re lax c s l r -> exists w, s = w ++ r) /\
  (forall s l r, g_items tf re lax s l r -> exists w, s = w ++ r).
Proof.
  assert (B : forall lax s o k r, binary_op tf lax s o k r -> exists w, s = w ++ r).
  { intros lax s o k r []; eapply etok_suffix; eauto. }
  assert (R : forall t (r : bytes), exists w, t ++ 47 :: r = w ++ r).
  { intros t r. exists (t ++ [47]). rewrite <- app_assoc. reflexivity. }
  intro lax. apply g_expr_mutind; intros; unfold punct in *; auto; subst;
    repeat match goal with
    | K : etok _ _ _ _ (?t ++ 47 :: ?r) |- _ =>
        apply etok_suffix in K as [? ->]; destruct (R t r) as [? ->]
    | K : etok _ _ _ _ _ |- _ => apply etok_suffix in K as [? ?]
    | K : binary_op _ _ _ _ _ _ |- _ => apply B in K as [? ?]
    | K : exists w, _ = w ++ _ |- _ => destruct K as [? ?]
    end; subst; rewrite ?app_assoc; eauto.
Qed.

Ltac ns := match goal with
  | H : ~ ends_in_escaped_quote ?s |- ~ ends_in_escaped_quote ?m =>
    let K := fresh in assert (K : exists w, s = w ++ m);
    [|destruct K as [? ->]; eapply not_escaped_suffix; exact H] end.

Lemma g_strict : (forall k s e r, g_expr tf re true k s e r -> ~ ends_in_escaped_quote s -> g_expr tf re false k s e r) /\
  (forall s e r, g_unary tf re true s e r -> ~ ends_in_escaped_quote s -> g_unary tf re false s e r) /\
  (forall s e r, g_postfix tf re true s e r -> ~ ends_in_escaped_quote s -> g_postfix tf re false s e r) /\
  (forall s e r, g_atom tf re true s e r -> ~ ends_in_escaped_quote s -> g_atom tf re false s e r) /\
  (forall c s l r, g_list tf re true c s l r -> ~ ends_in_escaped_quote s -> g_list tf re false c s l r) /\
  (forall s l r, g_items tf re true s l r -> ~ ends_in_escaped_quote s -> g_items tf re false s l r).
Proof.
  assert (Sx : forall k s e r, g_expr tf re true k s e r -> ~ ends_in_escaped_quote s -> ~ ends_in_escaped_quote r).
  { intros k s e r H Hn. apply (proj1 (g_suffix true)) in H as [w ->]. eapply not_escaped_suffix; eauto. }
  assert (Sp : forall s e r, g_postfix tf re true s e r -> ~ ends_in_escaped_quote s -> ~ ends_in_escaped_quote r).
  { intros s e r H Hn. apply (proj1 (proj2 (proj2 (g_suffix true)))) in H as [w ->]. eapply not_escaped_suffix; eauto. }
  assert (St : forall s t r, etok tf true s t r -> ~ ends_in_escaped_quote s -> ~ ends_in_escaped_quote r).
  { intros s t r H Hn. apply etok_suffix in H as [w ->]. eapply not_escaped_suffix; eauto. }
  apply g_expr_mutind.
  - intros. apply GUp; auto.
  - intros k s a m o m' b r Ha IHa Hb Hr IHb K. eapply GBin; [auto|eapply bin_keep; exact Hb|].
    apply IHb. destruct Hb; eauto.
  - intros. apply GUnary. auto.
  - intros. eapply GNeg; [eapply punct_keep; eassumption|eauto].
  - intros. eapply GNot; [eapply punct_keep; eassumption|eauto].
  - intros. apply GPost. auto.
  - intros. apply GAtom. auto.
  - intros s f m m' l r Hp IHp Ht Hl IHl K. eapply GCall; [auto|eapply punct_keep; exact Ht|eauto].
  - intros s a m m' e m'' r Hp IHp Ht He IHe Ht2 K.
    eapply GIndex; [auto|eapply punct_keep; exact Ht|eauto|eapply punct_keep; exact Ht2].
  - intros s a m m' n r Hp IHp Ht Hn K.
    eapply GDot; [auto|eapply punct_keep; exact Ht|eapply etok_keep; [exact Hn|right; discriminate]].
  - intros. eapply GRegexp; eauto. eapply punct_keep; eassumption.
  - intros. apply GCurrent. eapply punct_keep; eassumption.
  - intros. apply GRoot. eapply punct_keep; eassumption.
  - intros s m e m' r Ht He IHe Ht2 K.
    eapply GParen; [eapply punct_keep; exact Ht|eauto|eapply punct_keep; exact Ht2].
  - intros. eapply GArray; [eapply punct_keep; eassumption|eauto].
  - intros. apply GNameAtom. apply etok_strict; auto.
  - intros. apply GIntAtom. apply etok_strict; auto.
  - intros. apply GRealAtom. apply etok_strict; auto.
  - intros. apply GStrAtom. apply etok_strict; auto.
  - intros. apply GListNil. eapply punct_keep; eassumption.
  - intros c s l m r Hi IHi Ht K. eapply GListCons; [auto|eapply punct_keep; exact Ht].
  - intros. apply GItemsOne. auto.
  - intros s e m m' l r He IHe Ht Hi IHi K.
    eapply GItemsMore; [auto|eapply punct_keep; exact Ht|eauto].
Qed.

Lemma script_relax : forall s e, g_script tf re false s e -> g_script tf re true s e.
Proof.
  intros s e (r & H1 & H2). exists r. split.
  - apply (proj1 (g_keep tf re false true)); auto. left. reflexivity.
  - eapply etok_keep; eauto. left. left. reflexivity.
Qed.
Lemma script_strict : forall s e, g_script tf re true s e -> ~ ends_in_escaped_quote s -> g_script tf re false s e.
Proof.
  intros s e (r & H1 & H2) Hn. exists r. split.
  - apply (proj1 g_strict); auto.
  - eapply etok_keep; eauto. right. discriminate.
Qed.
End scripts.

(** ** Derived trees are well formed *)
Section wf.
Variable tf : bytes -> option f64.
Variable re : bytes -> bool.
Variable lax : bool.

Hypothesis Hlit : literal_floats tf.

Lemma etok_int : forall s z r, etok tf lax s (GInt z) r -> 0 <= z < 2 ^ 63.
Proof.
  intros s z r H. inversion H; subst.
  - match goal with K : tok1 _ _ _ _ _ |- _ => inversion K end.
  - split; [apply dec_val_nonneg; assumption|assumption].
Qed.
Lemma ptok_int : forall s z r, ptok lax s (GInt z) r -> - (2 ^ 63 - 1) < z < 2 ^ 63.
Proof.
  intros s z r H. inversion H; subst.
  - match goal with K : tok1 _ _ _ _ _ |- _ => inversion K end.
  - match goal with K : Forall digit _ |- _ => pose proof (dec_val_nonneg _ K) end. lia.
  - match goal with K : Forall digit _ |- _ => pose proof (dec_val_nonneg _ K) end. lia.
Qed.
Lemma etok_real : forall s f r, etok tf lax s (GReal f) r -> lit_float f.
Proof.
  intros s f r H. inversion H; subst.
  - match goal with K : tok1 _ _ _ _ _ |- _ => inversion K end.
  - destruct ds as [|c ds]; [congruence|]. eapply Hlit; [|eassumption].
    match goal with K : Forall digit (c :: ds) |- _ => inversion K; assumption end.
  - destruct ds as [|c ds]; [congruence|]. eapply Hlit; [|eassumption].
    match goal with K : Forall digit (c :: ds) |- _ => inversion K; assumption end.
Qed.

Lemma int64_range : forall z, - 2 ^ 63 <= z < 2 ^ 63 -> in_int64 z.
Proof. intros z H. unfold in_int64, min_int64, max_int64. lia. Qed.

Lemma g_wf : (forall k s e r, g_expr tf re lax k s e r -> wf_expr e) /\
  (forall s e r, g_unary tf re lax s e r -> wf_expr e) /\
  (forall s e r, g_postfix tf re lax s e r -> wf_expr e) /\
  (forall s e r, g_atom tf re lax s e r -> wf_expr e) /\
  (forall c s l r, g_list tf re lax c s l r -> Forall wf_expr l) /\
  (forall s l r, g_items tf re lax s l r -> Forall wf_expr l).
Proof.
  apply g_expr_mutind; intros; auto.
  - assert (is_binary o = true).
    { match goal with K : binary_op _ _ _ _ _ _ |- _ => destruct K as [s0 p0 o0 k0 r0 Hin _|? ? _|? ? _] end; auto.
      simpl in Hin. repeat (destruct Hin as [Hin|Hin]; [injection Hin as <- <- <-; reflexivity|]). destruct Hin. }
    apply WfBinary; auto.
  - apply WfUnary; auto.
  - apply WfUnary; auto.
  - apply WfCall; auto.
  - apply WfBinary; auto.
  - apply WfDot; auto.
  - constructor.
  - constructor.
  - constructor.
  - apply WfArray; auto.
  - unfold name_expr. repeat match goal with |- wf_expr (if ?b then _ else _) => destruct b end; constructor.
  - match goal with K : etok _ _ _ _ _ |- _ => apply etok_int in K end. constructor. apply int64_range. lia.
  - match goal with K : etok _ _ _ _ _ |- _ => apply etok_real in K end. constructor. assumption.
  - constructor.
Qed.

Lemma wf_of_expr : forall k s e r, g_expr tf re lax k s e r -> wf_expr e.
Proof. exact (proj1 g_wf). Qed.
Lemma wf_of_paren : forall s e r, g_paren tf re lax s e r -> wf_expr e.
Proof. intros s e r []. eapply wf_of_expr; eauto. Qed.
Lemma wf_of_obound : forall s b r, g_obound tf re lax s b r -> wf_obound b.
Proof.
  intros s b r [|? ? ? [? ? ? H|? ? ? H]]; simpl; auto; constructor.
  - apply ptok_int in H. apply int64_range. lia.
  - eapply wf_of_paren; eauto.
Qed.
Lemma wf_of_slice : forall s b r, g_slice tf re lax s b r -> wf_slice b.
Proof. intros s b r []; repeat split; simpl; auto; eapply wf_of_obound; eauto. Qed.
Lemma wf_of_elem : forall s b r, g_elem tf re lax s b r -> wf_union_elt b.
Proof.
  intros s b r [? ? ? H| | |? ? ? H]; intros; constructor.
  - apply ptok_int in H. apply int64_range. lia.
  - eapply wf_of_slice; eauto.
Qed.
Lemma wf_of_elems : forall s b r, g_elems tf re lax s b r -> Forall wf_union_elt b.
Proof.
  intros s b r H. induction H; constructor; auto; eapply wf_of_elem; eauto.
Qed.
Lemma wf_of_sub : forall s b r, g_subscript tf re lax s b r -> wf_step b /\ wf_step (nested b).
Proof.
  intros s b r [ | | | | ]; intros; (split; [|unfold nested; simpl]); try constructor; auto;
    try (eapply wf_of_expr; eauto; fail); try (eapply wf_of_elems; eauto; fail).
  - apply WfSExpr. eapply wf_of_paren; eauto.
  - apply WfSExpr. eapply wf_of_paren; eauto.
  - apply WfSElt. eapply wf_of_elem; eauto.
  - apply WfSElt. eapply wf_of_elem; eauto.
Qed.
Lemma wf_of_member : forall s b r, g_member tf re lax s b r -> wf_step b /\ wf_step (nested b).
Proof.
  intros s b r [ | | ? ? ? H | ? ? ? H ]; intros; (split; [|unfold nested; simpl]); constructor; try constructor.
  - apply ptok_int in H. apply int64_range. lia.
  - apply ptok_int in H. apply int64_range. lia.
  - eapply wf_of_paren; eauto.
  - eapply wf_of_paren; eauto.
Qed.
Lemma wf_of_step : forall s b r, g_step tf re lax s b r -> wf_step b.
Proof.
  intros s b r [? ? ? ? _ H|? ? ? ? ? _ H _|? ? ? ? _ H|? ? ? ? ? ? _ _ H _];
    try apply wf_of_member in H; try apply wf_of_sub in H; tauto.
Qed.
Lemma wf_of_path : forall s p, g_path tf re lax s p -> wf_path p.
Proof.
  intros s p (m & _ & H). induction H; constructor; auto. eapply wf_of_step; eauto.
Qed.
Lemma wf_of_script : forall s e, g_script tf re lax s e -> wf_expr e.
Proof. intros s e (r & H & _). eapply wf_of_expr; eauto. Qed.
End wf.
