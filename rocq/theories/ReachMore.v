(** The patterns ..* and ..name. *)
From Verif Require Import Base Syntax SpecSyntax Value Machine Parser Api SpecDoc SpecSelect SpecRun SpecText SpecLaws
  SpecOnce SpecReach SpecCost TextProofs SelectText AddressProofs UnfoldProofs OnceProofs OnceFinal ReachProofs.
Local Open Scope Z_scope.

Lemma NoDup_app_intro : forall (A : Type) (l l' : list A), NoDup l -> NoDup l' -> (forall x, In x l -> ~ In x l') -> NoDup (l ++ l').
Proof.
  intros A l l' H H' D. induction H as [|x l Hx H IH]; [exact H'|]. cbn. constructor.
  - intro C. apply in_app_iff in C as [C|C]; [contradiction|]. apply (D x); [left; reflexivity|exact C].
  - apply IH. intros y Hy. apply D. right. exact Hy.
Qed.

Lemma value_last : forall v p x, value_at v p x -> p = [] \/ exists q k d, p = q ++ [k] /\ value_at v q d /\ value_at d [k] x.
Proof.
  intros v p x H. induction H as [v|l i e a x He H IH|m k e a x He H IH]; [left; reflexivity| |]; right.
  - destruct IH as [->|(q & k & d & -> & Hq & Hk)].
    + exists [], (AtIndex i), (VArr l). inversion H; subst. repeat split; [constructor|econstructor; [exact He|constructor]].
    + exists (AtIndex i :: q), k, d. repeat split; [econstructor; eauto|exact Hk].
  - destruct IH as [->|(q & k' & d & -> & Hq & Hk)].
    + exists [], (AtName k), (VObj m). inversion H; subst. repeat split; [constructor|econstructor; [exact He|constructor]].
    + exists (AtName k :: q), k', d. repeat split; [econstructor; eauto|exact Hk].
Qed.

Lemma reaches_at : forall v ss p x, reaches v ss p x -> value_at v p x.
Proof.
  intros v ss p x H. induction H as [v|v s ss k y p x Hn Hk Hy H IH|v s ss q d k y p x Hn Hq Hk Hy H IH]; [constructor| |].
  - change (k :: p) with ([k] ++ p). eapply value_at_app; eauto.
  - eapply value_at_app; [exact Hq|]. change (k :: p) with ([k] ++ p). eapply value_at_app; eauto.
Qed.

Lemma places_nodup : forall v, doc v -> NoDup (all_places v).
Proof.
  fix go 1. intros [ | | | | | | |l|m| | | | ] Hd; try (repeat constructor; intros []; fail); cbn [all_places]; constructor.
  - assert (K : forall l i, ~ In [] ((fix go i l := match l with [] => [] | x :: l => map (cons (AtIndex i)) (all_places x) ++ go (S i) l end) i l)).
    { induction l0 as [|x l0 IH]; intros i; [intros []|]. intro H. apply in_app_iff in H as [H|H]; [|exact (IH _ H)].
      apply in_map_iff in H as (? & ? & _). discriminate. }
    apply K.
  - assert (Hl : forall x, In x l -> doc x) by (intros x Hx z Hz; apply Hd; eapply WElem; eauto). clear Hd.
    generalize O as i. induction l as [|x l IH]; intro i; [constructor|].
    apply NoDup_app_intro.
    + apply FinFun.Injective_map_NoDup; [intros a b E; injection E; auto|]. apply go. apply Hl. left. reflexivity.
    + apply IH. intros y Hy. apply Hl. right. exact Hy.
    + intros p Hp K. apply in_map_iff in Hp as (q & <- & _).
      assert (L : forall l j q, In (AtIndex i :: q) ((fix go i l := match l with [] => [] | x :: l => map (cons (AtIndex i)) (all_places x) ++ go (S i) l end) j l) -> (j <= i)%nat).
      { clear. induction l as [|x l IH]; intros j q H; [destruct H|]. apply in_app_iff in H as [H|H].
        - apply in_map_iff in H as (? & E & _). injection E as <- _. lia.
        - apply IH in H. lia. }
      apply L in K. lia.
  - intro H. assert (K : ~ In [] ((fix go m := match m with [] => [] | (k, x) :: m => map (cons (AtName k)) (all_places x) ++ go m end) m)).
    { clear. induction m as [|[k x] m IH]; [intros []|]. intro H. apply in_app_iff in H as [H|H]; [|exact (IH H)].
      apply in_map_iff in H as (? & ? & _). discriminate. }
    exact (K H).
  - assert (Hl : forall k x, In (k, x) m -> doc x) by (intros k x Hx z Hz; apply Hd; eapply WMember; eauto).
    assert (Hn : NoDup (map fst m)) by exact (proj1 (Hd _ (WSelf _))). clear Hd.
    induction m as [|[k x] m IH]; [constructor|]. cbn in Hn. inversion Hn as [|? ? N1 N2]; subst.
    apply NoDup_app_intro.
    + apply FinFun.Injective_map_NoDup; [intros a b E; injection E; auto|]. apply go. eapply Hl. left. reflexivity.
    + apply IH; [|exact N2]. intros k' y Hy. eapply Hl. right. exact Hy.
    + intros p Hp K. apply in_map_iff in Hp as (q & <- & _). apply N1. clear - K.
      induction m as [|[k' y] m IH]; [destruct K|]. apply in_app_iff in K as [K|K]; [|right; exact (IH K)].
      apply in_map_iff in K as (? & E & _). injection E as <- _. left. reflexivity.
Qed.

Lemma places_value : forall v p, In p (all_places v) -> exists x, value_at v p x.
Proof.
  fix go 1. intros [ | | | | | | |l|m| | | | ] p H; try (destruct H as [<-|[]]; eexists; constructor; fail);
    (destruct H as [<-|H]; [eexists; constructor|]).
  - assert (K : forall j, In p ((fix go i l := match l with [] => [] | x :: l => map (cons (AtIndex i)) (all_places x) ++ go (S i) l end) j l) ->
      exists i q e x, p = AtIndex (j + i) :: q /\ nth_error l i = Some e /\ value_at e q x).
    { clear H. induction l as [|e l IH]; intros j H; [destruct H|]. apply in_app_iff in H as [H|H].
      - apply in_map_iff in H as (q & <- & Hq). destruct (go e q Hq) as (x & Hx). exists O, q, e, x. rewrite Nat.add_0_r. auto.
      - destruct (IH (S j) H) as (i & q & e' & x & -> & He & Hx). exists (S i), q, e', x. rewrite Nat.add_succ_r. auto. }
    destruct (K O H) as (i & q & e & x & -> & He & Hx). exists x. econstructor; eauto.
  - assert (K : exists k q e x, p = AtName k :: q /\ In (k, e) m /\ value_at e q x).
    { induction m as [|[k e] m IH]; [destruct H|]. apply in_app_iff in H as [H|H].
      - apply in_map_iff in H as (q & <- & Hq). destruct (go e q Hq) as (x & Hx). exists k, q, e, x. repeat split; auto. left. reflexivity.
      - destruct (IH H) as (k' & q & e' & x & -> & He & Hx). exists k', q, e', x. repeat split; auto. right. exact He. }
    destruct K as (k & q & e & x & -> & He & Hx). exists x. econstructor; eauto.
Qed.

(** ** ..* *)
Lemma text_everything : forall TX s jp W t root r, accepted TX s [mkStep OpNestWild []] jp -> fits jp -> orders_ok W -> doc root ->
  JP_Eval W t jp root r ->
  exists l ps, r = OK l /\ Forall2 (value_at root) ps l /\ NoDup ps /\
    (forall p, In p ps <-> p <> [] /\ exists x, value_at root p x) /\ S (length l) = nodes root.
Proof.
  intros TX s jp W t root r Ha Hf HW Hd H.
  destruct (text_reaches _ _ _ _ _ _ _ _ Ha Hf HW Hd ltac:(repeat constructor) H) as (l & ps & -> & F & I & N).
  assert (Hn : NoDup ps) by (apply N; [intros st [<-|[]]; reflexivity|cbn; lia]).
  assert (Hi : forall p, In p ps <-> p <> [] /\ exists x, value_at root p x).
  { intro p. rewrite I. split.
    - intros (x & Hr). split; [|exists x; eapply reaches_at; eauto].
      inversion Hr as [|? ? ? k z u' ? E|? ? ? q d k z u' ? E]; subst; [discriminate|]. intro C. destruct q; discriminate C.
    - intros [Hp (x & Hx)]. destruct (value_last _ _ _ Hx) as [->|(q & k & d & -> & Hq & Hk)]; [congruence|].
      exists x. eapply RcNest; eauto; [reflexivity|constructor]. }
  exists l, ps. repeat (split; [assumption || reflexivity|]).
  rewrite <- (Forall2_length _ _ _ _ _ F), <- places_nodes. change (S (length ps)) with (length ([] :: ps)).
  apply Nat.le_antisymm; apply NoDup_incl_length.
  - constructor; [|exact Hn]. intro C. apply Hi in C as [C _]. congruence.
  - intros p [<-|Hp]; [destruct root; left; reflexivity|]. apply Hi in Hp as [_ (x & Hx)]. eapply places_all; eauto.
  - apply places_nodup. exact Hd.
  - intros p Hp. destruct p as [|k p]; [left; reflexivity|]. right. apply Hi. split; [discriminate|apply places_value; exact Hp].
Qed.

(** ** ..name *)
Lemma text_named : forall TX s k jp W t root r, accepted TX s [mkStep OpNestMember [PName k]] jp -> fits jp -> orders_ok W -> doc root ->
  JP_Eval W t jp root r ->
  exists l ps, r = OK l /\ Forall2 (value_at root) ps l /\ NoDup ps /\
    (forall p, In p ps <-> exists q x, p = q ++ [AtName k] /\ value_at root p x).
Proof.
  intros TX s k jp W t root r Ha Hf HW Hd H.
  destruct (text_reaches _ _ _ _ _ _ _ _ Ha Hf HW Hd ltac:(repeat constructor) H) as (l & ps & -> & F & I & N).
  exists l, ps. split; [reflexivity|]. split; [exact F|]. split; [apply N; [intros st [<-|[]]; reflexivity|cbn; lia]|].
  intro p. rewrite I. split.
  - intros (x & Hr). pose proof (reaches_at _ _ _ _ Hr) as V.
    inversion Hr as [|? ? ? k' z u' ? E|? ? ? q d k' z u' ? E Hq Hs Hk K]; subst; [discriminate|].
    destruct Hs as (a & [<-|[]] & Ek). cbn in Ek. subst k'.
    inversion K; subst. eauto.
  - intros (q & x & -> & Hx). destruct (value_last _ _ _ Hx) as [C|(q' & k' & d & C & Hq & Hk)]; [destruct q; discriminate C|].
    apply app_inj_tail in C as [-> <-]. exists x. eapply RcNest; [reflexivity|exact Hq| |exact Hk|constructor].
    exists (PName k). split; [left; reflexivity|reflexivity].
Qed.
