(** A change of a document at one place leaves the places selected outside it. *)
From Coq Require Import Permutation.
From Verif Require Import Base Syntax SpecSyntax Value Machine Parser Api SpecDoc DocProofs SpecSelect SpecRun SpecText SpecLaws
  SpecOnce SpecReach SpecEdit SelectText OnceProofs ReachProofs ReachMore.
Local Open Scope Z_scope.

Lemma key_eq : forall k k' : key, {k = k'} + {k <> k'}.
Proof. decide equality; [apply Nat.eq_dec|apply list_eq_dec; apply Z.eq_dec]. Qed.

Lemma edits_sym : forall v p v', edits v p v' -> edits v' p v.
Proof. intros v p v' H. induction H; constructor; assumption. Qed.

Lemma same_keys : forall s v v' k k1 p, edits v (k1 :: p) v' -> step_key s v k -> step_key s v' k.
Proof.
  intros s v v' k k1 p H K. unfold step_key in *.
  assert (A : forall back a, arg_key back v a k -> arg_key back v' a k).
  { intros back [x|x|n| |] Ha; try exact Ha. cbn in *. destruct Ha as [Ha|(l & i & -> & -> & Hi)]; [left; exact Ha|]. right.
    inversion H as [|l1 l2 e e' q He|]; subst. exists (l1 ++ e' :: l2), i. rewrite app_length in *. cbn [length] in *. auto. }
  destruct (st_op s); try exact I; destruct K as (a & Ha & Hk); exists a; auto.
Qed.

Lemma edits_key : forall v k p v', doc v -> edits v (k :: p) v' ->
  (exists e e', value_at v [k] e /\ value_at v' [k] e' /\ edits e p e') /\
  (forall k' x, k' <> k -> value_at v [k'] x -> value_at v' [k'] x).
Proof.
  intros v k p v' Hd H. inversion H as [|l1 l2 e e' q He|m1 m2 s e e' q He]; subst; split.
  - exists e, e'. split; [|split; [|exact He]]; (econstructor; [|constructor]); rewrite nth_error_app2, Nat.sub_diag by lia; reflexivity.
  - intros k' x Hk Hx. apply value_one in Hx. destruct k' as [i|]; [|destruct Hx]. econstructor; [|constructor].
    assert (Hi : i <> length l1) by congruence.
    destruct (Nat.lt_ge_cases i (length l1)) as [L|L].
    + rewrite nth_error_app1 in * by exact L. exact Hx.
    + rewrite nth_error_app2 in * by exact L. destruct (i - length l1)%nat eqn:E; [lia|]. exact Hx.
  - exists e, e'. split; [|split; [|exact He]]; (econstructor; [|constructor]); apply in_app_iff; right; left; reflexivity.
  - intros k' x Hk Hx. apply value_one in Hx. destruct k' as [|s']; [destruct Hx|]. econstructor; [|constructor].
    apply in_app_iff in Hx as [Hx|[E|Hx]]; apply in_app_iff; [left; exact Hx| |right; right; exact Hx].
    injection E as -> ->. congruence.
Qed.

Lemma doc_at : forall v p x, doc v -> value_at v p x -> doc x.
Proof. intros v p x Hd H z Hz. apply Hd. eapply within_trans; [exact Hz|eapply AddressProofs.value_at_within; eauto]. Qed.

Lemma below_cons : forall k p q, ~ below (k :: p) (k :: q) -> ~ below p q.
Proof. intros k p q H (k' & r & ->). apply H. exists k', r. reflexivity. Qed.

(** a value on the way to the change, or off it *)
Lemma edits_walk : forall v q d, value_at v q d -> doc v -> forall p v', edits v p v' -> ~ below p q ->
  value_at v' q d \/ exists p2 d', p = q ++ p2 /\ value_at v' q d' /\ edits d p2 d'.
Proof.
  intros v q d H. induction H as [v|l i e a x He H IH|m k e a x He H IH]; intros Hd p v' Hp Hb.
  - right. exists p, v'. repeat split; [constructor|exact Hp].
  - destruct p as [|k1 p]; [exfalso; apply Hb; exists (AtIndex i), a; reflexivity|].
    destruct (edits_key _ _ _ _ Hd Hp) as [(f & f' & F1 & F2 & F3) O].
    assert (Ve : value_at (VArr l) [AtIndex i] e) by (econstructor; [exact He|constructor]).
    destruct (key_eq (AtIndex i) k1) as [<-|Ne].
    + assert (f = e) by (eapply value_at_fun; [exact F1|exact Hd|exact Ve]). subst f.
      destruct (IH (doc_at _ _ _ Hd Ve) p f' F3 (below_cons _ _ _ Hb)) as [K|(p2 & d' & -> & K1 & K2)].
      * left. change (AtIndex i :: a) with ([AtIndex i] ++ a). eapply value_at_app; eauto.
      * right. exists p2, d'. repeat split; [|exact K2]. change (AtIndex i :: a) with ([AtIndex i] ++ a). eapply value_at_app; eauto.
    + left. change (AtIndex i :: a) with ([AtIndex i] ++ a). eapply value_at_app; [|exact H]. apply O; assumption.
  - destruct p as [|k1 p]; [exfalso; apply Hb; exists (AtName k), a; reflexivity|].
    destruct (edits_key _ _ _ _ Hd Hp) as [(f & f' & F1 & F2 & F3) O].
    assert (Ve : value_at (VObj m) [AtName k] e) by (econstructor; [exact He|constructor]).
    destruct (key_eq (AtName k) k1) as [<-|Ne].
    + assert (f = e) by (eapply value_at_fun; [exact F1|exact Hd|exact Ve]). subst f.
      destruct (IH (doc_at _ _ _ Hd Ve) p f' F3 (below_cons _ _ _ Hb)) as [K|(p2 & d' & -> & K1 & K2)].
      * left. change (AtName k :: a) with ([AtName k] ++ a). eapply value_at_app; eauto.
      * right. exists p2, d'. repeat split; [|exact K2]. change (AtName k :: a) with ([AtName k] ++ a). eapply value_at_app; eauto.
    + left. change (AtName k :: a) with ([AtName k] ++ a). eapply value_at_app; [|exact H]. apply O; assumption.
Qed.

Lemma edits_reaches : forall v ss q x, reaches v ss q x -> doc v -> forall p v', edits v p v' -> ~ below p q -> exists x', reaches v' ss q x'.
Proof.
  assert (Step : forall d k y ss p x, reaches y ss p x -> value_at d [k] y -> doc d ->
    (doc y -> forall p1 v', edits y p1 v' -> ~ below p1 p -> exists x', reaches v' ss p x') ->
    forall p0 d', edits d p0 d' -> ~ below p0 (k :: p) ->
    exists y' x', value_at d' [k] y' /\ reaches y' ss p x' /\ forall s, step_key s d k -> step_key s d' k).
  { intros d k y ss p x H Hy Hd IH p0 d' Hp Hb. destruct p0 as [|k1 p0]; [exfalso; apply Hb; exists k, p; reflexivity|].
    destruct (edits_key _ _ _ _ Hd Hp) as [(f & f' & F1 & F2 & F3) O].
    destruct (key_eq k k1) as [<-|Ne].
    - assert (f = y) by (eapply value_at_fun; [exact F1|exact Hd|exact Hy]). subst f.
      destruct (IH (doc_at _ _ _ Hd Hy) p0 f' F3 (below_cons _ _ _ Hb)) as (x' & Hx). exists f', x'.
      split; [exact F2|]. split; [exact Hx|]. intros s. eapply same_keys; eauto.
    - exists y, x. split; [apply O; assumption|]. split; [exact H|]. intros s. eapply same_keys; eauto. }
  intros v ss q x H. induction H as [v|v s ss k y p x Hn Hk Hy H IH|v s ss q d k y p x Hn Hq Hk Hy H IH]; intros Hd p0 v' Hp Hb.
  - exists v'. constructor.
  - destruct (Step _ _ _ _ _ _ H Hy Hd IH _ _ Hp Hb) as (y' & x' & A & B & C). exists x'. eapply RcStep; eauto.
  - assert (Hb' : ~ below p0 q). { intros (k' & r & ->). apply Hb. exists k', (r ++ k :: p). rewrite <- app_assoc. reflexivity. }
    destruct (edits_walk _ _ _ Hq Hd _ _ Hp Hb') as [K|(p2 & d' & -> & K1 & K2)].
    + exists x. eapply RcNest; eauto.
    + destruct (Step _ _ _ _ _ _ H Hy (doc_at _ _ _ Hd Hq) IH _ _ K2) as (y' & x' & A & B & C).
      { intros (k' & r & E). apply Hb. exists k', r. rewrite E, app_assoc. reflexivity. }
      exists x'. eapply RcNest; eauto.
Qed.

Lemma edits_value : forall v p v' q x, doc v -> edits v p v' -> elsewhere p q -> value_at v q x -> value_at v' q x.
Proof.
  intros v p v' q x Hd Hp (Ne & B1 & B2) H. destruct (edits_walk _ _ _ H Hd _ _ Hp B1) as [K|(p2 & d' & -> & K1 & K2)]; [exact K|].
  exfalso. destruct p2 as [|k r]; [apply Ne; apply app_nil_r|apply B2; exists k, r; reflexivity].
Qed.

(** ** Texts *)
Lemma text_edits : forall TX s ss jp W W' t t' p root root' r r', accepted TX s ss jp -> fits jp -> orders_ok W -> orders_ok W' ->
  doc root -> doc root' -> Forall (fun st => Forall literal_key (st_args st)) ss -> edits root p root' ->
  JP_Eval W t jp root r -> JP_Eval W' t' jp root' r' ->
  exists l ps l' ps', r = OK l /\ r' = OK l' /\ Forall2 (value_at root) ps l /\ Forall2 (value_at root') ps' l' /\
    (forall q, ~ below p q -> (In q ps <-> In q ps')) /\
    (no_union ss -> (descents ss <= 1)%nat -> NoDup ps /\ NoDup ps').
Proof.
  intros TX s ss jp W W' t t' p root root' r r' Ha Hf HW HW' Hd Hd' Hl Hp H H'.
  destruct (text_reaches _ _ _ _ _ _ _ _ Ha Hf HW Hd Hl H) as (l & ps & -> & F & I & N).
  destruct (text_reaches _ _ _ _ _ _ _ _ Ha Hf HW' Hd' Hl H') as (l' & ps' & -> & F' & I' & N').
  exists l, ps, l', ps'. split; [reflexivity|]. split; [reflexivity|]. split; [exact F|]. split; [exact F'|]. split; [|auto].
  intros q Hq. rewrite I, I'. split; intros (x & Hx).
  - eapply edits_reaches; eauto.
  - eapply edits_reaches; [exact Hx|exact Hd'|apply edits_sym; exact Hp|exact Hq].
Qed.
