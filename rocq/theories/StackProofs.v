(** The machine's stack (a Go slice with a stack pointer) behaves as a list. *)
From Verif Require Import Machine.
Local Open Scope Z_scope.

(** the live part of the stack, bottom first *)
Definition stk (m : mstate) : list val := firstn (m_sp m) (m_stack m).

(** the stack pointer lies within the slice *)
Definition stk_ok (m : mstate) : Prop := (m_sp m <= length (m_stack m))%nat.

Lemma length_set_nth : forall A (l : list A) i x, length (set_nth i x l) = length l.
Proof. induction l; destruct i; simpl; intros; congruence || auto. Qed.

Lemma firstn_set_nth_ge : forall A (l : list A) i n x, (n <= i)%nat ->
  firstn n (set_nth i x l) = firstn n l.
Proof.
  induction l as [|y l IH]; intros i n x H; destruct i; simpl; auto.
  - replace n with 0%nat by lia. reflexivity.
  - destruct n; simpl; auto. rewrite IH; [reflexivity|lia].
Qed.

Lemma firstn_set_nth_S : forall A (l : list A) i x, (i < length l)%nat ->
  firstn (S i) (set_nth i x l) = firstn i l ++ [x].
Proof.
  induction l as [|y l IH]; intros i x H; simpl in *; [lia|].
  destruct i; simpl; auto. f_equal. apply IH. lia.
Qed.

Lemma nth_error_firstn_last : forall A (l : list A) n, (n < length l)%nat ->
  exists x, nth_error l n = Some x /\ firstn (S n) l = firstn n l ++ [x].
Proof.
  induction l as [|y l IH]; intros n H; cbn [length] in H; [lia|].
  destruct n.
  - exists y. split; reflexivity.
  - destruct (IH n) as [x [H1 H2]]; [lia|]. exists x. split; [exact H1|].
    change (firstn (S (S n)) (y :: l)) with (y :: firstn (S n) l).
    rewrite H2. reflexivity.
Qed.

Lemma stk_push : forall v m, stk_ok m -> stk (push v m) = stk m ++ [v] /\ stk_ok (push v m).
Proof.
  intros v m H. unfold push, stk, stk_ok in *.
  destruct (Nat.leb_spec (length (m_stack m)) (m_sp m)).
  - simpl. rewrite firstn_all. assert (m_sp m = length (m_stack m)) as -> by lia.
    rewrite firstn_all. split; auto.
  - simpl. rewrite length_set_nth. split; [|lia].
    apply (firstn_set_nth_S _ (m_stack m) (m_sp m) v). assumption.
Qed.

Lemma pop_stk : forall m s v, stk_ok m -> stk m = s ++ [v] ->
  exists sp stack', pop m = OK (v, set_stack m stack' sp) /\
    firstn sp stack' = s /\ (sp <= length stack')%nat.
Proof.
  intros m s v Hok Hs. unfold pop, stk, stk_ok in *.
  destruct (m_sp m) as [|sp] eqn:E.
  - destruct s; discriminate.
  - destruct (nth_error_firstn_last _ (m_stack m) sp) as [x [H1 H2]]; [lia|].
    rewrite H2 in Hs. apply app_inj_tail in Hs as [Hs Hx]. subst.
    rewrite H1. exists sp, (set_nth sp VNil (m_stack m)).
    rewrite firstn_set_nth_ge by lia. rewrite length_set_nth. repeat split. lia.
Qed.

Lemma length_clear_from : forall n i s, length (clear_from i n s) = length s.
Proof. induction n; simpl; intros; auto. rewrite IHn. apply length_set_nth. Qed.

Lemma firstn_clear_from : forall n i s k, (k <= i)%nat ->
  firstn k (clear_from i n s) = firstn k s.
Proof.
  induction n; simpl; intros; auto. rewrite IHn by lia. apply firstn_set_nth_ge. assumption.
Qed.

Lemma popN_stk : forall m s a n, stk_ok m -> stk m = s ++ a -> n = Z.of_nat (length a) ->
  exists sp stack', popN n m = OK (a, set_stack m stack' sp) /\
    firstn sp stack' = s /\ (sp <= length stack')%nat.
Proof.
  intros m s a n Hok Hs Hn. unfold popN, stk, stk_ok in *.
  assert (Hlen : m_sp m = (length s + length a)%nat).
  { rewrite <- app_length, <- Hs, firstn_length. lia. }
  destruct (Z.ltb_spec (Z.of_nat (m_sp m)) n); [lia|].
  destruct (Z.ltb_spec n 0); [lia|].
  subst n. rewrite Nat2Z.id.
  replace (m_sp m - length a)%nat with (length s) by lia.
  exists (length s), (clear_from (length s) (length a) (m_stack m)).
  rewrite firstn_clear_from by lia. rewrite length_clear_from.
  split; [|split; [|lia]].
  - f_equal. f_equal.
    assert (firstn (length a) (skipn (length s) (firstn (m_sp m) (m_stack m))) = a).
    { rewrite Hs. rewrite skipn_app, skipn_all2 by lia.
      replace (length s - length s)%nat with 0%nat by lia. simpl. apply firstn_all. }
    rewrite <- H1 at 2. rewrite Hlen.
    rewrite <- firstn_skipn_comm. rewrite firstn_firstn.
    f_equal. lia.
  - replace (firstn (length s) (m_stack m))
      with (firstn (length s) (firstn (m_sp m) (m_stack m))).
    + rewrite Hs. rewrite firstn_app. replace (length s - length s)%nat with 0%nat by lia.
      rewrite firstn_all. simpl. apply app_nil_r.
    + rewrite firstn_firstn. f_equal. lia.
Qed.
