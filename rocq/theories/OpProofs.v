(** One order of the machine, from the model's functions on operands. *)
From Verif Require Import Syntax Value Program Machine Eval SpecSyntax StackProofs MachineProofs SpecOp.
Local Open Scope Z_scope.

Lemma on_stack_state : forall m vs, on_stack m vs ->
  is_state m (m_out m) (m_dot m) vs (m_pc m) (m_values m) (m_tick m).
Proof.
  intros m vs [H1 H2]. unfold is_state, stk_ok, stk. repeat split; assumption.
Qed.

Lemma state_on_stack : forall m out dot s pc vss t, is_state m out dot s pc vss t ->
  on_stack m s /\ m_out m = out /\ m_dot m = dot /\ m_pc m = pc /\ m_values m = vss /\ m_tick m = t.
Proof.
  intros m out dot s pc vss t H. unfold is_state, stk_ok, stk in H. unfold on_stack. intuition.
Qed.

Lemma operates_apply : forall W t o vs, inner_ok o (length vs) -> apply_op W t o vs <> OutOfFuel ->
  operates W t o vs (apply_op W t o vs).
Proof.
  intros W t o vs Hi Hf p root ord m s Ho Hn Hs Ht.
  apply on_stack_state in Hs. rewrite Ht in Hs.
  remember (m_out m) as out. remember (m_dot m) as dot. remember (m_pc m) as pc.
  remember (m_values m) as vss. clear Heqout Heqdot Heqpc Heqvss.
  assert (K : match apply_op W t o vs with
    | OK (v, t') => exists m', exec W p root ord m = OK m' /\ is_state m' out dot (s ++ [v]) pc vss t'
    | Fail e => exec W p root ord m = Fail e
    | Panics => exec W p root ord m = Panics
    | OutOfFuel => True
    end).
  { clear Hf. unfold exec. rewrite Ho, Hn.
    assert (Hbin : forall o, length vs = 2%nat ->
      match (match vs with
             | [a; b] => match binop W o a b with
                         | Some r => let! v := r in OK (v, t)
                         | None => Panics
                         end
             | _ => Panics
             end : M (val * nat))
      with
      | OK (v, t') => exists m',
          (let! (b, m1) := pop m in
           let! (a, m2) := pop m1 in
           match binop W o a b with
           | Some r => let! v := r in OK (push v m2)
           | None => Panics
           end) = OK m' /\ is_state m' out dot (s ++ [v]) pc vss t'
      | Fail e => 
          (let! (b, m1) := pop m in
           let! (a, m2) := pop m1 in
           match binop W o a b with
           | Some r => let! v := r in OK (push v m2)
           | None => Panics
           end) = Fail e
      | Panics =>
          (let! (b, m1) := pop m in
           let! (a, m2) := pop m1 in
           match binop W o a b with
           | Some r => let! v := r in OK (push v m2)
           | None => Panics
           end) = Panics
      | OutOfFuel => True
      end).
    { clear Hi Hn Ho. intros o' Hl. destruct vs as [|a [|b [|]]]; try discriminate Hl.
      change (s ++ [a; b]) with (s ++ [a] ++ [b]) in Hs. rewrite app_assoc in Hs.
      destruct (pop_state _ _ _ _ _ _ _ _ Hs) as (m1 & E1 & Hm1).
      destruct (pop_state _ _ _ _ _ _ _ _ Hm1) as (m2 & E2 & Hm2).
      rewrite E1. cbn [obind]. rewrite E2. cbn [obind].
      destruct (binop W o' a b) as [r|]; [|reflexivity].
      destruct r; cbn [obind]; try reflexivity.
      eexists; split; [reflexivity|]. apply push_state. exact Hm2. }
    destruct o; cbn [inner_ok is_binary] in Hi; try (destruct Hi; discriminate);
      try (apply Hbin; first [exact Hi | apply Hi]).
    - (* OpNeg *) destruct vs as [|a [|]]; try discriminate Hi. cbn [apply_op].
      destruct (pop_state _ _ _ _ _ _ _ _ Hs) as (m1 & E1 & Hm1). rewrite E1.
      cbn [obind unop]. eexists; split; [reflexivity|]. apply push_state; exact Hm1.
    - (* OpCall *) destruct vs as [|a vs]; [simpl in Hi; lia|].
      destruct (popN_state m out dot s (a :: vs) _ pc vss t Hs eq_refl) as (m1 & E1 & Hm1).
      rewrite E1. cbn [obind apply_op].
      destruct a; try reflexivity.
      rewrite (state_tick _ _ _ _ _ _ _ Hm1).
      destruct (call W t s0 vs) as [[r t']| | |]; cbn [obind]; try reflexivity; try exact I.
      eexists; split; [reflexivity|]. apply push_state. eapply set_tick_state; exact Hm1.
    - (* OpArray *)
      destruct (popN_state m out dot s vs _ pc vss t Hs eq_refl) as (m1 & E1 & Hm1).
      rewrite E1. cbn [obind apply_op]. eexists; split; [reflexivity|].
      apply push_state; exact Hm1.
    - (* OpNot *) destruct vs as [|a [|]]; try discriminate Hi. cbn [apply_op].
      destruct (pop_state _ _ _ _ _ _ _ _ Hs) as (m1 & E1 & Hm1). rewrite E1.
      cbn [obind unop]. eexists; split; [reflexivity|]. apply push_state; exact Hm1. }
  destruct (apply_op W t o vs) as [[v t']| | |]; try exact K; [|congruence].
  destruct K as (m' & E & Hm'). exists m'. split; [exact E|].
  apply state_on_stack in Hm'. exact Hm'.
Qed.

(** what [computes] and [raises] amount to *)
Lemma computes2 : forall W o a b v, is_binary o = true \/ o = OpDot ->
  binop W o a b = Some (OK v) -> computes W o [a; b] v.
Proof.
  intros W o a b v Ho E t.
  assert (A : apply_op W t o [a; b] = OK (v, t)).
  { destruct Ho as [Ho | ->]; [destruct o; try discriminate Ho|]; cbn [apply_op]; rewrite E; reflexivity. }
  rewrite <- A. apply operates_apply; [|rewrite A; discriminate].
  destruct Ho as [Ho | ->]; [|reflexivity]. destruct o; try discriminate Ho; split; reflexivity.
Qed.

Lemma raises2 : forall W o a b e, is_binary o = true \/ o = OpDot ->
  binop W o a b = Some (Fail e) -> raises W o [a; b] e.
Proof.
  intros W o a b e Ho E t.
  assert (A : apply_op W t o [a; b] = Fail e).
  { destruct Ho as [Ho | ->]; [destruct o; try discriminate Ho|]; cbn [apply_op]; rewrite E; reflexivity. }
  rewrite <- A. apply operates_apply; [|rewrite A; discriminate].
  destruct Ho as [Ho | ->]; [|reflexivity]. destruct o; try discriminate Ho; split; reflexivity.
Qed.

Lemma computes1 : forall W o a v, o = OpNeg \/ o = OpNot ->
  unop W o a = Some v -> computes W o [a] v.
Proof.
  intros W o a v Ho E t.
  assert (A : apply_op W t o [a] = OK (v, t)).
  { destruct Ho as [-> | ->]; cbn [apply_op]; rewrite E; reflexivity. }
  rewrite <- A. apply operates_apply; [|rewrite A; discriminate].
  destruct Ho as [-> | ->]; reflexivity.
Qed.

Lemma calls_call : forall W f args v, (forall t, call W t (b_of f) args = OK (v, t)) -> calls W f args v.
Proof.
  intros W f args v E t.
  assert (A : apply_op W t OpCall (VName (b_of f) :: args) = OK (v, t)) by (cbn [apply_op]; apply E).
  rewrite <- A. apply operates_apply; [cbn; lia|rewrite A; discriminate].
Qed.

Lemma raises_call : forall W id args e, (forall t, call W t id args = Fail e) ->
  raises W OpCall (VName id :: args) e.
Proof.
  intros W f args v E t.
  assert (A : apply_op W t OpCall (VName f :: args) = Fail v) by (cbn [apply_op]; apply E).
  rewrite <- A. apply operates_apply; [cbn; lia|rewrite A; discriminate].
Qed.
