(** Executions of the machine as sequences of steps, and what each operator does to
    an abstract state whose stack is a list. *)
From Verif Require Import SpecSyntax Machine Eval ProgramProofs StackProofs.
Local Open Scope Z_scope.

(** what a machine state stands for *)
Definition is_state (m : mstate) (out : gslice) (dot : val) (s : list val) (pc : Z)
    (vss : list (list val)) (t : nat) : Prop :=
  stk_ok m /\ stk m = s /\ m_out m = out /\ m_dot m = dot /\ m_pc m = pc /\
  m_values m = vss /\ m_tick m = t.

Lemma is_state_init : forall t root, is_state (m_init t root) (Some [root]) VNil [] 0 [] t.
Proof. intros. unfold is_state, stk_ok, stk; simpl. repeat split; auto. Qed.

Lemma push_state : forall m out dot s pc vss t v,
  is_state m out dot s pc vss t -> is_state (push v m) out dot (s ++ [v]) pc vss t.
Proof.
  intros m out dot s pc vss t v (Hok & Hs & H1 & H2 & H3 & H4 & H5).
  destruct (stk_push v m Hok) as [Hp Hok'].
  unfold is_state. rewrite Hp, Hs. split; [exact Hok'|]. split; [reflexivity|].
  unfold push. destruct (length (m_stack m) <=? m_sp m)%nat; simpl; auto.
Qed.

Lemma pop_state : forall m out dot s v pc vss t,
  is_state m out dot (s ++ [v]) pc vss t ->
  exists m', pop m = OK (v, m') /\ is_state m' out dot s pc vss t.
Proof.
  intros m out dot s v pc vss t (Hok & Hs & H1 & H2 & H3 & H4 & H5).
  destruct (pop_stk m s v Hok Hs) as (sp & st & E & F & G).
  eexists; split; [exact E|]. unfold is_state, stk_ok, stk; simpl. auto 10.
Qed.

Lemma popN_state : forall m out dot s a n pc vss t,
  is_state m out dot (s ++ a) pc vss t -> n = Z.of_nat (length a) ->
  exists m', popN n m = OK (a, m') /\ is_state m' out dot s pc vss t.
Proof.
  intros m out dot s a n pc vss t (Hok & Hs & H1 & H2 & H3 & H4 & H5) Hn.
  destruct (popN_stk m s a n Hok Hs Hn) as (sp & st & E & F & G).
  eexists; split; [exact E|]. unfold is_state, stk_ok, stk; simpl. auto 10.
Qed.

Lemma set_pc_state : forall m out dot s pc vss t pc',
  is_state m out dot s pc vss t -> is_state (set_pc m pc') out dot s pc' vss t.
Proof. unfold is_state, stk_ok, stk; simpl; intuition. Qed.

Lemma set_out_state : forall m out dot s pc vss t out',
  is_state m out dot s pc vss t -> is_state (set_out m out') out' dot s pc vss t.
Proof. unfold is_state, stk_ok, stk; simpl; intuition. Qed.

Lemma set_tick_state : forall m out dot s pc vss t t',
  is_state m out dot s pc vss t -> is_state (set_tick m t') out dot s pc vss t'.
Proof. unfold is_state, stk_ok, stk; simpl; intuition. Qed.

Lemma set_values_state : forall m out dot s pc vss t vss',
  is_state m out dot s pc vss t -> is_state (set_values m vss') out dot s pc vss' t.
Proof. unfold is_state, stk_ok, stk; simpl; intuition. Qed.

Lemma set_dot_state : forall m out dot s pc vss t dot',
  is_state m out dot s pc vss t -> is_state (set_dot m dot') out dot' s pc vss t.
Proof. unfold is_state, stk_ok, stk; simpl; intuition. Qed.

Lemma state_pc : forall m out dot s pc vss t, is_state m out dot s pc vss t -> m_pc m = pc.
Proof. unfold is_state; intuition. Qed.
Lemma state_out : forall m out dot s pc vss t, is_state m out dot s pc vss t -> m_out m = out.
Proof. unfold is_state; intuition. Qed.
Lemma state_dot : forall m out dot s pc vss t, is_state m out dot s pc vss t -> m_dot m = dot.
Proof. unfold is_state; intuition. Qed.
Lemma state_values : forall m out dot s pc vss t, is_state m out dot s pc vss t -> m_values m = vss.
Proof. unfold is_state; intuition. Qed.
Lemma state_tick : forall m out dot s pc vss t, is_state m out dot s pc vss t -> m_tick m = t.
Proof. unfold is_state; intuition. Qed.

Section exec.
Variable W : world.
Variable p : program.
Variable root : val.

(** one iteration of the machine's loop, from a state whose pc is in the program *)
Definition step_m (m : mstate) : M mstate :=
  match index_Z (p_orders p) (m_pc m) with
  | None => Panics
  | Some ord => exec W p root ord (set_pc m (m_pc m + 1))
  end.

(** [n] iterations, all without error or panic *)
Inductive reach : nat -> mstate -> mstate -> Prop :=
| reach_O : forall m, reach 0 m m
| reach_S : forall n m m1 m2, m_pc m < prog_size p -> step_m m = OK m1 -> reach n m1 m2 ->
    reach (S n) m m2.

Lemma reach_trans : forall n1 n2 m1 m2 m3, reach n1 m1 m2 -> reach n2 m2 m3 ->
  reach (n1 + n2) m1 m3.
Proof. induction 1; simpl; intros; auto. econstructor; eauto. Qed.

Lemma run_loop_S : forall n m, m_pc m < prog_size p ->
  run_loop (S n) W p root m = let! m' := step_m m in run_loop n W p root m'.
Proof.
  intros n m H. simpl. apply Z.ltb_lt in H. rewrite H. unfold step_m.
  destruct (index_Z (p_orders p) (m_pc m)); reflexivity.
Qed.

Lemma run_reach : forall n m m', reach n m m' ->
  forall k, run_loop (n + k) W p root m = run_loop k W p root m'.
Proof.
  induction 1; intros; auto. change (S n + k)%nat with (S (n + k)).
  rewrite run_loop_S by assumption. rewrite H0. simpl. apply IHreach.
Qed.

Lemma run_loop_more : forall f k m r, run_loop f W p root m = r -> r <> OutOfFuel ->
  run_loop (f + k) W p root m = r.
Proof.
  induction f as [|f IH]; intros k m r H Hr; simpl in *.
  - destruct (m_pc m <? prog_size p) eqn:E; [congruence|].
    destruct k; simpl; rewrite E; exact H.
  - destruct (m_pc m <? prog_size p); [|exact H].
    destruct (index_Z (p_orders p) (m_pc m)) as [o|]; [|exact H].
    destruct (exec W p root o (set_pc m (m_pc m + 1))); simpl in *; auto.
Qed.

(** [goes N m r Q]: from [m] the machine does what the result [r] of the reference
    evaluation says, in at most [N] steps: it arrives in a state satisfying [Q],
    or its last step fails or panics exactly as [r]. *)
Definition goes {A} (N : nat) (m : mstate) (r : M A) (Q : A -> mstate -> Prop) : Prop :=
  match r with
  | OK a => exists n m', (n <= N)%nat /\ reach n m m' /\ Q a m'
  | Fail e => exists n m', (n < N)%nat /\ reach n m m' /\ m_pc m' < prog_size p /\ step_m m' = Fail e
  | Panics => exists n m', (n < N)%nat /\ reach n m m' /\ m_pc m' < prog_size p /\ step_m m' = Panics
  | OutOfFuel => exists n m', (n < N)%nat /\ reach n m m' /\ m_pc m' < prog_size p /\ step_m m' = OutOfFuel
  end.

Lemma goes_ret : forall A (Q : A -> mstate -> Prop) m a, Q a m -> goes 0 m (OK a) Q.
Proof. intros. exists 0%nat, m. repeat split; auto. constructor. Qed.

Lemma goes_bind : forall A B N1 N2 m (r : M A) (k : A -> M B) Q1 Q2,
  goes N1 m r Q1 -> (forall a m', Q1 a m' -> goes N2 m' (k a) Q2) ->
  goes (N1 + N2) m (obind r k) Q2.
Proof.
  intros A B N1 N2 m r k Q1 Q2 H1 H2. destruct r as [a|e| |]; simpl in *.
  - destruct H1 as (n & m' & Hn & Hr & HQ). specialize (H2 a m' HQ).
    destruct (k a) as [b|e| |]; simpl in *; destruct H2 as (n2 & m2 & Hn2 & Hr2 & R);
      exists (n + n2)%nat, m2; (split; [lia|]); (split; [eapply reach_trans; eauto | exact R]).
  - destruct H1 as (n & m' & Hn & R). exists n, m'. split; [lia|exact R].
  - destruct H1 as (n & m' & Hn & R). exists n, m'. split; [lia|exact R].
  - destruct H1 as (n & m' & Hn & R). exists n, m'. split; [lia|exact R].
Qed.

Lemma goes_bind_eq : forall A B N1 N2 m (r : M A) (k : A -> M B) Q1 Q2,
  goes N1 m r Q1 -> (forall a m', r = OK a -> Q1 a m' -> goes N2 m' (k a) Q2) ->
  goes (N1 + N2) m (obind r k) Q2.
Proof.
  intros A B N1 N2 m r k Q1 Q2 H1 H2.
  apply goes_bind with (Q1 := fun a m' => r = OK a /\ Q1 a m').
  - destruct r; simpl in *; auto. destruct H1 as (n & m' & H & R & HQ).
    exists n, m'. auto.
  - intros a m' [E HQ]. apply H2; assumption.
Qed.

Lemma goes_weaken : forall A N N' m (r : M A) (Q Q' : A -> mstate -> Prop),
  goes N m r Q -> (N <= N')%nat -> (forall a m', Q a m' -> Q' a m') -> goes N' m r Q'.
Proof.
  intros A N N' m r Q Q' H HN HQ. destruct r; simpl in *; destruct H as (n & m' & H & R);
    exists n, m'; (split; [lia|]); try exact R.
  destruct R as [R1 R2]. split; auto.
Qed.

(** the machine's single step agrees with [r] *)
Lemma goes_step : forall A m (r : M A) (Q : A -> mstate -> Prop),
  m_pc m < prog_size p ->
  match r with
  | OK a => exists m', step_m m = OK m' /\ Q a m'
  | Fail e => step_m m = Fail e
  | Panics => step_m m = Panics
  | OutOfFuel => step_m m = OutOfFuel
  end -> goes 1 m r Q.
Proof.
  intros A m r Q Hpc H. destruct r; simpl in *.
  - destruct H as (m' & Hs & HQ). exists 1%nat, m'. split; [lia|]. split; [|exact HQ].
    econstructor; eauto. constructor.
  - exists 0%nat, m. split; [lia|]. split; [constructor|auto].
  - exists 0%nat, m. split; [lia|]. split; [constructor|auto].
  - exists 0%nat, m. split; [lia|]. split; [constructor|auto].
Qed.

Lemma goes_run : forall A N m (r : M A) Q, goes N m r Q ->
  (forall a m', Q a m' -> m_pc m' >= prog_size p) ->
  forall k,
  match r with
  | OK a => exists m', run_loop (N + k) W p root m = OK m' /\ Q a m'
  | Fail e => run_loop (N + k) W p root m = Fail e
  | Panics => run_loop (N + k) W p root m = Panics
  | OutOfFuel => run_loop (N + k) W p root m = OutOfFuel
  end.
Proof.
  intros A N m r Q H Hend k. destruct r; simpl in *; destruct H as (n & m' & Hn & Hr & R).
  - exists m'. split; [|exact R].
    replace (N + k)%nat with (n + (N - n + k))%nat by lia.
    rewrite (run_reach _ _ _ Hr). specialize (Hend _ _ R).
    assert (m_pc m' <? prog_size p = false) as E by (apply Z.ltb_ge; lia).
    destruct (N - n + k)%nat; simpl; rewrite E; reflexivity.
  - destruct R as [R1 R2]. replace (N + k)%nat with (n + S (N - n - 1 + k))%nat by lia.
    rewrite (run_reach _ _ _ Hr), run_loop_S by assumption. rewrite R2. reflexivity.
  - destruct R as [R1 R2]. replace (N + k)%nat with (n + S (N - n - 1 + k))%nat by lia.
    rewrite (run_reach _ _ _ Hr), run_loop_S by assumption. rewrite R2. reflexivity.
  - destruct R as [R1 R2]. replace (N + k)%nat with (n + S (N - n - 1 + k))%nat by lia.
    rewrite (run_reach _ _ _ Hr), run_loop_S by assumption. rewrite R2. reflexivity.
Qed.

(** ** exec on encoded orders *)
Lemma arity_ok : forall (n : nat), (Z.of_nat n < indexTop) -> isSmallInt (Z.of_nat n) = true.
Proof. intros. apply isSmallInt_range. change indexTop with 4194304 in H. lia. Qed.

(** operators of inner expression nodes and their numbers of operands *)
Definition inner_ok (o : op) (n : nat) : Prop :=
  match o with
  | OpNeg | OpNot => n = 1%nat
  | OpDot => n = 2%nat
  | OpArray => True
  | OpCall => (1 <= n)%nat
  | _ => is_binary o = true /\ n = 2%nat
  end.

Lemma exec_inner : forall o vs m out dot s pc vss t,
  inner_ok o (length vs) -> (Z.of_nat (length vs) < indexTop) ->
  is_state m out dot (s ++ vs) pc vss t ->
  match apply_op W t o vs with
  | OK (v, t') => exists m', exec W p root (mkSmall o (Z.of_nat (length vs))) m = OK m' /\
                    is_state m' out dot (s ++ [v]) pc vss t'
  | Fail e => exec W p root (mkSmall o (Z.of_nat (length vs))) m = Fail e
  | Panics => exec W p root (mkSmall o (Z.of_nat (length vs))) m = Panics
  | OutOfFuel => exec W p root (mkSmall o (Z.of_nat (length vs))) m = OutOfFuel
  end.
Proof.
  intros o vs m out dot s pc vss t Hi Hn Hm.
  unfold exec. rewrite order_op_small, op_of_num_num.
  rewrite order_small_int_small by (apply arity_ok; assumption).
  assert (Hbin : forall o, is_binary o = true \/ o = OpDot -> length vs = 2%nat ->
    match (match vs with
           | [a; b] => match binop W o a b with
                       | Some r => let! v := r in OK (v, t)
                       | None => Panics
                       end
           | _ => Panics
           end : M (val * nat))
    with
    | OK (v, t') => exists m',
        (let! (b, m1) := pop m in
         let! (a, m2) := pop m1 in
         match binop W o a b with
         | Some r => let! v := r in OK (push v m2)
         | None => Panics
         end) = OK m' /\ is_state m' out dot (s ++ [v]) pc vss t'
    | Fail e => 
        (let! (b, m1) := pop m in
         let! (a, m2) := pop m1 in
         match binop W o a b with
         | Some r => let! v := r in OK (push v m2)
         | None => Panics
         end) = Fail e
    | Panics =>
        (let! (b, m1) := pop m in
         let! (a, m2) := pop m1 in
         match binop W o a b with
         | Some r => let! v := r in OK (push v m2)
         | None => Panics
         end) = Panics
    | OutOfFuel =>
        (let! (b, m1) := pop m in
         let! (a, m2) := pop m1 in
         match binop W o a b with
         | Some r => let! v := r in OK (push v m2)
         | None => Panics
         end) = OutOfFuel
    end).
  { clear Hi. intros o' _ Hl. destruct vs as [|a [|b [|]]]; try discriminate Hl.
    change (s ++ [a; b]) with (s ++ [a] ++ [b]) in Hm. rewrite app_assoc in Hm.
    destruct (pop_state _ _ _ _ _ _ _ _ Hm) as (m1 & E1 & Hm1).
    destruct (pop_state _ _ _ _ _ _ _ _ Hm1) as (m2 & E2 & Hm2).
    rewrite E1. cbn [obind]. rewrite E2. cbn [obind].
    destruct (binop W o' a b) as [r|]; [|reflexivity].
    destruct r; cbn [obind]; try reflexivity.
    eexists; split; [reflexivity|]. apply push_state. exact Hm2. }
  destruct o; cbn [inner_ok is_binary] in Hi; try (destruct Hi; discriminate);
    try (apply Hbin; [left; reflexivity | apply Hi]).
  - (* OpDot *) apply Hbin; [right; reflexivity | exact Hi].
  - (* OpNeg *) destruct vs as [|a [|]]; try discriminate Hi. cbn [apply_op].
    destruct (pop_state _ _ _ _ _ _ _ _ Hm) as (m1 & E1 & Hm1). rewrite E1.
    cbn [obind unop]. eexists; split; [reflexivity|]. apply push_state; exact Hm1.
  - (* OpCall *) destruct vs as [|a vs]; [simpl in Hi; lia|].
    destruct (popN_state m out dot s (a :: vs) _ pc vss t Hm eq_refl) as (m1 & E1 & Hm1).
    rewrite E1. cbn [obind apply_op].
    destruct a; try reflexivity.
    rewrite (state_tick _ _ _ _ _ _ _ Hm1).
    destruct (call W t s0 vs) as [[r t']| | |]; cbn [obind]; try reflexivity.
    eexists; split; [reflexivity|]. apply push_state. eapply set_tick_state; exact Hm1.
  - (* OpArray *)
    destruct (popN_state m out dot s vs _ pc vss t Hm eq_refl) as (m1 & E1 & Hm1).
    rewrite E1. cbn [obind apply_op]. eexists; split; [reflexivity|].
    apply push_state; exact Hm1.
  - (* OpNot *) destruct vs as [|a [|]]; try discriminate Hi. cbn [apply_op].
    destruct (pop_state _ _ _ _ _ _ _ _ Hm) as (m1 & E1 & Hm1). rewrite E1.
    cbn [obind unop]. eexists; split; [reflexivity|]. apply push_state; exact Hm1.
Qed.

End exec.
