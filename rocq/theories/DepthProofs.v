(** The height of the machine's stack is a function of the program counter. *)
From Verif Require Import SpecSyntax Machine Coder Eval ProgramProofs StackProofs MachineProofs
  CoderProofs SpecRun SpecCode CodeProofs.
Local Open Scope Z_scope.

(** ** Effects of the machine's primitives *)
Definition same_frame (m m' : mstate) : Prop := m_values m' = m_values m /\ m_pc m' = m_pc m.

Lemma same_refl : forall m, same_frame m m.
Proof. split; auto. Qed.
Lemma same_trans : forall a b c, same_frame a b -> same_frame b c -> same_frame a c.
Proof. intros a b c [H1 H2] [H3 H4]. split; congruence. Qed.

Lemma push_eff : forall v m, stk_ok m ->
  stk_ok (push v m) /\ m_sp (push v m) = S (m_sp m) /\ same_frame m (push v m).
Proof.
  intros v m H. unfold push, stk_ok in *. destruct (Nat.leb_spec (length (m_stack m)) (m_sp m)); simpl.
  - rewrite app_length. simpl. repeat split; lia.
  - rewrite length_set_nth. repeat split; lia.
Qed.

Lemma pop_eff : forall m v m', stk_ok m -> pop m = OK (v, m') ->
  stk_ok m' /\ m_sp m = S (m_sp m') /\ same_frame m m'.
Proof.
  intros m v m' H Hp. unfold pop, stk_ok in *. destruct (m_sp m) as [|sp]; [discriminate|].
  destruct (nth_error (m_stack m) sp); [|discriminate]. injection Hp as <- <-. simpl.
  rewrite length_set_nth. repeat split; lia.
Qed.

Lemma popN_eff : forall m n vs m', stk_ok m -> popN n m = OK (vs, m') ->
  stk_ok m' /\ Z.of_nat (m_sp m) = n + Z.of_nat (m_sp m') /\ same_frame m m'.
Proof.
  intros m n vs m' H Hp. unfold popN, stk_ok in *.
  destruct (Z.ltb_spec (Z.of_nat (m_sp m)) n); [discriminate|].
  destruct (Z.ltb_spec n 0); [discriminate|]. injection Hp as <- <-. simpl.
  rewrite length_clear_from. repeat split; lia.
Qed.

(** the instructions that occur in listings *)
Definition instr_ok (i : instr) : Prop :=
  match i with
  | IApply o n => inner_ok o n \/ step_ok o n
  | ILoop o _ => o = OpFor \/ o = OpNest
  | _ => True
  end.

(** the effect of an instruction on stack height, loops and program counter *)
Definition effect (i : instr) (m m' : mstate) : Prop :=
  stk_ok m' /\ (m_sp m' + takes i = m_sp m + leaves i)%nat /\
  match i with
  | ILoop _ e => (m_pc m' = e /\ m_values m' = m_values m) \/
                 (m_pc m' = m_pc m /\ length (m_values m') = S (length (m_values m)))
  | IRep t => (m_pc m' = t /\ length (m_values m') = length (m_values m)) \/
              (m_pc m' = m_pc m /\ S (length (m_values m')) = length (m_values m))
  | _ => same_frame m m'
  end.

Ltac obound H :=
  match type of H with
  | obind ?x _ = OK _ => let E := fresh "E" in destruct x eqn:E; cbn [obind] in H; try discriminate H
  end.

Lemma branch_eff : forall p pc m m', branch p pc m = OK m' ->
  m_pc m' = pc /\ m_values m' = m_values m /\ m_sp m' = m_sp m /\ m_stack m' = m_stack m.
Proof.
  intros p pc m m' H. unfold branch in H. destruct ((pc <=? 0) || (pc >? prog_size p)); [discriminate|].
  injection H as <-. auto.
Qed.

Lemma loop_eff : forall p producer e m m' o, stk_ok m -> looptop p producer e m = OK m' ->
  effect (ILoop o e) m m'.
Proof.
  intros p producer e m m' o Hm H. unfold looptop in H. destruct (g_list (m_out m)) as [|v l] eqn:Eg.
  - apply branch_eff in H as (H1 & H2 & H3 & H4). unfold effect, stk_ok in *. simpl.
    rewrite H3, H4. repeat split; auto; lia.
  - destruct (producer (m_tick m) (v :: l)) as [vs t]. destruct (recv vs) as [[v' b] vs'].
    injection H as <-. unfold effect, stk_ok in *. simpl. repeat split; auto; lia.
Qed.

Lemma exec_effect : forall W p root ord i m m', decodes p ord i -> instr_ok i -> stk_ok m ->
  exec W p root ord m = OK m' -> effect i m m'.
Proof.
  intros W p root ord i m m' Hd Hi Hm H. destruct i as [v| | |o n|o e|tp]; simpl in Hd.
  - rewrite Hd in H. injection H as <-. destruct (push_eff v m Hm) as (A & B & C).
    split; [exact A|]. simpl. split; [lia|exact C].
  - unfold exec in H. rewrite Hd in H. injection H as <-. destruct (push_eff root m Hm) as (A & B & C).
    split; [exact A|]. simpl. split; [lia|exact C].
  - unfold exec in H. rewrite Hd in H. injection H as <-. destruct (push_eff (m_dot m) m Hm) as (A & B & C).
    split; [exact A|]. simpl. split; [lia|exact C].
  - destruct Hd as [Ho Hn]. unfold exec in H. rewrite Ho, Hn in H.
    assert (Hbin : n = 2%nat ->
       (let! (b, m1) := pop m in
        let! (a, m2) := pop m1 in
        match binop W o a b with
        | Some r => let! v := r in OK (push v m2)
        | None => Panics
        end) = OK m' -> leaves (IApply o n) = 1%nat -> effect (IApply o n) m m').
    { intros -> Hb Hlv. obound Hb. destruct a as [b m1]. obound Hb. destruct a as [a m2].
      destruct (binop W o a b) as [r|]; [|discriminate]. obound Hb. injection Hb as <-.
      destruct (pop_eff _ _ _ Hm E) as (A1 & B1 & C1).
      destruct (pop_eff _ _ _ A1 E0) as (A2 & B2 & C2).
      destruct (push_eff a0 m2 A2) as (A3 & B3 & C3).
      unfold effect. rewrite Hlv. cbn [takes]. split; [exact A3|]. split; [lia|].
      eapply same_trans; [exact C1|]. eapply same_trans; eauto. }
    simpl in Hi. destruct Hi as [Hi|Hi].
    + destruct o; cbn [inner_ok is_binary] in Hi; try (destruct Hi; discriminate);
        try (apply Hbin; [apply Hi|exact H|reflexivity]); try (apply Hbin; [exact Hi|exact H|reflexivity]).
      * subst n. obound H. destruct a as [v m1]. cbn [unop] in H. injection H as <-.
        destruct (pop_eff _ _ _ Hm E) as (A1 & B1 & C1).
        destruct (push_eff (op_neg W v) m1 A1) as (A3 & B3 & C3).
        split; [exact A3|]. cbn [takes leaves]. split; [lia|]. eapply same_trans; eauto.
      * obound H. destruct a as [vs m1]. destruct vs as [|[] rest]; try discriminate H.
        obound H. destruct a as [r t]. injection H as <-.
        destruct (popN_eff _ _ _ _ Hm E) as (A1 & B1 & C1).
        assert (A1' : stk_ok (set_tick m1 t)) by exact A1.
        destruct (push_eff r (set_tick m1 t) A1') as (A3 & B3 & C3).
        split; [exact A3|]. cbn [takes leaves]. split; [cbn [set_tick m_sp] in B3; lia|].
        eapply same_trans; [exact C1|]. destruct C3. split; auto.
      * obound H. destruct a as [vs m1]. injection H as <-.
        destruct (popN_eff _ _ _ _ Hm E) as (A1 & B1 & C1).
        destruct (push_eff (VArr vs) m1 A1) as (A3 & B3 & C3).
        split; [exact A3|]. cbn [takes leaves]. split; [lia|]. eapply same_trans; eauto.
      * subst n. obound H. destruct a as [v m1]. cbn [unop] in H. injection H as <-.
        destruct (pop_eff _ _ _ Hm E) as (A1 & B1 & C1).
        destruct (push_eff (VBool (negb (cvb W v))) m1 A1) as (A3 & B3 & C3).
        split; [exact A3|]. cbn [takes leaves]. split; [lia|]. eapply same_trans; eauto.
    + destruct o; simpl in Hi; try contradiction.
      all: try (subst n; obound H; destruct a as [out t]; injection H as <-;
                split; [exact Hm|]; simpl; split; [lia|split; reflexivity]).
      all: try (subst n; obound H; destruct a as [v m1];
                destruct (pop_eff _ _ _ Hm E) as (A1 & B1 & C1);
                destruct (isNothing v);
                [injection H as <-; split; [exact A1|]; simpl; split; [lia|exact C1]
                |obound H; try destruct a as [out t]; injection H as <-; split; [exact A1|]; simpl; split; [lia|exact C1]]).
      all: try (obound H; destruct a as [vs m1];
                destruct (popN_eff _ _ _ _ Hm E) as (A1 & B1 & C1);
                obound H; try destruct a as [out t]; injection H as <-; split; [exact A1|]; simpl; split; [lia|exact C1]).
      all: try (subst n; obound H; destruct a as [v m1];
                destruct (pop_eff _ _ _ Hm E) as (A1 & B1 & C1);
                destruct (negb (isNothing v) && cvb W v); injection H as <-;
                (split; [exact A1|]; simpl; split; [lia|exact C1])).
      subst n. destruct (valsWild W (m_tick m) (m_out m) (m_dot m)) as [out t]. injection H as <-.
      split; [exact Hm|]. simpl. split; [lia|split; reflexivity].
  - destruct Hd as [Ho Hp]. unfold exec in H. rewrite Ho in H. destruct Hi as [-> | ->];
      rewrite Hp in H; eapply loop_eff; eauto.
  - destruct Hd as [Ho Hp]. unfold exec in H. rewrite Ho, Hp in H. unfold rep in H.
    destruct (m_values m) as [|vs vss] eqn:Ev; [discriminate|].
    destruct (recv vs) as [[v more] vs']. destruct more; simpl in H.
    + apply branch_eff in H as (H1 & H2 & H3 & H4). unfold effect, stk_ok in *. simpl in *.
      rewrite H3, H4. split; [exact Hm|]. split; [lia|]. left. rewrite H2, Ev. auto.
    + injection H as <-. split; [exact Hm|]. simpl. split; [lia|]. right. rewrite Ev. auto.
Qed.

(** ** Heights in listings *)
Lemma height_app : forall a b, height (a ++ b) = height a + height b.
Proof. induction a as [|i a IH]; intro b; simpl; auto. rewrite IH. lia. Qed.
Lemma open_app : forall a b, open_loops (a ++ b) = open_loops a + open_loops b.
Proof. induction a as [|i a IH]; intro b; simpl; auto. rewrite IH. lia. Qed.

Lemma height_cons : forall i a, height (i :: a) = Z.of_nat (leaves i) - Z.of_nat (takes i) + height a.
Proof. reflexivity. Qed.
Lemma open_cons : forall i a, open_loops (i :: a) =
  match i with ILoop _ _ => 1 | IRep _ => -1 | _ => 0 end + open_loops a.
Proof. reflexivity. Qed.

Definition not_loop (i : instr) : Prop := match i with ILoop _ _ | IRep _ => False | _ => True end.

(** straight-line code that starts at height [h] *)
Definition straight (h : Z) (is : list instr) : Prop :=
  forall pre i post, is = pre ++ i :: post ->
    instr_ok i /\ not_loop i /\ Z.of_nat (takes i) <= h + height pre.

Lemma straight_nil : forall h, straight h [].
Proof. intros h pre i post H. destruct pre; discriminate. Qed.

Lemma app_split : forall A (a b pre : list A) i post, a ++ b = pre ++ i :: post ->
  (exists post', a = pre ++ i :: post') \/ (exists pre', pre = a ++ pre' /\ b = pre' ++ i :: post).
Proof.
  induction a as [|x a IH]; intros b pre i post H; simpl in H.
  - right. exists pre. auto.
  - destruct pre as [|y pre]; simpl in H; injection H as -> H.
    + left. exists a. reflexivity.
    + destruct (IH _ _ _ _ H) as [[post' ->]|(pre' & -> & ->)].
      * left. exists post'. reflexivity.
      * right. exists pre'. auto.
Qed.

Lemma straight_app : forall h a b, straight h a -> straight (h + height a) b -> straight h (a ++ b).
Proof.
  intros h a b Ha Hb pre i post H. apply app_split in H as [[post' H]|(pre' & -> & H)].
  - eapply Ha; eauto.
  - rewrite height_app. destruct (Hb _ _ _ H) as (A & B & C). repeat split; auto. lia.
Qed.

Lemma straight_one : forall h i, instr_ok i -> not_loop i -> Z.of_nat (takes i) <= h -> straight h [i].
Proof.
  intros h i H1 H2 H3 pre j post H. destruct pre as [|x [|]]; simpl in H; try discriminate.
  injection H as <- <-. simpl. repeat split; auto; lia.
Qed.

Lemma straight_no_loops : forall h is, straight h is -> open_loops is = 0.
Proof.
  intros h is. revert h. induction is as [|i is IH]; intros h H; auto.
  destruct (H [] i is eq_refl) as (_ & Hn & _).
  simpl. rewrite (IH (h + height [i])).
  - destruct i; simpl in Hn; try contradiction; reflexivity.
  - intros pre j post E. destruct (H (i :: pre) j post) as (A & B & C); [simpl; congruence|].
    repeat split; auto. simpl in *. lia.
Qed.

Lemma straight_expr : forall e, wf_expr e -> forall h, 0 <= h ->
  straight h (list_expr e) /\ height (list_expr e) = 1.
Proof.
  induction e using expr_tree_ind; intros Hwf h Hh;
    try (split; [apply straight_one; simpl; auto; lia|reflexivity]).
  apply wf_inner in Hwf as (Hkids & _ & Hin). cbn [list_expr].
  assert (Hk : forall h, 0 <= h -> straight h (flat_map list_expr kids) /\
                 height (flat_map list_expr kids) = Z.of_nat (length kids)).
  { clear Hin h Hh. induction kids as [|k ks IH]; intros h Hh.
    - split; [apply straight_nil|reflexivity].
    - inversion H; subst. inversion Hkids; subst. destruct (H2 H4 h Hh) as [A B].
      destruct (IH H3 H5 (h + 1)) as [C D]; [lia|]. cbn [flat_map length]. rewrite height_app. split; [|lia].
      apply straight_app; auto. rewrite B. exact C. }
  destruct (Hk h Hh) as [A B]. rewrite height_app, B. split.
  - apply straight_app; auto. apply straight_one; simpl; auto. lia.
  - destruct o; simpl in Hin; try (destruct Hin; discriminate); cbn [height fold_right leaves takes]; lia.
Qed.

Lemma straight_args : forall args, Forall wf_arg args -> forall h, 0 <= h ->
  straight h (flat_map list_arg args) /\ height (flat_map list_arg args) = Z.of_nat (length args).
Proof.
  induction args as [|a args IH]; intros HW h Hh.
  - split; [apply straight_nil|reflexivity].
  - inversion HW; subst.
    assert (Ha : straight h (list_arg a) /\ height (list_arg a) = 1).
    { destruct a; try (split; [apply straight_one; simpl; auto; lia|reflexivity]).
      apply straight_expr; auto. }
    destruct Ha as [A B]. destruct (IH H2 (h + 1)) as [C D]; [lia|].
    cbn [flat_map length]. rewrite height_app. split; [|lia].
    apply straight_app; auto. rewrite B. exact C.
Qed.

Lemma straight_body : forall s, wf_step s -> straight 0 (list_body s) /\ height (list_body s) = 0.
Proof.
  intros s Hwf. unfold list_body.
  destruct (straight_args _ (wf_step_args s Hwf) 0) as [A B]; [lia|].
  pose proof (wf_step_ok s Hwf) as Hok. rewrite height_app, B. split.
  - apply straight_app; auto. apply straight_one; simpl; auto. lia.
  - destruct (st_op s); simpl in Hok; try contradiction; cbn [height fold_right leaves takes]; lia.
Qed.

(** what holds at each position of a whole listing *)
Definition placed (is : list instr) (k : nat) (i : instr) : Prop :=
  let h := height (firstn k is) in
  let d := open_loops (firstn k is) in
  instr_ok i /\ Z.of_nat (takes i) <= h /\ 0 <= d <= 1 /\
  match i with
  | ILoop _ e => h = 0 /\ d = 0 /\ exists n, e = Z.of_nat n /\ (k < n <= length is)%nat /\
      height (firstn n is) = 0 /\ open_loops (firstn n is) = 0 /\
      nth_error is (n - 1) = Some (IRep (Z.of_nat k + 1))
  | IRep t => h = 0 /\ d = 1 /\ exists n, t = Z.of_nat n /\ (0 < n <= k)%nat /\
      height (firstn n is) = 0 /\ open_loops (firstn n is) = 1
  | _ => True
  end.

Lemma firstn_app_exact : forall A (a b : list A), firstn (length a) (a ++ b) = a.
Proof. intros. rewrite firstn_app, firstn_all, Nat.sub_diag. simpl. apply app_nil_r. Qed.

Lemma firstn_past : forall A (a b : list A) k, firstn (length a + k) (a ++ b) = a ++ firstn k b.
Proof. intros. apply firstn_app_2. Qed.

Lemma placed_step : forall before s rest, wf_step s -> height before = 0 -> open_loops before = 0 ->
  let c := list_step (Z.of_nat (length before)) s in
  height c = 0 /\ open_loops c = 0 /\
  forall k i, nth_error c k = Some i -> placed (before ++ c ++ rest) (length before + k) i.
Proof.
  intros before s rest Hwf Hh Hd. destruct (straight_body s Hwf) as [Hs Hb].
  pose proof (straight_no_loops _ _ Hs) as Hl.
  cbv zeta. unfold list_step. destruct (loop_of (st_op s)) as [o|] eqn:Eo.
  - set (body := list_body s) in *.
    set (at_ := Z.of_nat (length before)).
    split; [rewrite height_cons, height_app; simpl; lia|].
    split; [rewrite open_cons, open_app, open_cons, Hl; change (open_loops []) with 0; lia|].
    set (is := before ++ (ILoop o (at_ + 2 + Z.of_nat (length body)) :: body ++ [IRep (at_ + 1)]) ++ rest).
    assert (F1 : firstn (length before + 1) is = before ++ [ILoop o (at_ + 2 + Z.of_nat (length body))]).
    { unfold is. rewrite firstn_past. reflexivity. }
    assert (F2 : firstn (length before + (2 + length body)) is =
      before ++ ILoop o (at_ + 2 + Z.of_nat (length body)) :: body ++ [IRep (at_ + 1)]).
    { unfold is. rewrite firstn_past. f_equal.
      replace (2 + length body)%nat with (length (ILoop o (at_ + 2 + Z.of_nat (length body)) :: body ++ [IRep (at_ + 1)])).
      - apply firstn_app_exact.
      - simpl. rewrite app_length. simpl. lia. }
    intros k i Hk. destruct k as [|k].
    + injection Hk as <-. rewrite Nat.add_0_r. unfold placed.
      assert (F0 : firstn (length before) is = before) by apply firstn_app_exact.
      rewrite F0, Hh, Hd. split; [destruct (st_op s); simpl in Eo; try discriminate; injection Eo as <-; simpl; auto|].
      split; [simpl; lia|]. split; [lia|]. split; [reflexivity|]. split; [reflexivity|].
      exists (length before + (2 + length body))%nat. split; [unfold at_; lia|].
      split; [unfold is; rewrite !app_length; simpl; rewrite app_length; simpl; lia|].
      rewrite F2. split; [rewrite height_app, height_cons, height_app; simpl; lia|].
      split; [rewrite open_app, open_cons, open_app, open_cons, Hl; change (open_loops []) with 0; lia|].
      unfold is. rewrite nth_error_app2 by lia.
      replace (length before + (2 + length body) - 1 - length before)%nat with (S (length body)) by lia.
      cbn [app nth_error]. rewrite nth_error_app1 by (rewrite app_length; simpl; lia).
      rewrite nth_error_app2 by lia. rewrite Nat.sub_diag. reflexivity.
    + simpl in Hk. destruct (Nat.lt_ge_cases k (length body)) as [Hlt|Hge].
      * rewrite nth_error_app1 in Hk by assumption.
        apply nth_error_split in Hk as (pre & post & Hbody & Hlen).
        destruct (Hs _ _ _ Hbody) as (A & B & C).
        assert (F : firstn (length before + S k) is =
          before ++ ILoop o (at_ + 2 + Z.of_nat (length body)) :: pre).
        { unfold is. rewrite firstn_past. f_equal. cbn [app firstn]. f_equal.
          rewrite Hbody, <- !app_assoc, <- Hlen. apply firstn_app_exact. }
        assert (Ho : open_loops pre = 0).
        { apply (straight_no_loops 0). intros a j b E. apply (Hs a j (b ++ i :: post)).
          rewrite Hbody, E, <- app_assoc. reflexivity. }
        unfold placed. rewrite F, height_app, open_app, height_cons, open_cons. cbn [takes leaves]. rewrite Ho. split; [exact A|]. split; [lia|]. split; [lia|].
        destruct i; simpl in B; try contradiction; auto.
      * rewrite nth_error_app2 in Hk by assumption.
        assert (k = length body).
        { destruct (Nat.eq_dec k (length body)); auto. rewrite (proj2 (nth_error_None _ _)) in Hk; [discriminate|].
          simpl. lia. }
        subst k. rewrite Nat.sub_diag in Hk. injection Hk as <-.
        assert (F : firstn (length before + S (length body)) is =
          before ++ ILoop o (at_ + 2 + Z.of_nat (length body)) :: body).
        { unfold is. rewrite firstn_past. f_equal. cbn [app firstn]. f_equal.
          rewrite <- !app_assoc. apply firstn_app_exact. }
        unfold placed. rewrite F, height_app, open_app, height_cons, open_cons. cbn [takes leaves]. split; [exact I|]. split; [lia|]. split; [lia|]. split; [lia|]. split; [lia|].
        exists (length before + 1)%nat. split; [unfold at_; lia|]. split; [lia|].
        rewrite F1, height_app, open_app. simpl. lia.
  - split; [exact Hb|]. split; [exact Hl|]. intros k i Hk.
    apply nth_error_split in Hk as (pre & post & Hbody & Hlen).
    destruct (Hs _ _ _ Hbody) as (A & B & C).
    assert (Ho : open_loops pre = 0).
    { apply (straight_no_loops 0). intros a j b E. apply (Hs a j (b ++ i :: post)).
      rewrite Hbody, E, <- app_assoc. reflexivity. }
    unfold placed. rewrite firstn_past.
    assert (F : firstn k (list_body s ++ rest) = pre).
    { rewrite Hbody, <- app_assoc, <- Hlen. apply firstn_app_exact. }
    rewrite F, height_app, open_app, Hh, Hd, Ho. split; [exact A|]. split; [lia|]. split; [lia|].
    destruct i; simpl in B; try contradiction; auto.
Qed.

Lemma placed_path : forall ss before, wf_path ss -> height before = 0 -> open_loops before = 0 ->
  let c := list_path (Z.of_nat (length before)) ss in
  height c = 0 /\ open_loops c = 0 /\
  forall k i, nth_error c k = Some i -> placed (before ++ c) (length before + k) i.
Proof.
  induction ss as [|s ss IH]; intros before HW Hh Hd; cbv zeta.
  - split; [reflexivity|]. split; [reflexivity|]. intros k i H; destruct k; discriminate.
  - inversion HW; subst. cbn [list_path].
    set (c1 := list_step (Z.of_nat (length before)) s).
    replace (Z.of_nat (length before) + Z.of_nat (length c1)) with (Z.of_nat (length (before ++ c1)))
      by (rewrite app_length; lia).
    set (c2 := list_path (Z.of_nat (length (before ++ c1))) ss).
    destruct (placed_step before s c2 H1 Hh Hd) as (A & B & C). fold c1 in A, B, C.
    destruct (IH (before ++ c1) H2) as (D & E & F).
    { rewrite height_app. lia. } { rewrite open_app. lia. }
    fold c2 in D, E, F. rewrite height_app, open_app. split; [lia|]. split; [lia|].
    intros k i Hk. destruct (Nat.lt_ge_cases k (length c1)) as [Hlt|Hge].
    + rewrite nth_error_app1 in Hk by assumption. apply C. exact Hk.
    + rewrite nth_error_app2 in Hk by assumption. rewrite app_assoc.
        replace (length before + k)%nat with (length (before ++ c1) + (k - length c1))%nat
          by (rewrite app_length; lia).
        apply F. exact Hk.
Qed.

Lemma placed_listing : forall ss k i, wf_path ss -> nth_error (list_path 0 ss) k = Some i ->
  placed (list_path 0 ss) k i.
Proof.
  intros ss k i HW H. destruct (placed_path ss [] HW eq_refl eq_refl) as (_ & _ & C). apply (C k i H).
Qed.

(** ** The invariant of a run *)
Definition at_height (is : list instr) (m : mstate) : Prop :=
  stk_ok m /\ exists k, m_pc m = Z.of_nat k /\ (k <= length is)%nat /\
  Z.of_nat (m_sp m) = height (firstn k is) /\
  Z.of_nat (length (m_values m)) = open_loops (firstn k is).

Lemma height_next : forall is k i, nth_error is k = Some i ->
  height (firstn (S k) is) = height (firstn k is) + Z.of_nat (leaves i) - Z.of_nat (takes i) /\
  open_loops (firstn (S k) is) = open_loops (firstn k is) +
    match i with ILoop _ _ => 1 | IRep _ => -1 | _ => 0 end.
Proof.
  intros is k i H. assert (Hk : (k < length is)%nat) by (apply nth_error_Some; congruence).
  destruct (nth_error_firstn_last _ is k Hk) as (x & Hx & E). rewrite H in Hx. injection Hx as <-.
  rewrite E, height_app, open_app. simpl. lia.
Qed.

Lemma at_height_step : forall W p root ss m ord m', wf_path ss ->
  Forall2 (decodes p) (p_orders p) (list_path 0 ss) ->
  at_height (list_path 0 ss) m -> m_pc m < prog_size p ->
  index_Z (p_orders p) (m_pc m) = Some ord ->
  exec W p root ord (set_pc m (m_pc m + 1)) = OK m' -> at_height (list_path 0 ss) m'.
Proof.
  intros W p root ss m ord m' HW Hd (Hm & k & Hpc & Hk & Hh & Ho) Hlt Hord He.
  set (is := list_path 0 ss) in *.
  rewrite Hpc in Hord. unfold index_Z in Hord. destruct (Z.ltb_spec (Z.of_nat k) 0); [lia|].
  rewrite Nat2Z.id in Hord.
  assert (Hi : exists i, nth_error is k = Some i /\ decodes p ord i).
  { clear - Hd Hord. revert k Hord. induction Hd; intros k Hord; destruct k; simpl in Hord; try discriminate.
    - injection Hord as ->. exists y. auto.
    - apply IHHd. exact Hord. }
  destruct Hi as (i & Hi & Hdec).
  pose proof (placed_listing ss k i HW Hi) as (Hok & Htk & Hrange & Hpl). fold is in Htk, Hrange, Hpl.
  destruct (height_next is k i Hi) as [Hn1 Hn2].
  assert (Hkl : (S k <= length is)%nat) by (apply nth_error_Some; congruence).
  destruct (exec_effect W p root ord i (set_pc m (m_pc m + 1)) m' Hdec Hok Hm He) as (A & B & C).
  split; [exact A|]. cbn [m_sp set_pc] in B.
  assert (Hnext : m_pc m' = m_pc m + 1 -> Z.of_nat (length (m_values m')) = open_loops (firstn (S k) is) ->
    exists k0, m_pc m' = Z.of_nat k0 /\ (k0 <= length is)%nat /\
    Z.of_nat (m_sp m') = height (firstn k0 is) /\ Z.of_nat (length (m_values m')) = open_loops (firstn k0 is)).
  { intros E1 E2. exists (S k). rewrite E1, Hpc. repeat split; lia. }
  destruct i; cbn [m_pc m_values set_pc] in C.
  1-4: destruct C as [C1 C2]; cbn [m_pc m_values set_pc] in C1, C2; apply Hnext; [exact C2|rewrite C1; lia].
  - destruct Hpl as (P1 & P2 & n & P3 & P4 & P5 & P6 & _). cbn [takes leaves] in B.
    destruct C as [[C1 C2]|[C1 C2]].
    + exists n. rewrite C1, C2. repeat split; lia.
    + apply Hnext; auto. rewrite C2. lia.
  - destruct Hpl as (P1 & P2 & n & P3 & P4 & P5 & P6). cbn [takes leaves] in B.
    destruct C as [[C1 C2]|[C1 C2]].
    + exists n. rewrite C1, C2. repeat split; lia.
    + apply Hnext; auto. lia.
Qed.

Lemma at_height_run : forall W p root ss n m m', wf_path ss ->
  Forall2 (decodes p) (p_orders p) (list_path 0 ss) ->
  steps W p root n m m' -> at_height (list_path 0 ss) m -> at_height (list_path 0 ss) m'.
Proof.
  intros W p root ss n m m' HW Hd H. induction H; intro Hm; auto.
  apply IHsteps. eapply at_height_step; eauto.
Qed.

Lemma at_height_start : forall is t cands, at_height is (m_start t cands).
Proof.
  intros. split; [unfold stk_ok; simpl; lia|]. exists 0%nat. simpl. repeat split; lia.
Qed.

(** ** Statements about reachable states *)
Lemma height_invariant : forall W t root cands ss p n m, wf_path ss -> Compile ss = OK p ->
  prog_size p < indexTop -> steps W p root n (m_start t cands) m ->
  (m_sp m <= length (m_stack m))%nat /\
  exists k, m_pc m = Z.of_nat k /\ (k <= length (list_path 0 ss))%nat /\
  Z.of_nat (m_sp m) = height (firstn k (list_path 0 ss)) /\
  Z.of_nat (length (m_values m)) = open_loops (firstn k (list_path 0 ss)).
Proof.
  intros W t root cands ss p n m HW Hc Hz Hs.
  apply (at_height_run W p root ss n (m_start t cands) m HW); auto.
  - apply compile_decodes; auto.
  - apply at_height_start.
Qed.

Lemma no_underflow : forall W t root cands ss p n m ord, wf_path ss -> Compile ss = OK p ->
  prog_size p < indexTop -> steps W p root n (m_start t cands) m ->
  index_Z (p_orders p) (m_pc m) = Some ord ->
  exists i, decodes p ord i /\ (takes i <= m_sp m <= length (m_stack m))%nat /\
    (length (m_values m) <= 1)%nat /\
    match i with IRep _ => m_values m <> [] | ILoop _ _ => m_values m = [] | _ => True end.
Proof.
  intros W t root cands ss p n m ord HW Hc Hz Hs Hord.
  destruct (height_invariant W t root cands ss p n m HW Hc Hz Hs) as (Hm & k & Hpc & Hk & Hh & Ho).
  pose proof (compile_decodes ss p HW Hc Hz) as Hd.
  rewrite Hpc in Hord. unfold index_Z in Hord. destruct (Z.ltb_spec (Z.of_nat k) 0); [lia|].
  rewrite Nat2Z.id in Hord.
  assert (Hi : exists i, nth_error (list_path 0 ss) k = Some i /\ decodes p ord i).
  { clear - Hd Hord. revert k Hord. induction Hd; intros k Hord; destruct k; simpl in Hord; try discriminate.
    - injection Hord as ->. exists y. auto.
    - apply IHHd. exact Hord. }
  destruct Hi as (i & Hi & Hdec). exists i. split; [exact Hdec|].
  pose proof (placed_listing ss k i HW Hi) as (Hok & Htk & Hrange & Hpl).
  split; [lia|]. split; [lia|]. destruct i; auto.
  - destruct (m_values m); auto. simpl in Ho. lia.
  - intro E. rewrite E in Ho. simpl in Ho. lia.
Qed.

Lemma list_path_app : forall s1 s2 at_, list_path at_ (s1 ++ s2) =
  list_path at_ s1 ++ list_path (at_ + Z.of_nat (length (list_path at_ s1))) s2.
Proof.
  induction s1 as [|s s1 IH]; intros s2 at_; simpl.
  - rewrite Z.add_0_r. reflexivity.
  - rewrite IH, <- app_assoc, app_length. do 3 f_equal. lia.
Qed.

Lemma boundary_empty : forall W t root cands s1 s2 p1 p n m, wf_path (s1 ++ s2) ->
  Compile s1 = OK p1 -> Compile (s1 ++ s2) = OK p -> prog_size p < indexTop ->
  steps W p root n (m_start t cands) m -> m_pc m = prog_size p1 ->
  m_sp m = 0%nat /\ m_values m = [].
Proof.
  intros W t root cands s1 s2 p1 p n m HW Hc1 Hc Hz Hs Hpc1.
  destruct (height_invariant W t root cands _ p n m HW Hc Hz Hs) as (Hm & k & Hpc & Hk & Hh & Ho).
  apply Forall_app in HW as [HW1 HW2].
  unfold prog_size in Hpc1. rewrite (compile_length s1 p1 HW1 Hc1), Hpc in Hpc1.
  apply Nat2Z.inj in Hpc1. subst k.
  rewrite list_path_app, firstn_app_exact in Hh, Ho.
  destruct (placed_path s1 [] HW1 eq_refl eq_refl) as (A & B & _). simpl in A, B.
  rewrite A in Hh. rewrite B in Ho. split; [lia|]. destruct (m_values m); auto. simpl in Ho. lia.
Qed.

(** ** The length of a run *)
Lemma progress : forall W p root ss m ord m', wf_path ss ->
  Forall2 (decodes p) (p_orders p) (list_path 0 ss) ->
  at_height (list_path 0 ss) m -> m_pc m < prog_size p ->
  index_Z (p_orders p) (m_pc m) = Some ord ->
  exec W p root ord (set_pc m (m_pc m + 1)) = OK m' ->
  received ord m m' = true \/ m_pc m < m_pc m'.
Proof.
  intros W p root ss m ord m' HW Hd (Hm & k & Hpc & Hk & Hh & Ho) Hlt Hord He.
  set (is := list_path 0 ss) in *.
  rewrite Hpc in Hord. unfold index_Z in Hord. destruct (Z.ltb_spec (Z.of_nat k) 0); [lia|].
  rewrite Nat2Z.id in Hord.
  assert (Hi : exists i, nth_error is k = Some i /\ decodes p ord i).
  { clear - Hd Hord. revert k Hord. induction Hd; intros k Hord; destruct k; simpl in Hord; try discriminate.
    - injection Hord as ->. exists y. auto.
    - apply IHHd. exact Hord. }
  destruct Hi as (i & Hi & Hdec).
  pose proof (placed_listing ss k i HW Hi) as (Hok & Htk & Hrange & Hpl). fold is in Htk, Hrange, Hpl.
  destruct (exec_effect W p root ord i (set_pc m (m_pc m + 1)) m' Hdec Hok Hm He) as (A & B & C).
  destruct i; cbn [m_pc m_values set_pc] in C.
  1-4: right; destruct C as [_ C]; cbn [m_pc set_pc] in C; lia.
  - destruct Hpl as (_ & _ & n & P3 & P4 & _). destruct Hdec as [Ho' _]. unfold received. rewrite Ho'.
    destruct C as [[C1 C2]|[C1 C2]]; [right; lia|]. left. simpl in Hok.
    destruct Hok as [-> | ->]; rewrite C2; apply Nat.eqb_refl.
  - destruct Hdec as [Ho' _]. unfold received. rewrite Ho'.
    destruct C as [[C1 C2]|[C1 C2]]; [|right; lia]. left. rewrite C2. apply Nat.eqb_refl.
Qed.

Lemma counts_bound : forall W p root ss n i m m', wf_path ss ->
  Forall2 (decodes p) (p_orders p) (list_path 0 ss) -> counts W p root n i m m' ->
  at_height (list_path 0 ss) m ->
  at_height (list_path 0 ss) m' /\
  (Z.of_nat n <= prog_size p * Z.of_nat i + m_pc m' - m_pc m).
Proof.
  intros W p root ss n i m m' HW Hd H. induction H; intro Hm.
  - split; [exact Hm|]. lia.
  - pose proof (at_height_step _ _ _ _ _ _ _ HW Hd Hm H H0 H1) as Hm1.
    destruct (IHcounts Hm1) as [A B]. split; [exact A|].
    pose proof (progress _ _ _ _ _ _ _ HW Hd Hm H H0 H1) as Hp.
    destruct Hm1 as (_ & k1 & Hk1 & _).
    destruct (received ord m m1); [|destruct Hp as [Hp|Hp]; [discriminate|]; lia]. lia.
Qed.

Lemma run_length : forall W t root cands ss p n i m, wf_path ss -> Compile ss = OK p ->
  prog_size p < indexTop -> counts W p root n i (m_start t cands) m ->
  (n <= length (p_orders p) * (1 + i))%nat.
Proof.
  intros W t root cands ss p n i m HW Hc Hz H. pose proof (compile_decodes ss p HW Hc Hz) as Hd.
  destruct (counts_bound _ _ _ _ _ _ _ _ HW Hd H (at_height_start _ t cands)) as [(_ & k & Hk & Hl & _) B].
  pose proof (compile_length ss p HW Hc) as Hlen. unfold prog_size in B. simpl in B. rewrite Hk in B. nia.
Qed.
