(** Properties of compiled texts. *)
From Verif Require Import SpecSyntax Machine Coder Eval MachineProofs CoderProofs SpecDoc DocProofs
  SpecSelect SpecRun RunProofs StackProofs SliceProofs StepProofs SpecCode CodeProofs DepthProofs TableProofs SpecCost
  CostProofs OriginProofs SpecGrammar Parser ParserExact Api SpecText EvalProofs SizeProofs.
Local Open Scope Z_scope.

Definition paired (a : nat) (is : list instr) (k : nat) (i : instr) : Prop :=
  match i with
  | ILoop _ exit => exists n, exit = Z.of_nat (a + n) /\ (k + 2 < n <= length is)%nat /\
      nth_error is (n - 1) = Some (IRep (Z.of_nat (a + k) + 1))
  | IRep top => exists n o, top = Z.of_nat (a + n) /\ (0 < n < k)%nat /\
      nth_error is (n - 1) = Some (ILoop o (Z.of_nat (a + k) + 1))
  | _ => True
  end.

Lemma body_plain : forall s i, wf_step s -> In i (list_body s) ->
  match i with ILoop _ _ | IRep _ => False | _ => True end.
Proof.
  intros s i Hwf Hi. destruct (straight_body s Hwf) as [Hs _].
  apply in_split in Hi as (pre & post & E). destruct (Hs _ _ _ E) as (_ & H & _).
  destruct i; simpl in H; auto; contradiction.
Qed.

Lemma paired_step : forall s a k i, wf_step s -> nth_error (list_step (Z.of_nat a) s) k = Some i ->
  paired a (list_step (Z.of_nat a) s) k i.
Proof.
  intros s a k i Hwf H. unfold list_step in *. destruct (loop_of (st_op s)) as [o|].
  - assert (Hb : (1 <= length (list_body s))%nat) by (unfold list_body; rewrite app_length; simpl; lia).
    destruct k as [|k].
    + injection H as <-. exists (2 + length (list_body s))%nat. split; [lia|].
      split; [cbn [length]; rewrite app_length; simpl; lia|].
      replace (2 + length (list_body s) - 1)%nat with (S (length (list_body s))) by lia.
      cbn [nth_error]. rewrite nth_error_app2, Nat.sub_diag by lia. simpl. do 2 f_equal. lia.
    + cbn [nth_error] in H. destruct (Nat.lt_ge_cases k (length (list_body s))) as [Hlt|Hge].
      * rewrite nth_error_app1 in H by assumption. apply nth_error_In, (body_plain s i Hwf) in H.
        destruct i; simpl; auto; contradiction.
      * rewrite nth_error_app2 in H by assumption.
        destruct (k - length (list_body s))%nat as [|d] eqn:E; [|destruct d; discriminate].
        injection H as <-. exists 1%nat, o. split; [lia|]. split; [lia|].
        simpl. do 2 f_equal. lia.
  - apply nth_error_In, (body_plain s i Hwf) in H. destruct i; simpl; auto; contradiction.
Qed.

Lemma paired_path : forall ss a k i, wf_path ss -> nth_error (list_path (Z.of_nat a) ss) k = Some i ->
  paired a (list_path (Z.of_nat a) ss) k i.
Proof.
  induction ss as [|s ss IH]; intros a k i HW H; [destruct k; discriminate|].
  inversion HW; subst. cbn [list_path] in *. set (c := list_step (Z.of_nat a) s) in *.
  replace (Z.of_nat a + Z.of_nat (length c)) with (Z.of_nat (a + length c)) in * by lia.
  destruct (Nat.lt_ge_cases k (length c)) as [Hlt|Hge].
  - rewrite nth_error_app1 in H by assumption. apply paired_step in H; auto. fold c in H.
    destruct i; simpl in *; auto.
    + destruct H as (n & E & Hn & Hk). exists n. split; auto. split; [rewrite app_length; lia|].
      rewrite nth_error_app1 by lia. exact Hk.
    + destruct H as (n & o & E & Hn & Hk). exists n, o. split; auto. split; [lia|].
      rewrite nth_error_app1 by lia. exact Hk.
  - rewrite nth_error_app2 in H by assumption. apply IH in H; auto.
    destruct i; simpl in *; auto.
    + destruct H as (n & E & Hn & Hk). exists (length c + n)%nat. split; [lia|].
      split; [rewrite app_length; lia|]. rewrite nth_error_app2 by lia.
      replace (length c + n - 1 - length c)%nat with (n - 1)%nat by lia. rewrite Hk. do 2 f_equal. lia.
    + destruct H as (n & o & E & Hn & Hk). exists (length c + n)%nat, o. split; [lia|].
      split; [lia|]. rewrite nth_error_app2 by lia.
      replace (length c + n - 1 - length c)%nat with (n - 1)%nat by lia. rewrite Hk. do 2 f_equal. lia.
Qed.

(** ** Tables *)
Lemma table_length : forall l t, table_of l t -> (length t <= length l)%nat.
Proof. intros l t H. induction H; rewrite ?app_length; simpl; lia. Qed.

Lemma loads_length : forall is, (length (loaded is) <= length is)%nat.
Proof.
  induction is as [|i is IH]; simpl; auto. rewrite app_length. destruct i; simpl; lia.
Qed.

Lemma filter_length_le : forall A f (l : list A), (length (filter f l) <= length l)%nat.
Proof. intros A f l. induction l as [|x l IH]; simpl; [lia|]. destruct (f x); simpl; lia. Qed.

Lemma literals_count : forall ss, (length (literals ss) <= length (list_path 0 ss))%nat.
Proof. intro ss. rewrite <- (loads_path ss 0). apply loads_length. Qed.

Lemma compile_few : forall ss, wf_path ss -> Z.of_nat (length (literals ss)) <= 4194304 ->
  exists p, Compile ss = OK p.
Proof.
  intros ss Hwf Hn. pose proof (compile_interns ss Hwf) as Hi.
  assert (Hl : lits_ok (literals ss)) by (apply literals_ok; auto).
  pose proof (intern_table (literals ss) [] [] (Forall_nil _) Hl ToNil ltac:(vm_compute; discriminate)) as Ht.
  unfold interns in Hi. cbn [p_vals] in Hi.
  destruct (Compile ss) as [p|e| |]; try contradiction; [eauto|]. rewrite Hi in Ht.
  destruct Ht as (pre & post & t & E & Htab & Hlen). apply table_length in Htab. exfalso.
  pose proof (filter_length_le _ tabled (literals ss)) as Hle. rewrite E, app_length in Hle.
  change indexTop with 4194304 in Hlen. simpl in Htab. lia.
Qed.

Lemma text_short : forall TX s ss, is_bytes s -> literal_floats (o_parse_float TX) ->
  ParsePath TX s = OK ss -> Z.of_nat (length s) <= 3145728 ->
  exists jp, JP_Compile TX s = OK jp /\ fits jp.
Proof.
  intros TX s ss Hb Hl Hp Hs. pose proof (path_wf TX Hl s ss Hb Hp) as Hwf.
  destruct (compile_few ss Hwf) as [p Hc].
  { pose proof (literals_count ss) as H1. apply (path_exact TX s Hb) in Hp.
    pose proof (path_size _ _ _ s ss Hp 0) as H2. lia. }
  exists (mkJP s p). split; [unfold JP_Compile; rewrite Hp, Hc; reflexivity|].
  unfold fits. eapply text_fits; eauto.
Qed.

Lemma text_outcome : forall TX s ss t, is_bytes s -> literal_floats (o_parse_float TX) ->
  ParsePath TX s = OK ss -> table_of (filter tabled (literals ss)) t ->
  (Z.of_nat (length t) <= 4194304 <-> exists jp, JP_Compile TX s = OK jp) /\
  (Z.of_nat (length t) > 4194304 <-> JP_Compile TX s = Fail (ACompile ErrTooManyVals)).
Proof.
  intros TX s ss t Hb Hl Hp Ht. pose proof (path_wf TX Hl s ss Hb Hp) as Hwf.
  destruct (compile_outcome ss t Hwf Ht) as [A B]. unfold JP_Compile. rewrite Hp. split.
  - rewrite A. split.
    + intros [p ->]. eauto.
    + intros [jp H]. destruct (Compile ss); try discriminate. eauto.
  - rewrite B. split.
    + intros ->. reflexivity.
    + intro H. destruct (Compile ss); try discriminate. congruence.
Qed.

Section text.
Variable TX : textoracles.
Variable s : bytes.
Variable ss : path.
Variable jp : JSONPath.
Hypothesis Ha : accepted TX s ss jp.
Notation p := (jp_prog jp).

Lemma text_wf : wf_path ss.
Proof. destruct Ha as (H1 & H2 & H3 & _). eapply path_wf; eauto. Qed.
Lemma text_compile : Compile ss = OK p.
Proof. destruct Ha as (_ & _ & H3 & H4). eapply compile_text_of; eauto. Qed.

Lemma text_constants :
  Forall2 (encodes p) (p_orders p) (list_path 0 ss) /\ loaded (list_path 0 ss) = literals ss.
Proof. split; [apply compile_encodes; [apply text_wf|apply text_compile]|apply loads_path]. Qed.

Lemma text_table : table_of (filter tabled (literals ss)) (map cval_value (p_vals p)) /\
  NoDup (filter shared (map cval_value (p_vals p))) /\ Z.of_nat (length (p_vals p)) <= 4194304.
Proof.
  destruct (compile_table ss p text_wf text_compile) as [H1 H2]. split; [exact H1|]. split; [|exact H2].
  eapply table_nodup; exact H1.
Qed.

Lemma text_faithful : Forall2 (decodes p) (p_orders p) (list_path 0 ss) <->
  Forall (fun i => operand i < 4194304) (list_path 0 ss).
Proof. apply compile_faithful; [apply text_wf|apply text_compile]. Qed.

Section fits.
Hypothesis Hf : fits jp.

Lemma text_decodes : Forall2 (decodes p) (p_orders p) (list_path 0 ss) /\
  forall k i, nth_error (list_path 0 ss) k = Some i ->
    match i with
    | ILoop _ exit => exists n, exit = Z.of_nat n /\ (k + 2 < n <= length (p_orders p))%nat /\
        nth_error (list_path 0 ss) (n - 1) = Some (IRep (Z.of_nat k + 1))
    | IRep top => exists n o, top = Z.of_nat n /\ (0 < n < k)%nat /\
        nth_error (list_path 0 ss) (n - 1) = Some (ILoop o (Z.of_nat k + 1))
    | _ => True
    end.
Proof.
  split; [apply compile_decodes; [apply text_wf|apply text_compile|exact Hf]|].
  intros k i H. rewrite (compile_length ss p text_wf text_compile). exact (paired_path ss 0 k i text_wf H).
Qed.

Lemma text_height : forall W t root n m, steps W p root n (m_start t [root]) m ->
  (m_sp m <= length (m_stack m))%nat /\ exists k, m_pc m = Z.of_nat k /\
  (k <= length (list_path 0 ss))%nat /\ Z.of_nat (m_sp m) = height (firstn k (list_path 0 ss)) /\
  Z.of_nat (length (m_values m)) = open_loops (firstn k (list_path 0 ss)).
Proof. intros. eapply height_invariant; eauto using text_wf, text_compile. Qed.

Lemma text_no_underflow : forall W t root n m ord, steps W p root n (m_start t [root]) m ->
  index_Z (p_orders p) (m_pc m) = Some ord ->
  exists i, decodes p ord i /\ (takes i <= m_sp m <= length (m_stack m))%nat /\
    (length (m_values m) <= 1)%nat /\
    match i with
    | ILoop _ _ => m_values m = []
    | IRep _ => m_values m <> []
    | _ => True
    end.
Proof. intros. eapply no_underflow; eauto using text_wf, text_compile. Qed.

Lemma text_boundary : forall W t root s1 s2 p1 n m, ss = s1 ++ s2 -> Compile s1 = OK p1 ->
  steps W p root n (m_start t [root]) m -> m_pc m = prog_size p1 -> m_sp m = 0%nat /\ m_values m = [].
Proof.
  intros W t root s1 s2 p1 n m E Hc Hs Hpc. pose proof text_wf as Hw. pose proof text_compile as Hp.
  rewrite E in Hw, Hp. eapply boundary_empty; eauto.
Qed.

Lemma text_final : forall W t root n m, steps W p root n (m_start t [root]) m -> prog_size p <= m_pc m ->
  m_sp m = 0%nat /\ m_values m = [] /\ m_pc m = prog_size p /\ m_dot m = VNil.
Proof.
  intros W t root n m Hs Hpc.
  assert (Hr : run_loop n W p root (m_init t root) = OK m).
  { change (m_init t root) with (m_start t [root]). revert Hpc. clear Ha Hf. induction Hs; intro Hpc.
    - cbn [run_loop]. destruct (Z.ltb_spec (m_pc m) (prog_size p)); [lia|reflexivity].
    - cbn [run_loop]. rewrite (proj2 (Z.ltb_lt _ _) H), H0, H1. cbn [obind]. auto. }
  destruct (run_final W t root ss p m n text_wf text_compile Hf Hr) as (A & B & C & D).
  repeat split; auto. destruct (text_height W t root n m Hs) as [Hle _].
  unfold stk in A. apply (f_equal (@length _)) in A. rewrite firstn_length in A. simpl in A. lia.
Qed.

Lemma text_eval : forall W t root r, orders_ok W -> doc root ->
  (JP_Eval W t jp root r <-> r = ev_run W root t ss).
Proof. intros. apply eval_exact; auto using text_wf, text_compile. Qed.

Lemma text_no_panic : forall W t root, orders_ok W -> doc root ->
  (forall a b c l, slice_in ss a b c -> within (VArr l) root -> ~ overflowing (Z.of_nat (length l)) a b c) ->
  ~ JP_Eval W t jp root Panics.
Proof.
  intros W t root HW Hr Hs H. apply text_eval in H; auto.
  apply (ev_run_panics W root ss t HW Hr text_wf Hs). congruence.
Qed.

Lemma text_no_panic_stride : forall W t root n, orders_ok W -> doc root -> arrays_within n root ->
  (forall a b c, slice_in ss a b (Some c) -> c <= 9223372036854775807 - n + 1) ->
  (n <= 9223372036854775807) -> ~ JP_Eval W t jp root Panics.
Proof.
  intros W t root n HW Hr Hn Hs Hmax. apply text_no_panic; auto. intros a b c l Hin Hl.
  specialize (Hn l Hl). apply no_overflow; [lia|]. change max_int64 with 9223372036854775807.
  destruct c as [c|]; cbn [or_default]; [specialize (Hs a b c Hin)|]; lia.
Qed.

Lemma text_length : forall W t root n i m, counts W p root n i (m_start t [root]) m ->
  (n <= length (p_orders p) * (1 + i))%nat.
Proof. intros. eapply run_length; eauto using text_wf, text_compile. Qed.

Lemma text_visits : forall W t root n m, orders_ok W -> doc root -> steps W p root n (m_start t [root]) m ->
  (n <= length (p_orders p) * (1 + visits (levels root) (nodes root) ss))%nat.
Proof. intros. eapply run_visits; eauto using text_wf, text_compile. Qed.

Lemma text_ends : forall W t root, orders_ok W -> doc root -> exists r, JP_Eval W t jp root r.
Proof.
  intros W t root HW Hr. exists (ev_run W root t ss). apply text_eval; auto.
Qed.
End fits.

Lemma text_within : forall W t root l, orders_ok W -> JP_Eval W t jp root (OK l) ->
  forall v, In v l -> within v root \/ (v = VNil /\ has_filter ss).
Proof.
  intros W t root l HW [_ [fuel Hf]]. apply Forall_forall.
  eapply compiled_within; eauto using text_wf, text_compile.
Qed.
End text.

Lemma eval_doc : forall W t jp root l, orders_ok W -> doc root -> JP_Eval W t jp root (OK l) ->
  forall v, In v l -> doc v.
Proof.
  intros W t jp root l HW Hr [_ [fuel Hf]] v Hv.
  pose proof (run_within W (jp_prog jp) root fuel t l HW Hf) as H.
  rewrite Forall_forall in H. destruct (H v Hv) as [K| ->]; [eapply doc_within; eauto|apply doc_nil].
Qed.

Lemma eval_unique : forall W t jp root r r', JP_Eval W t jp root r -> JP_Eval W t jp root r' -> r = r'.
Proof.
  assert (A : forall f k W t p root r, Run f W t p root = r -> r <> OutOfFuel -> Run (f + k) W t p root = r).
  { intros f k W t p root r H Hn. unfold Run in *.
    destruct (run_loop f W p root (m_init t root)) as [m| | |] eqn:E; cbn [obind] in H; try congruence;
      rewrite (run_loop_more _ _ _ _ k _ _ E) by discriminate; exact H. }
  intros W t jp root r r' [H1 [f1 K1]] [H2 [f2 K2]].
  apply (A f1 f2) in K1; auto. apply (A f2 f1) in K2; auto. rewrite Nat.add_comm in K2. congruence.
Qed.

Lemma eval_go : forall W t jp root,
  (forall l, JP_Eval_go W t jp root (Some l, None) <-> JP_Eval W t jp root (OK l)) /\
  (forall e, JP_Eval_go W t jp root (None, Some e) <-> JP_Eval W t jp root (Fail e)) /\
  (forall r, JP_Eval_go W t jp root r -> (exists l, r = (Some l, None)) \/ exists e, r = (None, Some e)).
Proof.
  intros W t jp root. unfold JP_Eval_go, JP_Eval.
  pose proof (fun fuel => run_go_spec fuel W t (jp_prog jp) root) as H.
  split; [|split].
  - intro l. split.
    + intros [f Hf]. split; [discriminate|]. exists f. apply H. exact Hf.
    + intros [_ [f Hf]]. exists f. apply H. exact Hf.
  - intro e. split.
    + intros [f Hf]. split; [discriminate|]. exists f. apply H. exact Hf.
    + intros [_ [f Hf]]. exists f. apply H. exact Hf.
  - intros r [f Hf]. eapply (proj2 (proj2 (H f))); eauto.
Qed.
