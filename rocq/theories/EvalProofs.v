(** Whole evaluations: they end, and when they can panic. *)
From Verif Require Import SpecSyntax Machine Coder Eval MachineProofs CoderProofs SpecDoc DocProofs
  SpecSelect SpecRun RunProofs SliceProofs ExprProofs StepProofs SpecCode CodeProofs SpecCost CostProofs OriginProofs
  Lexer LexProofs2 SpecGrammar ParserExact Api SpecText.
Local Open Scope Z_scope.

Lemma doc_noslice : forall v, doc v -> noslice v.
Proof. intros v Hv s Hs. apply (Hv _ Hs). Qed.

Lemma ev_path_ends : forall W root ss t, orders_ok W -> doc root -> wf_path ss ->
  ev_path W root ss (Some [root]) t <> OutOfFuel.
Proof.
  intros W root ss t HW Hr Hwf.
  destruct (path_outcome W root doc false HW (fun v c Hv => doc_child c v Hv) doc_node (doc_noslice root Hr) ss Hwf)
    with (out := Some [root]) (t := t) as [[Hf _] _]; auto.
  - eapply Forall_impl; [|exact Hwf]. intros s Hs. apply guard_of_wf. exact Hs.
  - intros _. apply doc_nil.
  - constructor; [exact Hr|constructor].
Qed.

Lemma ev_run_ends : forall W root ss t, orders_ok W -> doc root -> wf_path ss ->
  ev_run W root t ss <> OutOfFuel.
Proof.
  intros W root ss t HW Hr Hwf. unfold ev_run. apply obind_oof; [apply ev_path_ends; auto|].
  intros [o t']. discriminate.
Qed.

Lemma written_bound_int : forall b, written_bound b = bound_int b.
Proof. intros [[z|e]|]; reflexivity. Qed.

Lemma ev_run_panics : forall W root ss t, orders_ok W -> doc root -> wf_path ss ->
  (forall a b c l, slice_in ss a b c -> within (VArr l) root -> ~ overflowing (Z.of_nat (length l)) a b c) ->
  ev_run W root t ss <> Panics.
Proof.
  intros W root ss t HW Hr Hwf Hs. unfold ev_run.
  set (P := fun v => within v root \/ v = VNil).
  assert (HPd : forall v, P v -> doc v).
  { intros v [Hv| ->]; [eapply doc_within; eauto|apply doc_nil]. }
  assert (HPc : forall v c, P v -> In c (children v) -> P c).
  { intros v c [Hv| ->] Hc; [|destruct Hc]. left. eapply within_trans; [|exact Hv]. apply within_child. exact Hc. }
  destruct (path_outcome W root P true HW HPc (fun v Hv => doc_node v (HPd v Hv)) (doc_noslice root Hr) ss Hwf)
    with (out := Some [root]) (t := t) as [Hf _].
  - rewrite Forall_forall. intros s Hin. apply guard_strict; [exact (proj1 (Forall_forall wf_step ss) Hwf s Hin)|].
    intros _ sl l Hsl [Hl|Hl]; [|discriminate]. apply Hs; auto. exists s, sl. rewrite !written_bound_int. auto.
  - intros _. right. reflexivity.
  - constructor; [left; constructor|constructor].
  - destruct Hf as [_ Hf]. specialize (Hf eq_refl).
    destruct (ev_path W root ss (Some [root]) t) as [[o t']| | |]; cbn [obind]; congruence.
Qed.

(** ** Compiled paths *)
Lemma compile_text : forall TX s jp, JP_Compile TX s = OK jp ->
  exists ss, ParsePath TX s = OK ss /\ Compile ss = OK (jp_prog jp).
Proof.
  intros TX s jp H. unfold JP_Compile in H. destruct (ParsePath TX s) as [ss| | |]; try discriminate.
  exists ss. split; [reflexivity|]. destruct (Compile ss); try discriminate. injection H as <-. reflexivity.
Qed.

Lemma compile_text_of : forall TX s jp ss, JP_Compile TX s = OK jp -> ParsePath TX s = OK ss ->
  Compile ss = OK (jp_prog jp).
Proof.
  intros TX s jp ss H Hp. apply compile_text in H as (ss' & H1 & H2). congruence.
Qed.

Lemma eval_exact : forall W t root ss p r, orders_ok W -> doc root -> wf_path ss -> Compile ss = OK p ->
  prog_size p < indexTop ->
  ((r <> OutOfFuel /\ exists fuel, Run fuel W t p root = r) <-> r = ev_run W root t ss).
Proof.
  intros W t root ss p r HW Hr Hwf Hc Hz.
  pose proof (run_correct W t root ss p Hwf Hc Hz) as Hrc.
  pose proof (ev_run_ends W root ss t HW Hr Hwf) as He. split.
  - intros [Hn [fuel Hf]]. rewrite <- (Hrc fuel). unfold Run in *.
    set (N := (length (p_orders p) * (1 + path_iters W root ss (Some [root]) t))%nat) in *.
    destruct (run_loop fuel W p root (m_init t root)) as [m| | |] eqn:E; cbn [obind] in Hf; subst r; try congruence.
    + rewrite Nat.add_comm, (run_loop_more _ _ _ _ N _ _ E) by discriminate. reflexivity.
    + rewrite Nat.add_comm, (run_loop_more _ _ _ _ N _ _ E) by discriminate. reflexivity.
    + rewrite Nat.add_comm, (run_loop_more _ _ _ _ N _ _ E) by discriminate. reflexivity.
  - intros ->. split; [exact He|]. eexists. apply (Hrc 0%nat).
Qed.

Lemma path_visits : forall W root ss t, orders_ok W -> doc root -> wf_path ss ->
  (path_iters W root ss (Some [root]) t <= visits (levels root) (nodes root) ss)%nat.
Proof.
  intros W root ss t HW Hr Hwf.
  pose proof (path_iters_bound W root (levels root) HW (doc_noslice root Hr) ss Hwf (levels_pos root)
    (Some [root]) t) as H. cbn [g_list] in H.
  replace (weight [root]) with (nodes root) in H by (unfold weight; simpl; lia).
  apply H. constructor; [|constructor]. split; [exact Hr|lia].
Qed.

(** a run with enough fuel is not longer than its fuel *)
Lemma steps_fuel : forall W p root n m m', steps W p root n m m' ->
  forall F, run_loop F W p root m <> OutOfFuel -> (n <= F)%nat.
Proof.
  intros W p root n m m' H. induction H; intros F HF; [lia|].
  destruct F as [|F]; cbn [run_loop] in HF; rewrite (proj2 (Z.ltb_lt _ _) H) in HF; [congruence|].
  rewrite H0, H1 in HF. cbn [obind] in HF. apply IHsteps in HF. lia.
Qed.

Lemma counts_steps : forall W p root n i m m', counts W p root n i m m' -> steps W p root n m m'.
Proof. intros W p root n i m m' H. induction H; econstructor; eauto. Qed.

Lemma run_visits : forall W t root ss p n m, orders_ok W -> doc root -> wf_path ss -> Compile ss = OK p ->
  prog_size p < indexTop -> steps W p root n (m_start t [root]) m ->
  (n <= length (p_orders p) * (1 + visits (levels root) (nodes root) ss))%nat.
Proof.
  intros W t root ss p n m HW Hr Hwf Hc Hz H.
  pose proof (run_correct W t root ss p Hwf Hc Hz 0) as Hrc.
  pose proof (ev_run_ends W root ss t HW Hr Hwf) as He. rewrite <- Hrc in He.
  pose proof (path_visits W root ss t HW Hr Hwf) as Hv.
  assert (Hn : (n <= length (p_orders p) * (1 + path_iters W root ss (Some [root]) t) + 0)%nat).
  { apply (steps_fuel _ _ _ _ _ _ H). intro K. apply He. unfold Run.
    change (m_init t root) with (m_start t [root]). rewrite K. reflexivity. }
  nia.
Qed.

Lemma run_ends : forall W t root ss p, orders_ok W -> doc root -> wf_path ss -> Compile ss = OK p ->
  prog_size p < indexTop ->
  exists r, r <> OutOfFuel /\
    forall k, Run (length (p_orders p) * (1 + visits (levels root) (nodes root) ss) + k) W t p root = r.
Proof.
  intros W t root ss p HW Hr Hwf Hc Hz. exists (ev_run W root t ss).
  split; [apply ev_run_ends; auto|]. intro k.
  pose proof (path_visits W root ss t HW Hr Hwf) as Hv.
  rewrite <- (run_correct W t root ss p Hwf Hc Hz
    (length (p_orders p) * (visits (levels root) (nodes root) ss - path_iters W root ss (Some [root]) t) + k)).
  f_equal. nia.
Qed.

(** ** The results as Go returns them *)
Lemma run_go_spec : forall fuel W t p root,
  (forall l, Run_go fuel W t p root = OK (Some l, None) <-> Run fuel W t p root = OK l) /\
  (forall e, Run_go fuel W t p root = OK (None, Some e) <-> Run fuel W t p root = Fail e) /\
  (forall r, Run_go fuel W t p root = OK r -> (exists l, r = (Some l, None)) \/ exists e, r = (None, Some e)).
Proof.
  intros fuel W t p root. unfold Run_go, Run.
  destruct (run_loop fuel W p root (m_init t root)) as [m|e| |]; cbn [obind].
  - destruct (m_out m) as [l'|].
    + split; [|split]; [split; congruence|split; congruence|]. intros r H. injection H as <-. eauto.
    + split; [|split]; [split; congruence|split; congruence|]. intros r H. injection H as <-. eauto.
  - split; [|split]; [split; congruence|split; congruence|]. intros r H. injection H as <-. eauto.
  - split; [|split]; [split; congruence|split; congruence|]. discriminate.
  - split; [|split]; [split; congruence|split; congruence|]. discriminate.
Qed.
