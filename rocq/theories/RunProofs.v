(** Runs of compiled steps from any selection. *)
From Verif Require Import SpecSyntax Machine Coder Eval ProgramProofs StackProofs MachineProofs
  CoderProofs SpecRun.
Local Open Scope Z_scope.

(** the reference evaluation on lists *)
Definition ev_sel (W : world) (root : val) (t : nat) (cands : list val) (ss : path)
    : M (list val * nat) :=
  let! (out, t') := ev_path W root ss (Some cands) t in OK (g_list out, t').

Lemma is_state_start : forall t cands, is_state (m_start t cands) (Some cands) VNil [] 0 [] t.
Proof. intros. unfold is_state, stk_ok, stk; simpl. repeat split; auto. Qed.

Lemma run_from : forall W t root ss p cands, wf_path ss -> Compile ss = OK p ->
  prog_size p < indexTop ->
  forall k, (let! m := run_loop (length (p_orders p) *
                         (1 + path_iters W root ss (Some cands) t) + k)
                        W p root (m_start t cands) in OK (m_result m))
            = ev_sel W root t cands ss.
Proof.
  intros W t root ss p cands Hwf Hc Hsz k. destruct start_ok as [Hv Hs].
  destruct (codePath_correct W p root Hsz ss Hwf _ p Hv Hs Hc) as (seg & Em & Hl & Hp).
  pose proof Em as (Ho & Hle & Hv1 & Hs1). cbn [p_orders app] in Ho. subst seg.
  change (prog_size (mkProg [] [])) with 0 in Hp.
  specialize (Hp (vals_le_refl p) (code_at_whole p) (m_start t cands) (Some cands) t
                (is_state_start t cands)).
  rewrite Z.add_0_l in Hp.
  assert (Hend : forall a m', (fun '(out', t') m' => top_state m' out'
            (Z.of_nat (length (p_orders p))) t') a m' -> m_pc m' >= prog_size p).
  { intros [o' t'] m' Hm'. rewrite (state_pc _ _ _ _ _ _ _ Hm'). unfold prog_size. lia. }
  pose proof (goes_run _ _ _ _ _ _ _ _ Hp Hend k) as Hr.
  unfold ev_sel. destruct (ev_path W root ss (Some cands) t) as [[o' t']| | |].
  - destruct Hr as (m' & E & Hm'). rewrite E. cbn [obind]. unfold m_result.
    rewrite (state_out _ _ _ _ _ _ _ Hm'), (state_tick _ _ _ _ _ _ _ Hm'). reflexivity.
  - rewrite Hr. reflexivity.
  - rewrite Hr. reflexivity.
  - rewrite Hr. reflexivity.
Qed.

Lemma run_loop_det : forall W p root m f1 f2 r1 r2,
  run_loop f1 W p root m = r1 -> r1 <> OutOfFuel ->
  run_loop f2 W p root m = r2 -> r2 <> OutOfFuel -> r1 = r2.
Proof.
  intros W p root m f1 f2 r1 r2 H1 N1 H2 N2.
  pose proof (run_loop_more W p root f1 f2 m r1 H1 N1) as A.
  pose proof (run_loop_more W p root f2 f1 m r2 H2 N2) as B.
  rewrite Nat.add_comm in B. congruence.
Qed.

Lemma obind_oof : forall E A B (x : outcome E A) (f : A -> outcome E B),
  x <> OutOfFuel -> (forall a, f a <> OutOfFuel) -> obind x f <> OutOfFuel.
Proof. intros E A B x f H1 H2. destruct x; simpl; auto; discriminate. Qed.

(** a run is the reference evaluation *)
Lemma runs_ev : forall W root t cands ss r, wf_path ss ->
  runs W root t cands ss r -> ev_sel W root t cands ss <> OutOfFuel ->
  r = ev_sel W root t cands ss.
Proof.
  intros W root t cands ss r Hwf (p & Hc & Hsz & Hr & fuel & Hf) Hev.
  pose proof (run_from W t root ss p cands Hwf Hc Hsz 0) as H.
  set (f2 := (length (p_orders p) * (1 + path_iters W root ss (Some cands) t) + 0)%nat) in *.
  assert (E : run_loop fuel W p root (m_start t cands) = run_loop f2 W p root (m_start t cands)).
  { eapply run_loop_det; try reflexivity.
    - intro K. rewrite K in Hf. simpl in Hf. congruence.
    - intro K. rewrite K in H. simpl in H. congruence. }
  rewrite E in Hf. congruence.
Qed.

Lemma ev_runs : forall W root t cands ss p, wf_path ss ->
  Compile ss = OK p -> prog_size p < indexTop -> ev_sel W root t cands ss <> OutOfFuel ->
  runs W root t cands ss (ev_sel W root t cands ss).
Proof.
  intros W root t cands ss p Hwf Hc Hsz Hev. exists p. split; [exact Hc|]. split; [exact Hsz|].
  split; [exact Hev|]. eexists. eapply run_from; eauto. Unshelve. exact 0%nat.
Qed.
