(** Evaluating paths built by hand: those shaped like parsed ones end, others need not. *)
From Verif Require Import SpecSyntax Coder Machine SpecDoc SpecCode SpecRun SpecSem SemFinal SemExact SpecHand HandProofs.
Local Open Scope Z_scope.

Lemma shaped_runs : forall W root t ss, orders_ok W -> doc root -> wf_path ss -> small ss ->
  exists r, runs W root t [root] ss r /\ path_means W root ss [root] (selected r).
Proof.
  intros W root t ss HW Hr Hwf Hs. assert (Hc : Forall doc [root]) by (constructor; auto).
  destruct (runs_some W root t [root] HW Hr Hc ss Hwf Hs) as [r H]. exists r. split; [exact H|].
  eapply runs_means; eauto.
Qed.

(** nothing is selected, and the loop over it leaves to before itself *)
Definition endless : path := [mkStep OpUnion []; mkStep OpFor [PInt 0]].
Definition endless_prog : program := mkProg [] [mkSmall OpUnion 0; mkSmall OpInt 0; mkSmall OpFor 1].

Lemma endless_compiles : Compile endless = OK endless_prog.
Proof. vm_compute. reflexivity. Qed.

Lemma endless_loop : forall W root fuel m, g_list (m_out m) = [] -> m_pc m = 1 \/ m_pc m = 2 ->
  run_loop fuel W endless_prog root m = OutOfFuel.
Proof.
  intros W root. induction fuel as [|n IH]; intros m Ho Hpc.
  - destruct Hpc as [E|E]; cbn [run_loop]; rewrite E; reflexivity.
  - destruct Hpc as [E|E]; cbn [run_loop]; rewrite E.
    + change (run_loop n W endless_prog root (push (VInt64 0) (set_pc m 2)) = OutOfFuel). unfold push.
      destruct (Nat.leb _ _); (apply IH; [exact Ho|right; reflexivity]).
    + change ((let! m' := looptop endless_prog (stepping W) 1 (set_pc m 3) in run_loop n W endless_prog root m') = OutOfFuel).
      unfold looptop. change (m_out (set_pc m 3)) with (m_out m). rewrite Ho. change (run_loop n W endless_prog root (set_pc (set_pc m 3) 1) = OutOfFuel). apply IH; [exact Ho|left; reflexivity].
Qed.

Lemma endless_runs : forall W root t r, ~ runs W root t [root] endless r.
Proof.
  intros W root t r (p & Hc & _ & Hr & fuel & H). rewrite endless_compiles in Hc. injection Hc as <-.
  apply Hr. rewrite <- H. destruct fuel as [|n]; [reflexivity|].
  change ((let! m := run_loop n W endless_prog root (set_tick (set_out (set_stack (set_pc (m_start t [root]) 1) [] 0) (Some [])) t) in
    OK (m_result m)) = OutOfFuel).
  rewrite endless_loop; auto.
Qed.

Lemma empty_panics : forall W root t, runs W root t [root] [mkStep OpMember []] Panics.
Proof.
  intros W root t. exists (mkProg [] [mkSmall OpMember 0]). split; [reflexivity|]. split; [reflexivity|].
  split; [discriminate|]. exists 1%nat. reflexivity.
Qed.

Lemma not_hollow : forall ss p, Compile ss = OK p -> ~ Exists hollow_step ss.
Proof. intros ss p H. destruct (hand_outcome ss) as [[q [_ [K _]]]|[[K _]|[K _]]]; [exact K|congruence|congruence]. Qed.
