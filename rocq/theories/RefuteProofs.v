(** Texts that compile and then misbehave. *)
From Verif Require Import SpecSyntax Machine Coder SpecDoc SpecCode SpecPrint PrintProofs ParserExact SpecRun MachineProofs
  HugeProofs EndlessProofs Api Examples.
Local Open Scope Z_scope.

Definition zeros_text (n : nat) : bytes := print_path (fun _ => []) (zeros n).
Definition deep_text (n : nat) : bytes := print_path (fun _ => []) (deep n).

Lemma zeros_compiled : forall TX n, (2 <= n)%nat ->
  JP_Compile TX (zeros_text n) = OK (mkJP (zeros_text n) (zeros_prog n)).
Proof.
  intros TX n Hn. unfold JP_Compile, zeros_text.
  rewrite (path_round_trip TX (fun _ => []) (zeros n)) by (apply writable_zeros; auto).
  rewrite compile_zeros. reflexivity.
Qed.

Lemma union_panics : exists s, forall TX, exists jp, JP_Compile TX s = OK jp /\
  forall W t root, JP_Eval W t jp root Panics.
Proof.
  exists (zeros_text (Z.to_nat 4194304)). intro TX. eexists. split; [apply zeros_compiled; lia|].
  intros W t root. split; [discriminate|]. apply zeros_panic. rewrite Z2Nat.id by lia. reflexivity.
Qed.

Lemma union_empty : exists n s, Z.of_nat n = 8388608 /\ forall TX, exists jp,
  ParsePath TX s = OK [mkStep OpUnion (repeat (PInt 0) n)] /\ JP_Compile TX s = OK jp /\
  forall W t root, JP_Eval W t jp root (OK []).
Proof.
  exists (Z.to_nat 8388608), (zeros_text (Z.to_nat 8388608)). split; [lia|].
  intro TX. eexists. split; [|split; [apply zeros_compiled; lia|]].
  - unfold zeros_text. apply (path_round_trip TX (fun _ => []) (zeros (Z.to_nat 8388608))).
    apply writable_zeros. lia.
  - intros W t root. split; [discriminate|]. apply zeros_empty. rewrite Z2Nat.id by lia. reflexivity.
Qed.

Lemma reach_steps : forall W p root n m m', reach W p root n m m' -> steps W p root n m m'.
Proof.
  intros W p root n m m' H. induction H; [constructor|]. unfold step_m in H0.
  destruct (index_Z (p_orders p) (m_pc m)) eqn:E; [|discriminate]. econstructor; eauto.
Qed.

Lemma union_leaves : exists s, forall TX, exists jp, JP_Compile TX s = OK jp /\
  forall W t root, exists n m, steps W (jp_prog jp) root n (m_start t [root]) m /\
    m_pc m = prog_size (jp_prog jp) /\ (0 < m_sp m)%nat.
Proof.
  exists (zeros_text (Z.to_nat 8388608)). intro TX. eexists. split; [apply zeros_compiled; lia|].
  intros W t root. destruct (zeros_left W root (Z.to_nat 8388608) t) as (m & Hr & Hpc & Hsp).
  { rewrite Z2Nat.id by lia. reflexivity. }
  eexists _, m. split; [apply reach_steps; exact Hr|]. split; [exact Hpc|]. rewrite Hsp. lia.
Qed.

Lemma deep_runs_on : exists s root, doc root /\ forall TX, exists jp, JP_Compile TX s = OK jp /\
  forall W t r, ~ JP_Eval W t jp root r.
Proof.
  exists (deep_text (Z.to_nat 4194304)), VNil. split; [apply docb_doc; reflexivity|].
  intro TX. destruct (compile_deep (Z.to_nat 4194304)) as [p Hp].
  exists (mkJP (deep_text (Z.to_nat 4194304)) p). split.
  - unfold JP_Compile, deep_text.
    rewrite (path_round_trip TX (fun _ => []) (deep (Z.to_nat 4194304))) by apply writable_deep.
    rewrite Hp. reflexivity.
  - intros W t r [Hr [fuel Hf]]. rewrite (deep_endless W t _ _ Hp) in Hf; [congruence| |lia].
    rewrite Z2Nat.id by lia. reflexivity.
Qed.

Lemma stride_panics : exists s root, doc root /\ forall TX, exists jp, JP_Compile TX s = OK jp /\
  forall W t, JP_Eval W t jp root Panics.
Proof.
  exists (b_of "$[1:3:9223372036854775807]"), (VArr [VNil; VNil; VNil]).
  split; [apply docb_doc; reflexivity|]. intro TX. eexists. split.
  - vm_compute. reflexivity.
  - intros W t. split; [discriminate|]. exists 3%nat. vm_compute. reflexivity.
Qed.

Lemma filter_null : exists s root v, doc root /\ ~ within v root /\ forall TX, exists jp,
  JP_Compile TX s = OK jp /\ forall W t, JP_Eval W t jp root (OK [v]).
Proof.
  exists (b_of "$[?(1==1)]"), (VInt64 42), VNil.
  split; [apply docb_doc; reflexivity|]. split; [intro H; inversion H|]. intro TX. eexists. split.
  - vm_compute. reflexivity.
  - intros W t. split; [discriminate|]. exists 10%nat. vm_compute. reflexivity.
Qed.
