(** Properties of any number of evaluations at once that share storage (C49, C50). *)
From Verif Require Import SpecSyntax SpecGrammar Machine Coder SpecDoc SpecSelect SpecRun Parser Api SpecText TextProofs Conc SpecConc
  Heap SpecHeap HeapProofs HeapSys HeapProgress Examples.
Local Open Scope Z_scope.

(** ** C49 *)
(** Whatever else has been called, on the same storage or not, and however the steps of all
    machines and producers alternate: an evaluation that has returned has returned what the
    sequential machine returns for its document.  The storage of the result is nobody's to change. *)
Theorem C49_result : forall y j W t jp root v r, reachable y -> called y j W t jp root v -> orders_ok W -> returned y j r ->
  match r with
  | ROk s => exists l, JP_Eval W t jp v (OK l) /\ frozen y (s_addr s) /\ stands_list (frozen y) (y_heap y) s l
  | RFail x => JP_Eval W t jp v (Fail x)
  | RPanic => JP_Eval W t jp v Panics
  end.
Proof. exact result. Qed.
Print Assumptions C49_result.

(** The same call in other company has the same result. *)
Theorem C49_same : forall y1 j1 y2 j2 W t jp root1 root2 v s1 s2, reachable y1 -> reachable y2 -> orders_ok W ->
  called y1 j1 W t jp root1 v -> called y2 j2 W t jp root2 v -> returned y1 j1 (ROk s1) -> returned y2 j2 (ROk s2) ->
  exists l, stands_list (frozen y1) (y_heap y1) s1 l /\ stands_list (frozen y2) (y_heap y2) s2 l.
Proof. exact same_result. Qed.
Print Assumptions C49_same.

(** From every state each evaluation can go on until it has returned, with no step of another. *)
Theorem C49_returns : forall TX s ss jp, accepted TX s ss jp -> fits jp -> forall W t v, orders_ok W -> doc v ->
  forall y j root, reachable y -> called y j W t jp root v -> exists y' r, later y y' /\ only j y y' /\ returned y' j r.
Proof. exact completes_alone. Qed.
Print Assumptions C49_returns.

(** Nothing goes on for ever unless the caller keeps making calls. *)
Theorem C49_ends : forall y, reachable y -> compiled y -> Acc (fun y' y => exists j, works j y y') y.
Proof. exact works_end. Qed.
Print Assumptions C49_ends.

(** one evaluation after another, on the same document and the same program *)
Example C49_ex : let jp := jp_of (b_of "$..[?(@.b)]") in
  accepted x_text (b_of "$..[?(@.b)]") (steps_of (b_of "$..[?(@.b)]")) jp /\ fits jp /\ doc x_doc /\
  exists y root s0 s1, reachable y /\
    called y 0 x_world 0 jp root x_doc /\ called y 1 x_world_rev 0 jp root x_doc /\
    returned y 0 (ROk s0) /\ returned y 1 (ROk s1) /\
    stands_list (frozen y) (y_heap y) s0 [VObj [(b_of "b", VStr (b_of "x"))]] /\
    stands_list (frozen y) (y_heap y) s1 [VObj [(b_of "b", VStr (b_of "x"))]].
Proof.
  cbv zeta. set (jp := jp_of (b_of "$..[?(@.b)]")). set (res := [VObj [(b_of "b", VStr (b_of "x"))]]).
  assert (Ha : accepted x_text (b_of "$..[?(@.b)]") (steps_of (b_of "$..[?(@.b)]")) jp) by (apply acceptedb_ok; vm_compute; reflexivity).
  assert (Hf : fits jp) by (vm_compute; reflexivity). pose proof x_doc_ok as Hd.
  assert (E0 : JP_Eval x_world 0 jp x_doc (OK res)) by (split; [discriminate|exists 500%nat; vm_compute; reflexivity]).
  assert (E1 : JP_Eval x_world_rev 0 jp x_doc (OK res)) by (split; [discriminate|exists 500%nat; vm_compute; reflexivity]).
  split; [exact Ha|]. split; [exact Hf|]. split; [exact Hd|].
  destruct (call_new (mkS [] []) x_world 0 jp x_doc YEmpty) as (y1 & root & L1 & N1 & C1). pose proof (reach_later _ _ L1 YEmpty) as R1. cbn in N1, C1.
  destruct (call_again _ _ _ _ _ _ _ x_world_rev 0 R1 C1) as (y2 & L2 & N2 & C2 & _). pose proof (reach_later _ _ L2 R1) as R2. rewrite N1 in N2, C2.
  destruct (completes_alone _ _ _ _ Ha Hf _ _ _ x_world_rev_ok Hd _ _ _ R2 C2) as (y3 & r1 & L3 & _ & D1). pose proof (reach_later _ _ L3 R2) as R3.
  pose proof (called_later _ _ _ _ _ _ _ _ (later_trans _ _ _ L2 L3) C1) as C1'.
  destruct (completes_alone _ _ _ _ Ha Hf _ _ _ x_world_ok Hd _ _ _ R3 C1') as (y4 & r0 & L4 & _ & D0). pose proof (reach_later _ _ L4 R3) as R4.
  pose proof (called_later _ _ _ _ _ _ _ _ L4 C1') as C1''. pose proof (called_later _ _ _ _ _ _ _ _ (later_trans _ _ _ L3 L4) C2) as C2''.
  pose proof (returned_later _ _ _ _ L4 D1) as D1'.
  assert (K : forall W j r, called y4 j W 0 jp root x_doc -> orders_ok W -> returned y4 j r -> JP_Eval W 0 jp x_doc (OK res) ->
    exists s, returned y4 j (ROk s) /\ stands_list (frozen y4) (y_heap y4) s res).
  { intros W j r Hc HW Hr He. pose proof (C49_result _ _ _ _ _ _ _ _ R4 Hc HW Hr) as Hx. destruct r as [s|x|].
    - destruct Hx as (l & Hl & _ & Hs). pose proof (eval_unique _ _ _ _ _ _ He Hl) as E. injection E as <-. eauto.
    - pose proof (eval_unique _ _ _ _ _ _ He Hx). discriminate.
    - pose proof (eval_unique _ _ _ _ _ _ He Hx). discriminate. }
  destruct (K _ _ _ C1'' x_world_ok D0 E0) as (s0 & H0 & S0). destruct (K _ _ _ C2'' x_world_rev_ok D1' E1) as (s1 & H1 & S1).
  exists y4, root, s0, s1. auto 10.
Qed.

(** a state in which two evaluations are in progress *)
Example C49_ends_ex : let jp := jp_of (b_of "$..[?(@.b)]") in
  exists y root, reachable y /\ compiled y /\ called y 0 x_world 0 jp root x_doc /\ called y 1 x_world_rev 0 jp root x_doc.
Proof.
  cbv zeta. set (jp := jp_of (b_of "$..[?(@.b)]")).
  assert (Ha : accepted x_text (b_of "$..[?(@.b)]") (steps_of (b_of "$..[?(@.b)]")) jp) by (apply acceptedb_ok; vm_compute; reflexivity).
  assert (Hf : fits jp) by (vm_compute; reflexivity). pose proof x_doc_ok as Hd.
  destruct (call_new (mkS [] []) x_world 0 jp x_doc YEmpty) as (y1 & root & L1 & N1 & C1). pose proof (reach_later _ _ L1 YEmpty) as R1. cbn in N1, C1.
  destruct (call_again _ _ _ _ _ _ _ x_world_rev 0 R1 C1) as (y2 & L2 & N2 & C2 & _). pose proof (reach_later _ _ L2 R1) as R2. rewrite N1 in N2, C2.
  pose proof (called_later _ _ _ _ _ _ _ _ L2 C1) as C1'. exists y2, root. split; [exact R2|]. split; [|auto].
  intros j e Hj. exists x_text, (b_of "$..[?(@.b)]"), (steps_of (b_of "$..[?(@.b)]")), jp. split; [exact Ha|]. split; [exact Hf|].
  assert (j < 2)%nat by (rewrite <- N2; apply nth_error_Some; congruence). destruct C1' as (e0 & H0 & W0 & _ & P0 & _ & V0), C2 as (e1 & H1 & W1 & _ & P1 & _ & V1).
  destruct j as [|[|j]]; [| |lia].
  - rewrite Hj in H0. injection H0 as <-. rewrite W0, P0, V0. split; [reflexivity|]. split; [apply x_world_ok|exact Hd].
  - rewrite Hj in H1. injection H1 as <-. rewrite W1, P1, V1. split; [reflexivity|]. split; [apply x_world_rev_ok|exact Hd].
Qed.

(** ** C50 *)
(** A step of an evaluation writes to nothing but the arrays of its own output, its own stack and
    its own loops; they stay its own, or are new. *)
Theorem C50_writes : forall j y y', reachable y -> works j y y' ->
  (length (y_heap y) <= length (y_heap y'))%nat /\ only j y y' /\
  exists e e', nth_error (y_evals y) j = Some e /\ nth_error (y_evals y') j = Some e' /\
    (forall a, (a < length (y_heap y))%nat -> ~ In a (bufs (e_st e)) -> nth_error (y_heap y') a = nth_error (y_heap y) a) /\
    (forall a, In a (bufs (e_st e')) -> In a (bufs (e_st e)) \/ (length (y_heap y) <= a < length (y_heap y'))%nat).
Proof. exact works_writes. Qed.
Print Assumptions C50_writes.

(** These arrays were allocated by steps of the evaluation that writes to them. *)
Theorem C50_own : forall y, reachable y -> forall j e a, nth_error (y_evals y) j = Some e -> In a (bufs (e_st e)) -> allocated_by j a y.
Proof. exact bufs_allocated. Qed.
Print Assumptions C50_own.

(** No two of them, of one evaluation or of two, are the same. *)
Theorem C50_separate : forall y, reachable y -> NoDup (flat_map (fun e => bufs (e_st e)) (y_evals y)).
Proof. exact separate. Qed.
Print Assumptions C50_separate.

(** What is not such an array is never written to again, whoever takes the steps. *)
Theorem C50_frozen : forall y y', later y y' -> reachable y -> forall a, frozen y a -> frozen y' a /\ nth_error (y_heap y') a = nth_error (y_heap y) a.
Proof. exact frozen_later. Qed.
Print Assumptions C50_frozen.

(** The documents are such storage, and are as they were when the calls were made. *)
Theorem C50_document : forall y e, reachable y -> In e (y_evals y) -> stands (frozen y) (y_heap y) (e_root e) (e_val e).
Proof. exact document_kept. Qed.
Print Assumptions C50_document.

(** So are the programs. *)
Theorem C50_program : forall y e, reachable y -> In e (y_evals y) -> nth_error (y_heap y) (e_code e) = Some (BProg (e_prog e)) /\ frozen y (e_code e).
Proof. exact program_kept. Qed.
Print Assumptions C50_program.

(** So are results, from the moment they are returned. *)
Theorem C50_result : forall y y' j W t jp root v s l, reachable y -> later y y' -> called y j W t jp root v -> orders_ok W -> returned y j (ROk s) ->
  JP_Eval W t jp v (OK l) -> stands_list (frozen y') (y_heap y') s l.
Proof. exact result_kept. Qed.
Print Assumptions C50_result.

(** Nothing an evaluation has, selects from, sends over a channel or returns leads to an array
    that it, or another evaluation, will write to. *)
Theorem C50_private : forall y j e x a, reachable y -> nth_error (y_evals y) j = Some e -> has (y_heap y) e x -> reaches (y_heap y) x a -> frozen y a.
Proof. exact has_frozen. Qed.
Print Assumptions C50_private.

(** [$[*]] of [[null]]: the result is a new array, with the array of the document in it. *)
Example C50_ex : let p := jp_prog (jp_of (b_of "$[*]")) in
  let s1 := mkSl 2 0 1 1 in let root := HArr (mkSl 1 0 1 1) in
  let h0 := [BProg p; BArr [HArr s1]; BArr [HAtom VNil]] in
  exists y y' e, reachable y /\ works 0 y y' /\ y_heap y = h0 ++ [BArr [root]] /\ nth_error (y_evals y) 0 = Some e /\ bufs (e_st e) = [3%nat] /\
    y_heap y' = h0 ++ [BArr [root]; BArr []; BArr [HArr s1]] /\
    exists y2, works 0 y' y2 /\ returned y2 0 (ROk (mkSl 5 0 1 1)) /\ y_heap y2 = y_heap y' /\ reaches (y_heap y2) (HArr (mkSl 5 0 1 1)) 2.
Proof.
  cbv zeta. set (p := jp_prog (jp_of (b_of "$[*]"))). set (s1 := mkSl 2 0 1 1). set (root := HArr (mkSl 1 0 1 1)).
  set (h0 := [BProg p; BArr [HArr s1]; BArr [HAtom VNil]]).
  assert (Hs : forall (P : nat -> Prop) h, P 1%nat -> P 2%nat -> nth_error h 1 = Some (BArr [HArr s1]) -> nth_error h 2 = Some (BArr [HAtom VNil]) -> stands P h root (VArr [VArr [VNil]]) /\ stands P h (HArr s1) (VArr [VNil])).
  { intros P h P1 P2 H1 H2. assert (K : stands P h (HArr s1) (VArr [VNil])).
    { apply (RpArr P h s1 [HAtom VNil]); [exact P2|unfold cells, s1; cbn [s_addr]; rewrite H2; reflexivity|]. repeat constructor. }
    split; [|exact K]. apply (RpArr P h _ [HArr s1]); [exact P1|unfold cells; cbn [s_addr]; rewrite H1; reflexivity|]. constructor; [exact K|constructor]. }
  set (e := mkE x_world 0 0 p root (VArr [VArr [VNil]]) (h_init 3 0 root)).
  assert (R : reachable (mkS (h0 ++ [BArr [root]]) ([] ++ [e]))).
  { eapply YStep; [eapply YStep; [apply YEmpty|apply (YAlloc [] [] h0)]|]. apply (YCall h0 [] x_world 0 0 p); [|reflexivity]. apply Hs; try reflexivity; (split; [cbn; lia|intros []]). }
  set (st1 := mkT (mkH (Some (mkSl 5 0 1 1)) (HAtom VNil) None 0 1 None 0) GoRun []).
  exists (mkS (h0 ++ [BArr [root]]) [e]), (mkS (h0 ++ [BArr [root]; BArr []; BArr [HArr s1]]) [with_st e st1]), e.
  split; [exact R|]. split; [|split; [reflexivity|]; split; [reflexivity|]; split; [reflexivity|]; split; [reflexivity|]].
  - refine (WkMain 0 (h0 ++ [BArr [root]]) [e] e p (h0 ++ [BArr [root]; BArr []; BArr [HArr s1]]) st1 eq_refl eq_refl _).
    apply (NExec _ _ _ _ _ _ 268); [vm_compute; reflexivity|vm_compute; reflexivity|].
    apply (XWild (e_world e) p (e_root e) 268 (h0 ++ [BArr [root]]) (h_set_pc (g_m (e_st e)) (h_pc (g_m (e_st e)) + 1)) (h0 ++ [BArr [root]; BArr []; BArr [HArr s1]]) (Some (mkSl 5 0 1 1)) 0); [vm_compute; reflexivity|].
    eapply (EaOne _ _ (mkSl 3 0 1 1) 0 0 _ _ root _ _ 0 _ _ 0); [reflexivity|reflexivity| |apply EaEnd; cbn; lia].
    destruct (Hs any (h0 ++ [BArr [root]; BArr []]) I I eq_refl eq_refl) as [Ha _].
    eapply (WiAdd _ _ _ _ _ _ [VArr [VNil]] _ _ [HArr s1]); [exact Ha|reflexivity| |].
    + split; [exists []; symmetry; apply app_nil_r|]. constructor; [|constructor]. apply Hs; try reflexivity; right; exists root; (split; [left; reflexivity|]).
      * apply RcArr.
      * eapply (RcElem _ _ _ (HArr s1)); [reflexivity|left; reflexivity|apply RcArr].
    + eapply AsCons; [|apply AsNil]. apply (ApMove ((h0 ++ [BArr [root]]) ++ [BArr []]) (HArr s1) (mkSl 4 0 0 0) [] 0); reflexivity.
  - eexists. split; [refine (WkMain 0 (h0 ++ [BArr [root]; BArr []; BArr [HArr s1]]) [with_st e st1] (with_st e st1) p _ _ eq_refl eq_refl _); apply NEnd; [vm_compute; discriminate|reflexivity]|].
    split; [eexists; split; reflexivity|]. split; [reflexivity|]. eapply (RcElem _ _ _ (HArr s1)); [reflexivity|left; reflexivity|apply RcArr].
Qed.
