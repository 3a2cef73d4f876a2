(** Proofs about the trace: property C105. *)
From Verif Require Import Base Value Program Listing Machine Coder Api SpecRun SpecText SpecCliText SpecTrace Trace CliTextProofs TextProofs.
Local Open Scope Z_scope.

Lemma spaced_flat : forall s : bytes, ~ In 10 (map (fun c => if c =? 10 then 32 else c) s).
Proof.
  intros s H. apply in_map_iff in H. destruct H as (x & K & _). cbv beta in K. destruct (Z.eqb_spec x 10) as [Hx|Hx]; [discriminate K|exact (Hx K)].
Qed.
Lemma spaced_same : forall s : bytes, ~ In 10 s -> map (fun c => if c =? 10 then 32 else c) s = s.
Proof.
  induction s as [|c s IH]; intro H; [reflexivity|]. cbn [map]. destruct (Z.eqb_spec c 10) as [->|_]; [exfalso; apply H; left; reflexivity|].
  rewrite IH; [reflexivity|]. intro K. apply H. right. exact K.
Qed.
Lemma flat_ok : forall E v, (forall e, E v = inr e -> ~ In 10 e) -> ~ In 10 (jsonString E v).
Proof.
  intros E v H. unfold jsonString. destruct (E v) as [s|e]; [apply spaced_flat|]. intro K. cbn in K. destruct K as [K|K]; [discriminate|]. exact (H e eq_refl K).
Qed.
Lemma flat_same : forall E v r, E v = inl (r ++ [10]) \/ E v = inl r -> ~ In 10 r -> jsonString E v = r.
Proof.
  intros E v r [H|H] N; unfold jsonString; rewrite H.
  - rewrite rev_app_distr. cbn [rev app Z.eqb]. rewrite rev_involutive. apply spaced_same. exact N.
  - destruct (rev r) as [|c q] eqn:Er; [apply spaced_same; exact N|]. destruct (Z.eqb_spec c 10) as [->|_]; [|apply spaced_same; exact N].
    exfalso. apply N. apply in_rev. rewrite Er. left. reflexivity.
Qed.

Lemma values_commas : forall E l i, trace_values E i l = (if Nat.eqb i 0 then [] else match l with [] => [] | _ => b_of ", " end) ++ commas (map (jsonString E) l).
Proof.
  intros E l. induction l as [|v l IH]; intro i; [destruct i; reflexivity|]. cbn [trace_values]. rewrite IH. cbn [Nat.eqb map].
  destruct l as [|w l]; cbn [map commas app]; [rewrite app_nil_r; reflexivity|]. destruct i; reflexivity.
Qed.
Lemma values_text : forall E l, trace_values E 0 l = commas (map (jsonString E) l).
Proof. intros E l. rewrite values_commas. reflexivity. Qed.
Lemma order_text : forall E ord m, trace_order E ord m = (num_GoString (order_op ord) ++ b_of " ->" ++ [10]) ++
  list_line (map (jsonString E) (g_list (m_out m))) ++ list_line (map (jsonString E) (firstn (m_sp m) (m_stack m))).
Proof. intros. unfold trace_order, list_line. rewrite !values_text, <- !app_assoc. reflexivity. Qed.

Lemma newlines_commas : forall ts, Forall (fun t => ~ In 10 t) ts -> newlines (commas ts) = 0.
Proof.
  induction ts as [|t ts IH]; intro H; [reflexivity|]. apply Forall_cons_iff in H as [Ht H]. specialize (IH H). destruct ts as [|u ts]; cbn [commas].
  - apply newlines_none. exact Ht.
  - rewrite !newlines_app, (newlines_none _ Ht). cbn [commas] in IH. rewrite IH. reflexivity.
Qed.
Lemma newlines_list : forall E l, quiet E -> newlines (list_line (map (jsonString E) l)) = 1.
Proof.
  intros E l Q. unfold list_line. rewrite !newlines_app, newlines_commas; [reflexivity|]. apply Forall_forall. intros t Ht. apply in_map_iff in Ht as (v & <- & _).
  apply flat_ok. apply Q.
Qed.
Lemma newlines_name : forall n, newlines (num_GoString n) = 0.
Proof. intro n. unfold num_GoString. destruct (op_of_num n) as [o|]; [|reflexivity]. destruct o; reflexivity. Qed.
Lemma newlines_order : forall E ord m, quiet E -> newlines (trace_order E ord m) = 3.
Proof. intros E ord m Q. rewrite order_text, !newlines_app, newlines_name, !newlines_list by exact Q. reflexivity. Qed.

Lemma traced_same : forall E fuel W p root m, snd (run_traced E fuel W p root m) = run_loop fuel W p root m.
Proof.
  induction fuel as [|fuel IH]; intros W p root m; cbn [run_traced run_loop]; destruct (m_pc m <? prog_size p); try reflexivity.
  destruct (index_Z (p_orders p) (m_pc m)) as [ord|]; [|reflexivity]. destruct (exec W p root ord (set_pc m (m_pc m + 1))) as [m'| | |]; try reflexivity.
  cbn. rewrite <- (IH W p root m'). destruct (run_traced E fuel W p root m'); reflexivity.
Qed.
Lemma Run_traced_same : forall E fuel W t p root, snd (Run_traced E fuel W t p root) = Run fuel W t p root.
Proof.
  intros. unfold Run_traced, Run. rewrite <- (traced_same E). destruct (run_traced E fuel W p root (m_init t root)); reflexivity.
Qed.

Lemma traced_steps : forall E fuel W p root m text r, quiet E -> run_traced E fuel W p root m = (text, r) -> r <> OutOfFuel ->
  exists n m', steps W p root n m m' /\ stops W p root m' /\ newlines text = 3 * Z.of_nat n /\ (forall x, r = OK x -> x = m' /\ prog_size p <= m_pc x).
Proof.
  induction fuel as [|fuel IH]; intros W p root m text r Q H N; cbn [run_traced] in H; destruct (Z.ltb_spec (m_pc m) (prog_size p)) as [L|L].
  - injection H as <- <-. exfalso. apply N. reflexivity.
  - injection H as <- <-. exists 0%nat, m. split; [constructor|]. split; [|split; [reflexivity|intros x Hx; injection Hx as <-; split; [reflexivity|exact L]]].
    intros n m' Hs. destruct Hs; [reflexivity|lia].
  - assert (F : (forall m', match index_Z (p_orders p) (m_pc m) with Some ord => exec W p root ord (set_pc m (m_pc m + 1)) <> OK m' | None => True end) ->
      text = [] -> (forall x, r <> OK x) ->
      exists n m', steps W p root n m m' /\ stops W p root m' /\ newlines text = 3 * Z.of_nat n /\ (forall x, r = OK x -> x = m' /\ prog_size p <= m_pc x)).
    { intros K -> R. exists 0%nat, m. split; [constructor|]. split; [|split; [reflexivity|intros x Hx; exfalso; exact (R x Hx)]].
      intros n m' Hs. destruct Hs as [|n m ord m1 m' L' Ho He Hs]; [reflexivity|]. specialize (K m1). rewrite Ho in K. exfalso. exact (K He). }
    destruct (index_Z (p_orders p) (m_pc m)) as [ord|] eqn:Ho; [|injection H as <- <-; apply F; [intro; exact I|reflexivity|discriminate]].
    destruct (exec W p root ord (set_pc m (m_pc m + 1))) as [m1|e| |] eqn:He; try (injection H as <- <-; apply F; [intro; discriminate|reflexivity|discriminate]).
    destruct (run_traced E fuel W p root m1) as [text1 r1] eqn:Ht. injection H as <- <-. destruct (IH _ _ _ _ _ _ Q Ht N) as (n & m' & Hs & Hp & Hn & Hr).
    exists (S n), m'. split; [eapply StOne; eauto|]. split; [exact Hp|]. split; [rewrite newlines_app, newlines_order, Hn by exact Q; lia|exact Hr].
  - injection H as <- <-. exists 0%nat, m. split; [constructor|]. split; [|split; [reflexivity|intros x Hx; injection Hx as <-; split; [reflexivity|exact L]]].
    intros n m' Hs. destruct Hs; [reflexivity|lia].
Qed.
Lemma Run_traced_lines : forall E fuel W t p root text r, quiet E -> Run_traced E fuel W t p root = (text, r) -> r <> OutOfFuel ->
  exists n m, steps W p root n (m_start t [root]) m /\ stops W p root m /\ newlines text = 3 * Z.of_nat n.
Proof.
  intros E fuel W t p root text r Q H N. unfold Run_traced in H. destruct (run_traced E fuel W p root (m_init t root)) as [text1 r1] eqn:Ht. injection H as <- <-.
  assert (N1 : r1 <> OutOfFuel) by (intros ->; apply N; reflexivity). destruct (traced_steps _ _ _ _ _ _ _ _ Q Ht N1) as (n & m & Hs & Hp & Hn & _). exists n, m. auto.
Qed.

Lemma traced_at : forall E fuel W p root m text r, quiet E -> run_traced E fuel W p root m = (text, r) -> r <> OutOfFuel ->
  forall k m0 ord m1, steps W p root k m m0 -> m_pc m0 < prog_size p -> index_Z (p_orders p) (m_pc m0) = Some ord -> exec W p root ord (set_pc m0 (m_pc m0 + 1)) = OK m1 ->
  exists a b, text = a ++ trace_order E ord m1 ++ b /\ newlines a = 3 * Z.of_nat k.
Proof.
  induction fuel as [|fuel IH]; intros W p root m text r Q H N k m0 ord m1 Hs L Ho He; cbn [run_traced] in H.
  - assert (Lm : m_pc m < prog_size p) by (destruct Hs; assumption). apply Z.ltb_lt in Lm. rewrite Lm in H. injection H as <- <-. exfalso. apply N. reflexivity.
  - assert (Lm : m_pc m < prog_size p) by (destruct Hs; assumption). apply Z.ltb_lt in Lm. rewrite Lm in H. destruct Hs as [m|k m ord' m' m0 L' Ho' He' Hs].
    + rewrite Ho, He in H. destruct (run_traced E fuel W p root m1) as [text1 r1] eqn:Ht. injection H as <- <-. exists [], text1. split; reflexivity.
    + rewrite Ho', He' in H. destruct (run_traced E fuel W p root m') as [text1 r1] eqn:Ht. injection H as <- <-.
      destruct (IH _ _ _ _ _ _ Q Ht N k m0 ord m1 Hs L Ho He) as (a & b & -> & Ha). exists (trace_order E ord' m' ++ a), b. rewrite <- !app_assoc. split; [reflexivity|].
      rewrite newlines_app, newlines_order, Ha by exact Q. lia.
Qed.
Lemma Run_traced_at : forall E fuel W t p root text r, quiet E -> Run_traced E fuel W t p root = (text, r) -> r <> OutOfFuel ->
  forall k m ord m', steps W p root k (m_start t [root]) m -> m_pc m < prog_size p -> index_Z (p_orders p) (m_pc m) = Some ord -> exec W p root ord (set_pc m (m_pc m + 1)) = OK m' ->
  exists a b, newlines a = 3 * Z.of_nat k /\ text = a ++ (num_GoString (order_op ord) ++ b_of " ->" ++ [10]) ++
    list_line (map (jsonString E) (g_list (m_out m'))) ++ list_line (map (jsonString E) (firstn (m_sp m') (m_stack m'))) ++ b.
Proof.
  intros E fuel W t p root text r Q H N k m ord m' Hs L Ho He. unfold Run_traced in H. destruct (run_traced E fuel W p root (m_init t root)) as [text1 r1] eqn:Ht. injection H as <- <-.
  assert (N1 : r1 <> OutOfFuel) by (intros ->; apply N; reflexivity). destruct (traced_at _ _ _ _ _ _ _ _ Q Ht N1 k m ord m' Hs L Ho He) as (a & b & -> & Ha). exists a, b.
  split; [exact Ha|]. rewrite order_text, <- !app_assoc. reflexivity.
Qed.

Lemma traced_last : forall E fuel W p root m text m', run_traced E fuel W p root m = (text, OK m') -> m_pc m < prog_size p ->
  exists a, text = a ++ list_line (map (jsonString E) (g_list (m_out m'))) ++ list_line (map (jsonString E) (firstn (m_sp m') (m_stack m'))).
Proof.
  induction fuel as [|fuel IH]; intros W p root m text m' H L; cbn [run_traced] in H; apply Z.ltb_lt in L; rewrite L in H; [discriminate|].
  destruct (index_Z (p_orders p) (m_pc m)) as [ord|] eqn:Ho; [|discriminate].
  destruct (exec W p root ord (set_pc m (m_pc m + 1))) as [m1| | |] eqn:He; try discriminate. destruct (run_traced E fuel W p root m1) as [text1 r1] eqn:Ht. injection H as <- ->.
  destruct (Z.ltb_spec (m_pc m1) (prog_size p)) as [L1|L1].
  - destruct (IH _ _ _ _ _ _ Ht L1) as (a & ->). exists (trace_order E ord m1 ++ a). rewrite <- !app_assoc. reflexivity.
  - assert (D : run_traced E fuel W p root m1 = ([], OK m1)) by (apply Z.ltb_ge in L1; destruct fuel; cbn [run_traced]; rewrite L1; reflexivity).
    rewrite D in Ht. injection Ht as <- <-. rewrite order_text, app_nil_r. eexists. reflexivity.
Qed.
Lemma text_traced : forall TX s ss jp E W t root fuel text l, accepted TX s ss jp -> fits jp -> quiet E ->
  Run_traced E fuel W t (jp_prog jp) root = (text, OK l) -> text <> [] ->
  JP_Eval W t jp root (OK l) /\ exists a, text = a ++ list_line (map (jsonString E) l) ++ list_line [].
Proof.
  intros TX s ss jp E W t root fuel text l Ha Hf Q H Hs. split.
  { split; [discriminate|]. exists fuel. rewrite <- (Run_traced_same E), H. reflexivity. }
  unfold Run_traced in H. destruct (run_traced E fuel W (jp_prog jp) root (m_init t root)) as [text1 r1] eqn:Ht. injection H as <- Hr. destruct r1 as [m| | |]; try discriminate.
  injection Hr as Hl. 
  assert (N1 : OK m <> OutOfFuel (A:=mstate) (E:=rerr)) by discriminate. destruct (traced_steps _ _ _ _ _ _ _ _ Q Ht N1) as (n & m' & St & Hp & Hn & Hr). destruct (Hr m eq_refl) as [<- Hend].
  destruct (text_final _ _ _ _ Ha Hf _ _ _ _ _ St Hend) as (Hsp & _ & _ & _).
  assert (P : m_pc (m_init t root) < prog_size (jp_prog jp)) by (destruct (Z.ltb_spec (m_pc (m_init t root)) (prog_size (jp_prog jp))) as [L|L]; [exact L|]; exfalso; apply Hs; apply Z.ltb_ge in L; destruct fuel; cbn [run_traced] in Ht; rewrite L in Ht; injection Ht as <- _; reflexivity).
  destruct (traced_last _ _ _ _ _ _ _ _ Ht P) as (a & ->). exists a. rewrite Hsp. cbn [firstn map]. unfold g_list. rewrite Hl. reflexivity.
Qed.
