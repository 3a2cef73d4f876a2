(** Proofs about any number of evaluations that share storage. *)
From Verif Require Import SpecDoc SpecRun SpecText TextProofs Api Conc SpecConc ConcProofs Heap SpecHeap HeapProofs.
Local Open Scope Z_scope.

(** ** Storage *)
Lemma frozen_iff : forall y j e, nth_error (y_evals y) j = Some e -> forall a,
  frozen y a <-> free (y_heap y) (held (others (y_evals y) j) (e_st e)) a.
Proof.
  intros [h es] j e Hj a. unfold frozen, free, held, others. cbn [y_heap y_evals] in *. rewrite in_flat_map. split; intros [H1 H2]; split; auto.
  - intros [(k & e' & _ & Hk & Ha)|Ha]; apply H2; [exists e'|exists e]; split; auto; eapply nth_error_In; eauto.
  - intros (e' & Hin & Ha). apply H2. apply In_nth_error in Hin as (k & Hk). destruct (Nat.eq_dec k j) as [->|Hne].
    + right. rewrite Hj in Hk. injection Hk as <-. exact Ha.
    + left. exists k, e'. auto.
Qed.

(** what a step does to the store and to the arrays of the evaluations *)
Lemma step_moves : forall y y', reachable y -> sstep y y' ->
  (length (y_heap y) <= length (y_heap y'))%nat /\
  exists j, only j y y' /\
    (forall a, (a < length (y_heap y))%nat -> (forall e, nth_error (y_evals y) j = Some e -> ~ In a (bufs (e_st e))) ->
      nth_error (y_heap y') a = nth_error (y_heap y) a) /\
    (forall e' a, nth_error (y_evals y') j = Some e' -> In a (bufs (e_st e')) ->
      (length (y_heap y) <= a < length (y_heap y'))%nat \/ exists e, nth_error (y_evals y) j = Some e /\ In a (bufs (e_st e))).
Proof.
  intros y y' Hr H. apply ok_reachable in Hr. destruct H as [h es new|h es W t b p root v Hd Hb|h es j e p h' st Hj Hp Hm|h es j e i q q' Hj Hq Hg]; cbn [y_heap y_evals].
  - split; [rewrite app_length; lia|]. exists 0%nat. split; [intros k _; reflexivity|]. split.
    + intros a Ha _. cbn [y_heap]. apply nth_error_app1. exact Ha.
    + intros e' a He Ha. right. eauto.
  - split; [rewrite app_length; lia|]. exists (length es). split; [|split].
    + intros k Hk. cbn [y_evals]. destruct (Nat.lt_ge_cases k (length es)) as [Hlt|Hge]; [apply nth_error_app1; exact Hlt|].
      rewrite (proj2 (nth_error_None es k)) by lia. apply nth_error_None. rewrite app_length. cbn. lia.
    + intros a Ha _. apply nth_error_app1. exact Ha.
    + intros e' a He Ha. rewrite nth_error_last in He. injection He as <-. cbn in Ha. destruct Ha as [<-|[]]. left. rewrite app_length. cbn. lia.
  - destruct (Hr _ _ Hj) as (c & _ & Ht & Hcode). cbn [y_heap y_evals] in *. rewrite Hp in Hcode. injection Hcode as ->.
    destruct (main_sim _ _ _ _ _ _ _ _ _ _ Ht Hm) as (c' & _ & _ & M1 & M2 & M3). split; [exact M1|]. exists j. split; [|split].
    + intros k Hk. cbn [y_evals]. rewrite nth_error_set_nth. destruct (Nat.eqb_spec j k); [congruence|reflexivity].
    + intros a Ha Hne. apply M2; auto.
    + intros e' a He Ha. rewrite nth_error_set_nth, Nat.eqb_refl, Hj in He. injection He as <-. destruct (M3 _ Ha); [right; eauto|left; assumption].
  - split; [lia|]. exists j. split; [|split].
    + intros k Hk. cbn [y_evals]. rewrite nth_error_set_nth. destruct (Nat.eqb_spec j k); [congruence|reflexivity].
    + intros a Ha _. reflexivity.
    + intros e' a He Ha. rewrite nth_error_set_nth, Nat.eqb_refl, Hj in He. injection He as <-. right. eauto.
Qed.

Lemma works_writes : forall j y y', reachable y -> works j y y' ->
  (length (y_heap y) <= length (y_heap y'))%nat /\ only j y y' /\
  exists e e', nth_error (y_evals y) j = Some e /\ nth_error (y_evals y') j = Some e' /\
    (forall a, (a < length (y_heap y))%nat -> ~ In a (bufs (e_st e)) -> nth_error (y_heap y') a = nth_error (y_heap y) a) /\
    (forall a, In a (bufs (e_st e')) -> In a (bufs (e_st e)) \/ (length (y_heap y) <= a < length (y_heap y'))%nat).
Proof.
  intros j y y' Hr H. apply ok_reachable in Hr. destruct H as [h es e p h' st Hj Hp Hm|h es e i q q' Hj Hq Hg]; cbn [y_heap y_evals].
  - destruct (Hr _ _ Hj) as (c & _ & Ht & Hcode). cbn [y_heap y_evals] in *. rewrite Hp in Hcode. injection Hcode as ->.
    destruct (main_sim _ _ _ _ _ _ _ _ _ _ Ht Hm) as (c' & _ & _ & M1 & M2 & M3). split; [exact M1|]. split.
    + intros k Hk. cbn [y_evals]. rewrite nth_error_set_nth. destruct (Nat.eqb_spec j k); [congruence|reflexivity].
    + exists e. eexists. split; [exact Hj|]. split; [rewrite nth_error_set_nth, Nat.eqb_refl, Hj; reflexivity|]. split; [intros a Ha Hn; apply M2; auto|].
      intros a Ha. exact (M3 _ Ha).
  - split; [lia|]. split.
    + intros k Hk. cbn [y_evals]. rewrite nth_error_set_nth. destruct (Nat.eqb_spec j k); [congruence|reflexivity].
    + exists e. eexists. split; [exact Hj|]. split; [rewrite nth_error_set_nth, Nat.eqb_refl, Hj; reflexivity|]. split; [intros; reflexivity|].
      intros a Ha. left. exact Ha.
Qed.

Lemma bufs_lt : forall y j e a, reachable y -> nth_error (y_evals y) j = Some e -> In a (bufs (e_st e)) -> (a < length (y_heap y))%nat.
Proof.
  intros y j e a Hr Hj Ha. destruct (ok_reachable _ Hr _ _ Hj) as (c & _ & Ht & _). apply thr_bufs in Ht as [_ Ht]. apply (Ht _ Ha).
Qed.

Lemma later_snoc : forall y1 y2 y3, later y1 y2 -> sstep y2 y3 -> later y1 y3.
Proof. intros y1 y2 y3 H. induction H as [y|y a b H1 H2 IH]; intro H3; econstructor; eauto. constructor. Qed.

Lemma bufs_allocated : forall y, reachable y -> forall j e a, nth_error (y_evals y) j = Some e -> In a (bufs (e_st e)) -> allocated_by j a y.
Proof.
  intros y H. induction H as [|y y' Hr IH Hs]; intros j e a Hj Ha; [destruct j; discriminate|].
  assert (Hlater : forall y1, later y1 y -> later y1 y') by (intros y1 Hl; eapply later_snoc; eauto).
  assert (Hold : forall e0, nth_error (y_evals y) j = Some e0 -> In a (bufs (e_st e0)) -> allocated_by j a y').
  { intros e0 H0 Ha0. destruct (IH _ _ _ H0 Ha0) as (y0 & y1 & H1 & H2 & H3 & H4). exists y0, y1. auto. }
  destruct (step_moves _ _ Hr Hs) as (_ & i & Ho & _ & Hn). destruct (Nat.eq_dec j i) as [<-|Hne]; [|rewrite (Ho _ Hne) in Hj; eauto].
  destruct (Hn _ _ Hj Ha) as [Hf|(e0 & H0 & Ha0)]; [|eauto]. exists y, y'. split; [exact Hr|]. split; [exact Hs|]. split; [apply LtHere|]. split; [exact Ho|]. split; [|exact Hf]. rewrite Hj. intro E. symmetry in E. pose proof (bufs_lt _ _ _ _ Hr E Ha). lia.
Qed.

Lemma frozen_step : forall y y' a, reachable y -> sstep y y' -> frozen y a -> frozen y' a /\ nth_error (y_heap y') a = nth_error (y_heap y) a.
Proof.
  intros y y' a Hr Hs [H1 H2]. destruct (step_moves _ _ Hr Hs) as (Hl & j & Ho & Hw & Hb).
  assert (K : forall k e, nth_error (y_evals y) k = Some e -> In a (bufs (e_st e)) -> False).
  { intros k e Hk Ha. apply H2. apply in_flat_map. exists e. split; [eapply nth_error_In; eauto|exact Ha]. }
  split.
  - split; [lia|]. intro Hin. apply in_flat_map in Hin as (e' & Hin & Ha). apply In_nth_error in Hin as (k & Hk). destruct (Nat.eq_dec k j) as [->|Hne].
    + destruct (Hb _ _ Hk Ha) as [Hx|(e & He & Hx)]; [lia|eauto].
    + rewrite Ho in Hk by exact Hne. eauto.
  - apply Hw; [exact H1|]. intros e He Ha. eauto.
Qed.

Lemma frozen_later : forall y y', later y y' -> reachable y -> forall a, frozen y a -> frozen y' a /\ nth_error (y_heap y') a = nth_error (y_heap y) a.
Proof.
  intros y y' H. induction H as [y|y y1 y2 Hs H IH]; intros Hr a Ha; [auto|]. destruct (frozen_step _ _ _ Hr Hs Ha) as [Ha1 E1].
  destruct (IH (YStep _ _ Hr Hs) _ Ha1) as [Ha2 E2]. split; [exact Ha2|congruence].
Qed.

Lemma stands_later : forall y y' x v, later y y' -> reachable y -> stands (frozen y) (y_heap y) x v -> stands (frozen y') (y_heap y') x v.
Proof. intros y y' x v H Hr. apply stands_move. apply frozen_later; assumption. Qed.

Lemma list_later : forall y y' s l, later y y' -> reachable y -> frozen y (s_addr s) -> stands_list (frozen y) (y_heap y) s l ->
  stands_list (frozen y') (y_heap y') s l.
Proof.
  intros y y' s l H Hr Hf (c & Hc & Hl). exists c. split; [rewrite (cells_same (y_heap y) (y_heap y') s); [exact Hc|]; eapply frozen_later; eauto|].
  eapply Forall2_impl_both; [exact Hl|]. intros. eapply stands_later; eauto.
Qed.

(** what evaluations were called with stays *)
Lemma static_step : forall y y' j e, sstep y y' -> nth_error (y_evals y) j = Some e -> exists st, nth_error (y_evals y') j = Some (with_st e st).
Proof.
  intros y y' j e H Hj. assert (Hself : e = with_st e (e_st e)) by (destruct e; reflexivity).
  destruct H as [h es new|h es W t b p root v Hd Hb|h es k e' p h' st Hk Hp Hm|h es k e' i q q' Hk Hq Hg]; cbn [y_evals] in *.
  - exists (e_st e). congruence.
  - exists (e_st e). rewrite nth_error_app1; [congruence|]. apply nth_error_Some. congruence.
  - rewrite nth_error_set_nth, Hj. destruct (Nat.eqb_spec k j) as [->|]; [|exists (e_st e); congruence]. rewrite Hj in Hk. injection Hk as <-. eauto.
  - rewrite nth_error_set_nth, Hj. destruct (Nat.eqb_spec k j) as [->|]; [|exists (e_st e); congruence]. rewrite Hj in Hk. injection Hk as <-. eauto.
Qed.

Lemma static_later : forall y y', later y y' -> forall j e, nth_error (y_evals y) j = Some e -> exists st, nth_error (y_evals y') j = Some (with_st e st).
Proof.
  intros y y' H. induction H as [y|y y1 y2 Hs H IH]; intros j e Hj; [exists (e_st e); destruct e; exact Hj|].
  destruct (static_step _ _ _ _ Hs Hj) as (st & Hj1). destruct (IH _ _ Hj1) as (st2 & Hj2). exists st2. exact Hj2.
Qed.

Lemma called_later : forall y y' j W t jp root v, later y y' -> called y j W t jp root v -> called y' j W t jp root v.
Proof.
  intros y y' j W t jp root v H (e & Hj & He). destruct (static_later _ _ H _ _ Hj) as (st & Hj'). eexists. split; [exact Hj'|exact He].
Qed.

Lemma returned_step : forall y y' j r, sstep y y' -> returned y j r -> returned y' j r.
Proof.
  intros y y' j r H (e & Hj & Hd). destruct H as [h es new|h es W t b p root v Hr Hb|h es k e' p h' st Hk Hp Hm|h es k e' i q q' Hk Hq Hg]; unfold returned; cbn [y_evals] in *.
  - eauto.
  - exists e. split; [|exact Hd]. rewrite nth_error_app1; [exact Hj|]. apply nth_error_Some. congruence.
  - rewrite nth_error_set_nth, Hj. destruct (Nat.eqb_spec k j) as [->|]; [|eauto]. rewrite Hj in Hk. injection Hk as <-. rewrite Hd in Hm. inversion Hm.
  - rewrite nth_error_set_nth, Hj. destruct (Nat.eqb_spec k j) as [->|]; [|eauto]. rewrite Hj in Hk. injection Hk as <-. eexists. split; [reflexivity|exact Hd].
Qed.

Lemma returned_later : forall y y' j r, later y y' -> returned y j r -> returned y' j r.
Proof. intros y y' j r H. induction H as [y|y y1 y2 Hs H IH]; intro Hj; [exact Hj|]. apply IH. eapply returned_step; eauto. Qed.

(** ** Results *)
Lemma result : forall y j W t jp root v r, reachable y -> called y j W t jp root v -> orders_ok W -> returned y j r ->
  match r with
  | ROk s => exists l, JP_Eval W t jp v (OK l) /\ frozen y (s_addr s) /\ stands_list (frozen y) (y_heap y) s l
  | RFail x => JP_Eval W t jp v (Fail x)
  | RPanic => JP_Eval W t jp v Panics
  end.
Proof.
  intros y j W t jp root v r Hr (e & Hj & <- & <- & Hp & <- & <-) HW (e' & Hj' & Hd). rewrite Hj in Hj'. injection Hj' as <-.
  destruct (ok_reachable _ Hr _ _ Hj) as (c & Hs & Ht & _). rewrite Hp in Hs. pose proof (frozen_iff _ _ _ Hj) as Hf.
  destruct Ht as [_ _ _ Hm]. rewrite Hd in Hm. assert (Hb : forall a, held (others (y_evals y) j) (e_st e) a <-> others (y_evals y) j a).
  { intro a. unfold held, bufs. rewrite Hd. cbn. tauto. }
  destruct r as [s|x|]; destruct (c_mode c) as [| | |[l|x'| |]] eqn:Em; try contradiction.
  - exists l. split; [eapply sched_result; eauto; discriminate|]. destruct Hm as [H1 (cl & Hc & Hl)].
    assert (K : forall a, free (y_heap y) (others (y_evals y) j) a -> frozen y a).
    { intros a [Ha1 Ha2]. apply Hf. split; [exact Ha1|]. rewrite Hb. exact Ha2. }
    split; [apply K; exact H1|]. exists cl. split; [exact Hc|]. eapply Forall2_impl_both; [exact Hl|]. intros. eapply stands_move; [|eassumption]. intros. split; auto.
  - subst x'. eapply sched_result; eauto. discriminate.
  - eapply sched_result; eauto. discriminate.
Qed.

(** the result, the document and the program, whatever happens later *)
Lemma result_kept : forall y y' j W t jp root v s l, reachable y -> later y y' -> called y j W t jp root v -> orders_ok W -> returned y j (ROk s) ->
  JP_Eval W t jp v (OK l) -> stands_list (frozen y') (y_heap y') s l.
Proof.
  intros y y' j W t jp root v s l Hr Hl Hc HW Hd He. destruct (result _ _ _ _ _ _ _ _ Hr Hc HW Hd) as (l' & He' & Hf & Hs).
  pose proof (eval_unique _ _ _ _ _ _ He He') as E. injection E as <-. eapply list_later; eauto.
Qed.

Lemma document_kept : forall y e, reachable y -> In e (y_evals y) -> stands (frozen y) (y_heap y) (e_root e) (e_val e).
Proof.
  intros y e Hr Hin. apply In_nth_error in Hin as (j & Hj). destruct (ok_reachable _ Hr _ _ Hj) as (c & _ & Ht & _).
  eapply stands_move; [|exact (th_root _ _ _ _ _ _ Ht)]. intros a Ha. split; [apply (frozen_iff _ _ _ Hj); exact Ha|reflexivity].
Qed.

Lemma program_kept : forall y e, reachable y -> In e (y_evals y) -> nth_error (y_heap y) (e_code e) = Some (BProg (e_prog e)) /\ frozen y (e_code e).
Proof.
  intros y e Hr Hin. apply In_nth_error in Hin as (j & Hj). pose proof (ok_reachable _ Hr) as Hok. destruct (Hok _ _ Hj) as (c & _ & Ht & Hp). split; [exact Hp|].
  split; [apply nth_error_Some; congruence|]. intro Hi. apply in_flat_map in Hi as (e' & Hi & Ha). apply In_nth_error in Hi as (k & Hk).
  destruct (Hok _ _ Hk) as (c' & _ & Ht' & _). destruct (bufs_arr _ _ _ _ _ _ _ Ht' Ha) as (l & Hl). congruence.
Qed.

(** ** Separation *)
Lemma separate : forall y, reachable y -> NoDup (flat_map (fun e => bufs (e_st e)) (y_evals y)).
Proof.
  intros y Hr. apply ok_reachable in Hr. unfold sys_ok in Hr. destruct y as [h es]. cbn [y_evals] in *.
  assert (K : forall j e, nth_error es j = Some e -> NoDup (bufs (e_st e)) /\ forall a, In a (bufs (e_st e)) -> ~ others es j a).
  { intros j e Hj. destruct (Hr _ _ Hj) as (c & _ & Ht & _). apply thr_bufs in Ht as [H1 H2]. split; [exact H1|]. intros a Ha. apply (H2 _ Ha). }
  clear Hr. revert K. induction es as [|e es IH]; intro K; [constructor|]. cbn [flat_map]. apply nodup_app. split; [apply (K 0%nat e eq_refl)|]. split.
  - apply IH. intros j e' Hj. destruct (K (S j) e' Hj) as [H1 H2]. split; [exact H1|]. intros a Ha (k & e2 & Hne & Hk & Hb). apply (H2 _ Ha). exists (S k), e2. auto.
  - intros a Ha Hb. apply in_flat_map in Hb as (e' & Hi & Hb). apply In_nth_error in Hi as (k & Hk). destruct (K 0%nat e eq_refl) as [_ H2].
    apply (H2 _ Ha). exists (S k), e'. auto.
Qed.

Lemma frame_whole : forall P h f f' x, stands_frame P h f f' -> frame_has f x -> whole P h x.
Proof.
  intros P h f f' x Hs Hf. destruct Hs as [s i ts vs [Hu _] Hl|a ks ts m vs Hp Hb He Hl|t y v Hx|t s i vs [Hu _]|s i vs [Hu _]|a ks m vs Hp Hb He]; inversion Hf; subst; auto.
  eexists. exact Hx.
Qed.

Lemma prod_whole : forall P h q q' x, stands_prod P h q q' -> prod_has q x -> whole P h x.
Proof.
  intros P h q q' x Hs Hq. destruct Hs as [k k' Hk|y v k k' Hy Hk|]; inversion Hq as [? f ? Hi Hf|? ? f ? Hi Hf|]; subst; try (eexists; eassumption);
    destruct (Forall2_in_l _ _ _ _ _ _ Hk Hi) as (f' & _ & Hff); eapply frame_whole; eauto.
Qed.

Lemma has_frozen : forall y j e x a, reachable y -> nth_error (y_evals y) j = Some e -> has (y_heap y) e x -> reaches (y_heap y) x a -> frozen y a.
Proof.
  intros y j e x a Hr Hj Hx Ha. destruct (ok_reachable _ Hr _ _ Hj) as (c & _ & Ht & _). apply (frozen_iff _ _ _ Hj).
  set (O := others (y_evals y) j) in *. set (h := y_heap y) in *.
  assert (K : whole (free h (held O (e_st e))) h x); [|destruct K as (v & K); eapply stands_reaches; eauto].
  assert (Hsim : (forall r, g_mode (e_st e) <> GoDone r) -> exists ma lv, sim O h (g_m (e_st e)) ma lv).
  { intro Hn. destruct Ht as [_ _ _ Hm]. destruct (g_mode (e_st e)) as [| |ord|r], (c_mode c) as [| |ord'|r']; try contradiction; eauto; try (destruct r; contradiction);
      [destruct Hm as [_ Hm]; eauto|contradiction (Hn r eq_refl)]. }
  assert (Hheld : forall w z, (forall r, g_mode (e_st e) <> GoDone r) -> stands (free h (bad O (g_m (e_st e)))) h w z -> whole (free h (held O (e_st e))) h w).
  { intros w z Hn Hw. exists z. eapply stands_move; [|exact Hw]. intros b [Hb1 Hb2]. split; [|reflexivity]. split; [exact Hb1|]. intro Hb3. apply Hb2. apply held_run in Hb3; assumption. }
  destruct Hx as [|Hn|s l x Hn Hs Hc Hi|q x Hi Hq|s Hd].
  - eexists. exact (th_root _ _ _ _ _ _ Ht).
  - destruct (Hsim Hn) as (ma & lv & Hs). eapply Hheld; [exact Hn|]. apply (si_m _ _ _ _ _ Hs).
  - destruct (Hsim Hn) as (ma & lv & Hsm).
    assert (exists l0 vs, cells h s = Some l0 /\ Forall2 (stands (free h (bad O (g_m (e_st e)))) h) l0 vs) as (l0 & vs & Hc0 & Hf).
    { destruct Hs as [Hs|Hs].
      - destruct Hsm as [[H1 _ _ _ _ _] _ _ _ _]. rewrite Hs in H1. destruct (m_out ma) as [g|]; [|contradiction]. destruct H1 as (c0 & Hc0 & Hf). eauto.
      - destruct (sim_stk _ _ _ _ _ Hsm) as (c0 & Hc0 & Hf). rewrite Hs in Hc0. eauto. }
    rewrite Hc in Hc0. injection Hc0 as <-. destruct (Forall2_in_l _ _ _ _ _ _ Hf Hi) as (z & _ & Hz). eapply Hheld; eauto.
  - destruct (Forall2_in_l _ _ _ _ _ _ (th_prods _ _ _ _ _ _ Ht) Hi) as (q' & _ & Hq'). eapply prod_whole; eauto.
  - destruct Ht as [_ _ _ Hm]. rewrite Hd in Hm. destruct (c_mode c) as [| | |[l| | |]]; try contradiction. destruct Hm as [H1 (cl & Hc & Hl)].
    assert (Hb : forall b, free h O b -> free h (held O (e_st e)) b). { intros b [Hb1 Hb2]. split; [exact Hb1|]. intros [Hb|Hb]; [auto|]. unfold bufs in Hb. rewrite Hd in Hb. exact Hb. }
    exists (VArr l). eapply RpArr; [apply Hb; exact H1|exact Hc|]. eapply Forall2_impl_both; [exact Hl|]. intros. eapply stands_move; [|eassumption]. intros. split; auto.
Qed.
