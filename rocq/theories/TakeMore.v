(** The evaluator with slices and documents whose objects have more than one member. *)
From Coq Require Import Permutation.
From Verif Require Import Base Syntax SpecSyntax Value Machine Parser Api SpecDoc DocProofs SpecSelect SpecRun SpecOp SpecText SpecSem SpecLaws
  SpecOnce SpecFind SpecTake WalkProofs SelectFinal SliceProofs StepProofs StepExact TextProofs SemFinal UniquePath OrderProofs FindProofs TakeProofs.
Local Open Scope Z_scope.

Lemma calm_apps : forall back args vs, Forall exprless args -> existsb (fun v => existsb (misses v) args) vs = false ->
  Forall (fun a => ~ discards a) (applications (map (sel_for back) args) vs).
Proof.
  intros back args vs Ha H. apply Forall_forall. intros x Hx K. assert (E : existsb (fun v => existsb (misses v) args) vs = true); [|congruence].
  apply in_flat_map in Hx as (v & Hv & Hx). rewrite map_map in Hx. apply in_map_iff in Hx as (a & <- & Hi).
  apply existsb_exists. exists v. split; [exact Hv|]. apply existsb_exists. exists a. split; [exact Hi|].
  destruct a; cbn in K |- *; try contradiction. rewrite K. reflexivity.
Qed.
Lemma calm_collects : forall apps l, Forall (fun a => ~ discards a) apps -> collects apps l ->
  exists ls, Forall2 (fun a l => picks (fst a) (snd a) l) apps ls /\ l = concat ls.
Proof.
  intros apps l Hu (b & a & -> & [->|(b' & x & -> & Hx)] & _ & ls & Hls & ->); [eauto|].
  exfalso. apply Forall_app in Hu as [Hu _]. apply Forall_app in Hu as [_ Hu]. apply Forall_inv in Hu. contradiction.
Qed.
Lemma calm_perm : forall apps apps' l l', Forall (fun a => ~ discards a) apps' -> Forall (fun a => json_node (snd a)) apps -> Permutation apps apps' ->
  collects apps l -> collects apps' l' -> Permutation l l'.
Proof.
  intros apps apps' l l' Hu' Hn Hp H H'. assert (Hu : Forall (fun a => ~ discards a) apps) by (eapply Permutation_Forall; [apply Permutation_sym|]; eauto).
  assert (Hn' : Forall (fun a => json_node (snd a)) apps') by (eapply Permutation_Forall; eauto).
  apply calm_collects in H as (ls & F & ->); [|exact Hu]. apply calm_collects in H' as (ls' & F' & ->); [|exact Hu'].
  destruct (F2_perm _ _ _ _ _ _ Hp F) as (ls2 & Hq & F2). rewrite (picked_fun apps' ls' ls2 Hn' F' F2). apply concat_perm. exact Hq.
Qed.
Lemma apps_nodes : forall sels vs, Forall doc vs -> Forall (fun a => json_node (snd a)) (applications sels vs).
Proof.
  intros sels vs Hd. apply Forall_forall. intros x Hx. apply in_flat_map in Hx as (v & Hv & Hx). apply in_map_iff in Hx as (y & <- & _).
  rewrite Forall_forall in Hd. apply (Hd v Hv). constructor.
Qed.
Lemma apps_perm : forall sels vs vs', Permutation vs vs' -> Permutation (applications sels vs) (applications sels vs').
Proof. intros sels vs vs' H. apply Permutation_flat_map. exact H. Qed.
Lemma exists_perm : forall A (f : A -> bool) l l', Permutation l l' -> existsb f l = existsb f l'.
Proof.
  intros A f l l' H. induction H; cbn; try congruence.
  - destruct (f x), (f y); reflexivity.
Qed.

Lemma sweeps_for_fun : forall W root back args dots r, Forall exprless args -> sweeps W root back args dots r ->
  r = if existsb (fun v => existsb (breaks v) args) dots then Panics else OK (applications (map (sel_for back) args) dots).
Proof.
  intros W root back args dots r Ha H. induction H as [|d dots sels r Am Ho Hs IH|d dots sels Am He|d dots err Am].
  - reflexivity.
  - apply (args_for_fun _ _ _ _ _ _ Ha) in Am. injection Am as ->. rewrite IH. cbn [existsb].
    assert (E : existsb (fun v => existsb (breaks v) args) [d] = false).
    { destruct (existsb _ [d]) eqn:E; [|reflexivity]. apply (broken_apps back) in E. exfalso. eapply none_some; eassumption. }
    cbn in E. rewrite orb_false_r in E. rewrite E. cbn [orb]. destruct (existsb _ dots); cbn [obind]; [reflexivity|].
    unfold applications. cbn [flat_map]. rewrite app_nil_r. reflexivity.
  - apply (args_for_fun _ _ _ _ _ _ Ha) in Am. injection Am as ->. apply broken_apps in He. cbn in He |- *. rewrite orb_false_r in He. rewrite He. reflexivity.
  - apply (args_for_fun _ _ _ _ _ _ Ha) in Am. discriminate.
Qed.

(** the same, but for the order *)
Definition alike (r : M (list val)) (o : option (list val)) : Prop :=
  match o with Some l0 => exists l, r = OK l /\ Permutation l l0 | None => r = Panics end.

Lemma broken_none : forall back args vs, Forall (fun a => ~ app_overflows a) (applications (map (sel_for back) args) vs) ->
  existsb (fun v => existsb (breaks v) args) vs = false.
Proof.
  intros back args vs H. destruct (existsb _ vs) eqn:E; [|reflexivity]. apply (broken_apps back) in E. exfalso. eapply none_some; eassumption.
Qed.

Lemma select_alike : forall W root o args vs cands r, is_select o = true -> Forall exprless args -> Forall doc vs -> Permutation cands vs ->
  existsb (fun v => existsb (misses v) args) vs = false ->
  step_means W root (mkStep o args) cands r -> alike r (take_step (mkStep o args) vs).
Proof.
  intros W root o args vs cands r Ho Ha Hd P C H.
  assert (Hd' : Forall doc cands) by (eapply Permutation_Forall; [apply Permutation_sym|]; eauto).
  assert (E : take_step (mkStep o args) vs = if existsb (fun v => existsb (breaks v) args) vs then None
    else Some (remembered (flat_map (fun v => map (take_arg (counts_back o) v) args) vs))) by (destruct o; try discriminate Ho; reflexivity).
  rewrite E, <- (exists_perm _ _ _ _ P). clear E.
  inversion H; subst; cbn [st_op st_args] in *; try (subst; discriminate Ho); try (destruct o; discriminate);
    match goal with A : args_mean _ _ _ _ _ ?x |- _ => pose proof (args_for_fun _ _ _ _ _ x Ha A) as Af; try discriminate Af; injection Af as -> end.
  - rewrite (broken_none (counts_back o)) by assumption. eexists. split; [reflexivity|].
    eapply calm_perm; [|apply apps_nodes; exact Hd'|apply apps_perm; exact P|eassumption|apply remember_collects, taken_apps; assumption].
    apply calm_apps; assumption.
  - match goal with A : Exists _ _ |- _ => apply broken_apps in A; rewrite A end. reflexivity.
Qed.
Lemma nest_alike : forall W root o args vs cands r, is_nest_select o = true -> Forall exprless args -> Forall doc vs -> Permutation cands vs ->
  existsb (fun v => existsb (misses v) args) (flat_map containers vs) = false ->
  step_means W root (mkStep o args) cands r -> alike r (take_step (mkStep o args) vs).
Proof.
  intros W root o args vs cands r Ho Ha Hd P C H.
  assert (Hd' : Forall doc cands) by (eapply Permutation_Forall; [apply Permutation_sym|]; eauto).
  assert (E : take_step (mkStep o args) vs = if existsb (fun v => existsb (breaks v) args) (flat_map containers vs) then None
    else Some (remembered (flat_map (fun v => map (take_arg (counts_back o) v) args) (flat_map containers vs)))) by (destruct o; try discriminate Ho; reflexivity).
  rewrite E. clear E. destruct (rounds_taken vs) as (dots0 & R0 & D).
  assert (S : exists dots q, Permutation dots dots0 /\ sweeps W root (counts_back o) args dots q /\
    match q with OK apps => exists l, r = OK l /\ collects apps l | Panics => r = Panics | _ => True end).
  { inversion H; subst; cbn [st_op st_args] in *; try (subst; discriminate Ho); try (destruct o; discriminate);
      (eexists _, _; split; [eapply rounds_perm; [exact walks_perm|exact P|eassumption|exact R0]|]; split; [eassumption|]; cbn; eauto). }
  destruct S as (dots & q & Pd & Sw & Hr). apply (sweeps_for_fun _ _ _ _ _ _ Ha) in Sw. subst q. destruct D as [->|[-> N]].
  - rewrite <- (exists_perm _ _ _ _ Pd). destruct (existsb _ dots); [exact Hr|]. destruct Hr as (l & -> & K). eexists. split; [reflexivity|].
    pose proof (containers_doc _ Hd) as HD.
    eapply calm_perm; [|apply apps_nodes|apply apps_perm; exact Pd|exact K|apply remember_collects, taken_apps; assumption].
    + apply calm_apps; assumption.
    + eapply Permutation_Forall; [apply Permutation_sym|]; eauto.
  - rewrite N. cbn [existsb flat_map]. apply Permutation_sym, Permutation_length_1_inv in Pd. subst dots.
    assert (B : existsb (fun v => existsb (breaks v) args) [VNil] = false).
    { cbn [existsb]. rewrite orb_false_r. clear. induction args as [|a args IH]; [reflexivity|]. cbn. rewrite IH. destruct a; reflexivity. }
    rewrite B in Hr. destruct Hr as (l & -> & K). apply collects_null in K. subst l. exists []. auto.
Qed.
Lemma step_alike : forall W root s vs cands r, wf_step s -> Forall exprless (st_args s) -> Forall doc vs -> Permutation cands vs ->
  existsb (fun v => existsb (misses v) (st_args s)) (if SpecOnce.is_nest (st_op s) then flat_map containers vs else vs) = false ->
  step_means W root s cands r -> alike r (take_step s vs).
Proof.
  intros W root s vs cands r Hs Ha Hd P C H. destruct Hs; cbn [st_args st_op SpecOnce.is_nest] in Ha, C;
    try (eapply select_alike; eauto; fail); try (eapply nest_alike; eauto; fail); try (apply Forall_inv in Ha; destruct Ha; fail).
  - inversion H; subst; cbn [st_op] in *; try discriminate. eexists. split; [reflexivity|].
    eapply gathers_perm; [exact children_perm|exact P|eassumption|apply children_taken].
  - inversion H; subst; cbn [st_op] in *; try discriminate. eexists. split; [reflexivity|]. cbn [SpecOnce.is_nest].
    destruct (rounds_taken vs) as (dots0 & R0 & D). 
    match goal with A : rounds walks cands ?x |- _ => assert (Pd : Permutation x dots0) by (eapply rounds_perm; [exact walks_perm|exact P|exact A|exact R0]) end.
    eapply gathers_perm; [exact children_perm|exact Pd|eassumption|].
    destruct D as [->|[-> N]]; [apply children_taken|rewrite N; apply (children_taken [VNil])].
Qed.
Lemma path_alike : forall W root ss vs cands r, wf_path ss -> Forall (fun s => Forall exprless (st_args s)) ss -> Forall doc vs -> Permutation cands vs ->
  slices_arrays ss vs = true -> path_means W root ss cands r -> alike r (take_path ss vs).
Proof.
  intros W root ss. induction ss as [|s ss IH]; intros vs cands r Hw Ha Hd P C H.
  - inversion H; subst. exists cands. auto.
  - inversion Hw as [|? ? Hs Hw']; subst. inversion Ha as [|? ? Hsa Ha']; subst. cbn [slices_arrays] in C. apply andb_prop in C as [C1 C2].
    apply negb_true_iff in C1. cbn [take_path].
    inversion H as [|? ? ? x ? S Q|? ? ? err S|? ? ? S]; subst; pose proof (step_alike _ _ _ _ _ _ Hs Hsa Hd P C1 S) as A;
      pose proof (step_taken W root s vs Hs Hsa Hd) as T; destruct (take_step s vs) as [l0|]; cbn [alike as_run] in *; try discriminate A;
      try (destruct A as (l & E & A); try discriminate E); try reflexivity.
    injection E as ->. eapply IH; eauto. eapply step_closed; [exact doc_nil|exact doc_sub|exact Hd|exact T].
Qed.

Lemma text_alike : forall TX s ss jp W t root r, accepted TX s ss jp -> fits jp -> orders_ok W -> doc root ->
  Forall (fun s => Forall exprless (st_args s)) ss -> slices_arrays ss [root] = true -> JP_Eval W t jp root r ->
  match take_path ss [root] with Some l0 => exists l, r = OK l /\ Permutation l l0 | None => r = Panics end.
Proof.
  intros TX s ss jp W t root r Ha Hf HW Hd Hl C H. pose proof (text_means _ _ _ _ _ _ _ _ Ha Hf HW Hd H) as Hm.
  assert (Hw : wf_path ss) by (eapply text_wf; eauto).
  exact (path_alike W root ss [root] [root] r Hw Hl ltac:(constructor; [exact Hd|constructor]) (Permutation_refl _) C Hm).
Qed.
