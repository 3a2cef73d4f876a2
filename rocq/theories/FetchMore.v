(** Filters, and paths with filters, against the short evaluator. *)
From Coq Require Import Permutation.
From Verif Require Import Base Syntax SpecSyntax Value Machine Parser Api SpecDoc DocProofs SpecSelect StepProofs StepExact UniqueProofs SpecRun SpecOp SpecExpr SpecText SpecSem SpecLaws
  SpecOnce SpecFind SpecTake SpecFetch SpecEq SpecLoose WalkProofs LogicProofs TextProofs SemFinal UniquePath OrderProofs TakeProofs TakeMore SpecListed ListedProofs FetchProofs.
From Verif Require Coder CoderProofs SpecHand HandProofs.
Local Open Scope Z_scope.

Lemma filter_perm : forall A (f : A -> bool) l l', Permutation l l' -> Permutation (filter f l) (filter f l').
Proof.
  intros A f l l' H. induction H; cbn.
  - constructor.
  - destruct (f x); [constructor|]; assumption.
  - destruct (f x), (f y); try apply Permutation_refl. apply perm_swap.
  - eapply Permutation_trans; eassumption.
Qed.
Lemma or_null_rounds : forall (produces : val -> list val -> Prop) f, (forall vs, gathers produces vs (flat_map f vs)) ->
  forall vs, rounds produces vs (or_null vs (flat_map f vs)).
Proof.
  intros produces f G vs. pose proof (G vs) as H. destruct vs as [|v vs]; [constructor|]. unfold or_null.
  destruct (flat_map f (v :: vs)) as [|x l]; [apply RdNull; [discriminate|exact H]|apply RdAll; [discriminate|exact H]].
Qed.
Lemma or_null_doc : forall vs dots, Forall doc dots -> Forall doc (or_null vs dots).
Proof. intros [|v vs] [|d dots] H; cbn; try exact H. constructor; [exact doc_nil|constructor]. Qed.
Lemma offspring_doc : forall vs, Forall doc vs -> Forall doc (flat_map offspring vs).
Proof. intros vs H. eapply gathers_closed; [exact doc_sub|exact UniquePath.children_sub|exact H|apply children_taken]. Qed.

Lemma first_none : forall A B (f : A -> option B) l, first_some (map f l) = None <-> Forall (fun a => f a = None) l.
Proof.
  intros A B f l. induction l as [|a l IH]; cbn [map first_some]; [split; [constructor|reflexivity]|]. destruct (f a) eqn:E.
  - split; [discriminate|]. intro H. apply Forall_inv in H. congruence.
  - rewrite IH. split; [intro H; constructor; assumption|intro H; exact (Forall_inv_tail H)].
Qed.
Lemma first_perm : forall A B (f : A -> option B) l l', Permutation l l' -> first_some (map f l) = None -> first_some (map f l') = None.
Proof. intros A B f l l' P H. apply first_none. apply first_none in H. eapply Permutation_Forall; eassumption. Qed.

Lemma unless_agree : forall (f : val -> option rerr) dots dots0 l l0, Permutation dots dots0 -> Permutation l l0 ->
  agree (unless (first_some (map f dots)) l) (unless (first_some (map f dots0)) l0).
Proof.
  intros f dots dots0 l l0 P Q. destruct (first_some (map f dots0)) as [e0|] eqn:E0; cbn [unless agree].
  - destruct (first_some (map f dots)) as [e|] eqn:E; [eexists; reflexivity|]. rewrite (first_perm _ _ f _ _ P E) in E0. discriminate.
  - rewrite (first_perm _ _ f _ _ (Permutation_sym P) E0). eexists. split; [reflexivity|exact Q].
Qed.

Lemma known_sub : forall Lone x v, known Lone v -> within x v -> known Lone x.
Proof. intros Lone x v [H L] Hx. split; [eapply doc_within; eauto|]. intros K m Hm. apply (L K). eapply within_trans; eauto. Qed.
Lemma known_nil : forall Lone, known Lone VNil.
Proof. intros Lone. split; [exact doc_nil|]. intros _ m H. inversion H. Qed.
Lemma known_docs : forall Lone vs, Forall (known Lone) vs -> Forall doc vs.
Proof. intros Lone vs H. eapply Forall_impl; [|exact H]. intros v K. apply K. Qed.
Lemma docs_known : forall vs, Forall doc vs -> Forall (known False) vs.
Proof. intros vs H. eapply Forall_impl; [|exact H]. intros v K. split; [exact K|intros []]. Qed.
Lemma or_null_known : forall Lone vs dots, Forall (known Lone) dots -> Forall (known Lone) (or_null vs dots).
Proof. intros Lone [|v vs] [|d dots] H; cbn; try exact H. constructor; [apply known_nil|constructor]. Qed.
Lemma offspring_known : forall Lone vs, Forall (known Lone) vs -> Forall (known Lone) (flat_map offspring vs).
Proof. intros Lone vs H. eapply gathers_closed; [exact (known_sub Lone)|exact UniquePath.children_sub|exact H|apply children_taken]. Qed.
Lemma containers_known : forall Lone vs, Forall (known Lone) vs -> Forall (known Lone) (flat_map containers vs).
Proof. intros Lone vs H. eapply gathers_closed; [exact (known_sub Lone)|exact walks_within|exact H|apply walks_all]. Qed.

Section fetching.
Variable Lone : Prop.
Variable W : world.
Hypothesis HW : orders_ok W.
Hypothesis HS : splits_ok W.
Variable same : val -> val -> bool.
Hypothesis Hsame : forall a b, (forall x, within x b -> distinct_names x) -> (same a b = true <-> loose W a b).
Variable name : val -> bytes.
Hypothesis Hname : forall v k, named W v k -> name v = k.
Variable root : val.
Hypothesis Hroot : known Lone root.
Notation simple := (simple Lone).
Notation plain_step := (plain_step Lone).
Notation known := (known Lone).
Notation TX := (w_text W).
Notation worth := (worth W same name root).
Notation fault := (fault W same name root).
Notation fetch_step := (fetch_step W same name root).
Notation faults e dots := (first_some (map (fun d => fault d e) dots)).
Notation keep e := (filter (fun d => truth TX (worth d e))).

Lemma kept : forall e dots, simple e -> wf_expr e -> Forall known dots -> keeps W root e dots (unless (faults e dots) (keep e dots)).
Proof.
  intros e dots Hs Hw Hd. induction Hd as [|d dots Hd Hds IH]; [constructor|]. cbn [filter map first_some].
  destruct (worth_meant Lone W HW HS same Hsame name Hname root Hroot e Hs Hw d Hd) as [_ M1]. pose proof (proj2 (M1 _) eq_refl) as Hm.
  destruct (fault d e) as [f|]; [apply KpError; exact Hm|]. cbn [unless] in Hm.
  destruct (truth TX (worth d e)) eqn:E; rewrite truth_cvb in E.
  - apply (KpTrue W root e d _ dots _ Hm) in IH; [|intro F; apply falsy_cvb in F; congruence]. destruct (faults e dots); exact IH.
  - eapply KpFalse; [exact Hm| |exact IH]. apply falsy_cvb. exact E.
Qed.
Lemma kept_fun : forall e dots r, simple e -> wf_expr e -> Forall known dots -> keeps W root e dots r -> r = unless (faults e dots) (keep e dots).
Proof.
  intros e dots r Hs Hw Hd H. induction H as [|d v dots r Hm F H IH|d v dots r Hm F H IH|d err dots Hm]; [reflexivity| | |];
    inversion Hd as [|? ? Hd1 Hd2]; subst; apply (worth_meant Lone W HW HS same Hsame name Hname root Hroot e Hs Hw d Hd1) in Hm; cbn [filter map first_some];
    destruct (fault d e) as [f|]; try discriminate Hm; injection Hm as ->; [| |reflexivity]; rewrite (IH Hd2), truth_cvb.
  - destruct (cvb W _) eqn:E; [destruct (faults e dots); reflexivity|]. apply falsy_cvb in E. contradiction.
  - apply falsy_cvb in F. rewrite F. reflexivity.
Qed.

Lemma exprless_fetch : forall s vs, Forall exprless (st_args s) -> fetch_step s vs = as_run (take_step s vs).
Proof.
  intros [o args] vs H. unfold SpecFetch.fetch_step. cbn [st_op st_args] in *. destruct o; try reflexivity; destruct args as [|[] [|]]; try reflexivity;
    apply Forall_inv in H; destruct H.
Qed.

(** ** Scripts *)
Notation sels back d e := (map (sel_for back) (script name (worth d e))).
Notation found back d v e := (flat_map (find_arg back v) (script name (worth d e))).
Lemma script_keys : forall v, Forall literal_key (script name v).
Proof. intros v. destruct v; cbn; repeat constructor. Qed.
Lemma keys_calm : forall back args vs, Forall literal_key args -> Forall (fun a => ~ discards a) (applications (map (sel_for back) args) vs) /\
  Forall (fun a => ~ app_overflows a) (applications (map (sel_for back) args) vs).
Proof.
  intros back args vs H. split; apply Forall_forall; intros x Hx; apply in_flat_map in Hx as (v & _ & Hx); rewrite map_map in Hx;
    apply in_map_iff in Hx as (a & <- & Ha); rewrite Forall_forall in H; specialize (H a Ha); destruct a; try destruct H; intro K; exact K.
Qed.
Lemma keys_picked : forall back args v, Forall literal_key args -> doc v ->
  Forall2 (fun a l => picks (fst a) (snd a) l) (applications (map (sel_for back) args) [v]) (map (find_arg back v) args).
Proof.
  intros back args v H Hd. unfold applications. cbn [flat_map]. rewrite app_nil_r. induction H as [|a args Ha H IH]; constructor; [|exact IH].
  apply arg_picked; assumption.
Qed.
Lemma keys_all_picked : forall back (argf : val -> list pval) vs, (forall v, Forall literal_key (argf v)) -> Forall doc vs ->
  exists ls, Forall2 (fun a l => picks (fst a) (snd a) l) (flat_map (fun v => applications (map (sel_for back) (argf v)) [v]) vs) ls /\
    concat ls = flat_map (fun v => flat_map (find_arg back v) (argf v)) vs.
Proof.
  intros back argf vs H Hd. induction Hd as [|v vs Hv Hd (ls & F & E)]; [exists []; split; [constructor|reflexivity]|].
  exists (map (find_arg back v) (argf v) ++ ls). cbn [flat_map]. split; [apply Forall2_app; [apply keys_picked; auto|exact F]|].
  rewrite concat_app, E, <- flat_map_concat_map. reflexivity.
Qed.
Lemma calm_all : forall apps ls, Forall (fun a => ~ discards a) apps -> Forall2 (fun a l => picks (fst a) (snd a) l) apps ls -> collects apps (concat ls).
Proof. intros apps ls H F. exists [], apps. split; [reflexivity|]. split; [left; reflexivity|]. split; [exact H|]. exists ls. auto. Qed.
Lemma apps_split : forall sl vs, applications sl vs = flat_map (fun v => applications sl [v]) vs.
Proof. intros sl vs. induction vs as [|v vs IH]; [reflexivity|]. unfold applications in *. cbn [flat_map] in *. rewrite <- IH, app_nil_r. reflexivity. Qed.

(** the applications of a script after .. *)
Definition swept back e dots := flat_map (fun d => applications (sels back d e) [d]) dots.
Lemma swept_calm : forall back e dots, Forall (fun a => ~ discards a) (swept back e dots).
Proof.
  intros back e dots. apply Forall_forall. intros x Hx. apply in_flat_map in Hx as (d & _ & Hx).
  destruct (keys_calm back _ [d] (script_keys (worth d e))) as [K _]. rewrite Forall_forall in K. exact (K x Hx).
Qed.
Lemma script_sweeps : forall back e dots, simple e -> wf_expr e -> Forall known dots -> sweeps W root back [PExpr e] dots (unless (faults e dots) (swept back e dots)).
Proof.
  intros back e dots Hs Hw Hd. induction Hd as [|d dots Hd1 Hd IH]; [constructor|].
  pose proof (proj2 (script_args Lone W HW HS same Hsame name Hname root Hroot d back e _ Hs Hw Hd1) eq_refl) as Am. cbn [map first_some].
  destruct (fault d e) as [f|]; [apply SwError; exact Am|].
  pose proof (SwDot W root back _ d dots _ _ Am (proj2 (keys_calm back _ [d] (script_keys _))) IH) as S. destruct (faults e dots); exact S.
Qed.
Lemma script_sweeps_fun : forall back e dots r, simple e -> wf_expr e -> Forall known dots -> sweeps W root back [PExpr e] dots r -> r = unless (faults e dots) (swept back e dots).
Proof.
  intros back e dots r Hs Hw Hd H. induction H as [|d dots sl r Am Ho Hsw IH|d dots sl Am He|d dots err Am]; [reflexivity| | |];
    inversion Hd as [|? ? Hd1 Hd2]; subst; apply (script_args Lone W HW HS same Hsame name Hname root Hroot d back e _ Hs Hw Hd1) in Am; cbn [map first_some];
    destruct (fault d e) as [f|]; try discriminate Am; injection Am as ->.
  - rewrite (IH Hd2). destruct (faults e dots); reflexivity.
  - exfalso. eapply UniqueProofs.none_some; [apply (keys_calm back _ [d] (script_keys (worth d e)))|exact He].
  - reflexivity.
Qed.

Lemma fetch_select : forall o e vs, is_select o = true -> fetch_step (mkStep o [PExpr e]) vs = unless (fault VNil e) (flat_map (fun v => found (counts_back o) VNil v e) vs).
Proof. intros o e vs Ho. destruct o; try discriminate Ho; cbn; destruct (fault VNil e); reflexivity. Qed.
Lemma fetch_nest : forall o e vs, is_nest_select o = true ->
  fetch_step (mkStep o [PExpr e]) vs =
    let dots := or_null vs (flat_map containers vs) in unless (faults e dots) (flat_map (fun v => found (counts_back o) v v e) dots).
Proof. intros o e vs Ho. destruct o; try discriminate Ho; reflexivity. Qed.
Lemma select_scripted : forall o e vs, is_select o = true -> simple e -> wf_expr e -> Forall doc vs ->
  exists l, collects (applications (sels (counts_back o) VNil e) vs) l /\ l = flat_map (fun v => found (counts_back o) VNil v e) vs.
Proof.
  intros o e vs Ho Hs Hw Hd.
  destruct (keys_all_picked (counts_back o) (fun _ => script name (worth VNil e)) vs (fun _ => script_keys _) Hd) as (ls & F & E).
  exists (concat ls). split; [|exact E]. apply calm_all; [apply keys_calm, script_keys|]. rewrite apps_split. exact F.
Qed.
Lemma nest_scripted : forall o e dots, Forall doc dots -> exists l, collects (swept (counts_back o) e dots) l /\ l = flat_map (fun v => found (counts_back o) v v e) dots.
Proof.
  intros o e dots Hd.
  destruct (keys_all_picked (counts_back o) (fun v => script name (worth v e)) dots (fun _ => script_keys _) Hd) as (ls & F & E).
  exists (concat ls). split; [|exact E]. apply calm_all; [apply swept_calm|]. exact F.
Qed.

Lemma script_step : forall s e, wf_step s -> st_args s = [PExpr e] -> wf_expr e /\
  (st_op s = OpFilter \/ st_op s = OpNestFilter \/ is_select (st_op s) = true \/ is_nest_select (st_op s) = true).
Proof.
  intros s e Hs E. destruct Hs; cbn [st_args st_op] in *; try discriminate E; try (injection E as ->); try (subst l);
    repeat match goal with K : wf_member (PExpr _) |- _ => inversion K; subst; clear K | K : wf_sub (PExpr _) |- _ => inversion K; subst; clear K end;
    try (split; [assumption|cbn; auto]; fail);
    try match goal with K : Forall wf_union_elt [PExpr _] |- _ => apply Forall_inv in K; inversion K end;
    match goal with K : wf_union_elt (PExpr _) |- _ => inversion K end.
Qed.
Lemma step_fetched : forall s vs, wf_step s -> plain_step s -> Forall known vs -> step_means W root s vs (fetch_step s vs).
Proof.
  intros s vs Hs [Hp|(e & Ea & He)] Hd.
  - rewrite exprless_fetch by exact Hp. apply step_taken; try assumption. exact (known_docs Lone vs Hd).
  - destruct (script_step s e Hs Ea) as [Hw Ho]. clear Hs. destruct s as [o args]. cbn [st_op st_args] in *. subst args.
    destruct Ho as [-> |[-> |[Ho|Ho]]]; [| |rewrite (fetch_select o e vs Ho)|rewrite (fetch_nest o e vs Ho)]; cbn [SpecFetch.fetch_step st_op st_args].
    + eapply SmFilter; [reflexivity|reflexivity|apply (or_null_rounds _ offspring), children_taken|]. apply kept; auto. apply or_null_known, offspring_known, Hd.
    + eapply SmNestFilter; [reflexivity|reflexivity|apply (or_null_rounds _ containers), walks_all|]. apply kept; auto. apply or_null_known, containers_known, Hd.
    + destruct (select_scripted o e vs Ho He Hw (known_docs Lone vs Hd)) as (l & C & <-).
      pose proof (proj2 (script_args Lone W HW HS same Hsame name Hname root Hroot VNil (counts_back o) e _ He Hw (known_nil Lone)) eq_refl) as Am.
      destruct (fault VNil e) as [f|]; [apply SmError; [exact Ho|exact Am]|].
      eapply SmSelect; [exact Ho|exact Am| |exact C]. apply keys_calm, script_keys.
    + pose proof (or_null_rounds _ containers walks_all vs) as R. pose proof (or_null_known Lone vs _ (containers_known Lone vs Hd)) as Dd. cbv zeta.
      set (dots := or_null vs (flat_map containers vs)) in *. destruct (nest_scripted o e dots (known_docs Lone dots Dd)) as (l & C & <-).
      pose proof (script_sweeps (counts_back o) e dots He Hw Dd) as S.
      destruct (faults e dots) as [f|]; [eapply SmNestError; [exact Ho|exact R|exact S]|eapply SmNest; [exact Ho|exact R|exact S|exact C]].
Qed.
Lemma keeps_out : forall e dots r, keeps W root e dots r -> r <> OutOfFuel.
Proof. intros e dots r H. induction H as [|d v dots r Hm F H IH|d v dots r Hm F H IH|d err dots Hm]; try discriminate; [destruct r; try discriminate; congruence|exact IH]. Qed.
Lemma never_out : forall s vs r, step_means W root s vs r -> r <> OutOfFuel.
Proof. intros s vs r H. destruct H; try discriminate; eapply keeps_out; eassumption. Qed.
Lemma path_fetched : forall ss vs, wf_path ss -> Forall plain_step ss -> Forall known vs -> path_means W root ss vs (fetch_path W same name root ss vs).
Proof.
  intros ss. induction ss as [|s ss IH]; intros vs Hw Ha Hd; [constructor|]. inversion Hw as [|? ? Hs Hw']; subst. inversion Ha as [|? ? Hsa Ha']; subst.
  pose proof (step_fetched s vs Hs Hsa Hd) as S. cbn [fetch_path]. destruct (fetch_step s vs) as [l|f| |]; [|apply PmError; exact S|apply PmPanic; exact S|exfalso; exact (never_out _ _ _ S eq_refl)].
  eapply PmStep; [exact S|]. apply IH; auto. eapply step_closed; [exact (known_nil Lone)|exact (known_sub Lone)|exact Hd|exact S].
Qed.

(** ** Up to order *)
Lemma step_fetch_alike : forall s vs cands r, wf_step s -> plain_step s -> Forall known vs -> Permutation cands vs ->
  existsb (fun v => existsb (misses v) (st_args s)) (if SpecOnce.is_nest (st_op s) then flat_map containers vs else vs) = false ->
  step_means W root s cands r -> agree r (fetch_step s vs).
Proof.
  intros s vs cands r Hs [Hp|(e & Ea & He)] Hd P C H.
  - rewrite exprless_fetch by exact Hp. assert (A : TakeMore.alike r (take_step s vs)) by (eapply step_alike; eauto; exact (known_docs Lone vs Hd)). destruct (take_step s vs); exact A.
  - destruct (script_step s e Hs Ea) as [Hw Ho]. clear Hs. destruct s as [o args]. cbn [st_op st_args] in *. subst args.
    assert (Hd' : Forall known cands) by (eapply Permutation_Forall; [apply Permutation_sym|]; eauto).
    destruct Ho as [-> |[-> |[Ho|Ho]]]; [| |rewrite (fetch_select o e vs Ho)|rewrite (fetch_nest o e vs Ho)]; cbn [SpecFetch.fetch_step st_op st_args].
    + pose proof (or_null_rounds _ offspring children_taken vs) as R0. pose proof (or_null_known Lone vs _ (offspring_known Lone vs Hd)) as D0.
      inversion H; subst; cbn [st_op st_args] in *; try discriminate.
      match goal with A : [PExpr _] = [PExpr _] |- _ => injection A as <- end.
      match goal with A : rounds _ cands ?x |- _ => assert (Pd : Permutation x (or_null vs (flat_map offspring vs))) by (eapply rounds_perm; [exact children_perm|exact P|exact A|exact R0]) end.
      match goal with A : keeps _ _ _ _ _ |- _ => apply kept_fun in A; [subst r|exact He|exact Hw|eapply Permutation_Forall; [apply Permutation_sym; exact Pd|exact D0]] end.
      apply (unless_agree (fun d => fault d e)); [exact Pd|apply filter_perm; exact Pd].
    + pose proof (or_null_rounds _ containers walks_all vs) as R0. pose proof (or_null_known Lone vs _ (containers_known Lone vs Hd)) as D0.
      inversion H; subst; cbn [st_op st_args] in *; try discriminate.
      match goal with A : [PExpr _] = [PExpr _] |- _ => injection A as <- end.
      match goal with A : rounds _ cands ?x |- _ => assert (Pd : Permutation x (or_null vs (flat_map containers vs))) by (eapply rounds_perm; [exact walks_perm|exact P|exact A|exact R0]) end.
      match goal with A : keeps _ _ _ _ _ |- _ => apply kept_fun in A; [subst r|exact He|exact Hw|eapply Permutation_Forall; [apply Permutation_sym; exact Pd|exact D0]] end.
      apply (unless_agree (fun d => fault d e)); [exact Pd|apply filter_perm; exact Pd].
    + destruct (select_scripted o e cands Ho He Hw (known_docs Lone cands Hd')) as (l & C1 & El).
      assert (Am : forall x, args_mean W root VNil (counts_back o) [PExpr e] x -> x = unless (fault VNil e) (sels (counts_back o) VNil e)).
      { intros x Hx. apply (script_args Lone W HW HS same Hsame name Hname root Hroot VNil _ e) in Hx; [exact Hx|exact He|exact Hw|exact (known_nil Lone)]. }
      inversion H; subst; cbn [st_op st_args] in *; try (subst; discriminate Ho); try (destruct o; discriminate);
        match goal with A : args_mean _ _ _ _ _ ?x |- _ => pose proof (Am x A) as Af; destruct (fault VNil e) as [f|]; try discriminate Af; injection Af as -> end.
      * cbn [unless agree]. match goal with K : collects _ ?l' |- agree (OK ?l') _ => idtac | K : collects _ ?l' |- _ => exists l'; split; [reflexivity|];
          replace l' with (flat_map (fun v => found (counts_back o) VNil v e) cands) by (symmetry; eapply StepExact.collects_fun; [apply apps_nodes; exact (known_docs Lone cands Hd')|exact K|exact C1]) end.
        apply Permutation_flat_map. exact P.
      * exfalso. eapply UniqueProofs.none_some; [apply (keys_calm (counts_back o) _ cands (script_keys (worth VNil e)))|eassumption].
      * eexists. reflexivity.
    + pose proof (or_null_rounds _ containers walks_all vs) as R0. pose proof (or_null_known Lone vs _ (containers_known Lone vs Hd)) as D0. cbv zeta.
      set (dots0 := or_null vs (flat_map containers vs)) in *.
      assert (S : exists dots q, Permutation dots dots0 /\ sweeps W root (counts_back o) [PExpr e] dots q /\
        match q with OK apps => exists l, r = OK l /\ collects apps l | Panics => r = Panics | Fail f => r = Fail f | _ => True end).
      { inversion H; subst; cbn [st_op st_args] in *; try (subst; discriminate Ho); try (destruct o; discriminate);
          (eexists _, _; split; [eapply rounds_perm; [exact walks_perm|exact P|eassumption|exact R0]|]; split; [eassumption|]; cbn; eauto). }
      destruct S as (dots & q & Pd & Sw & Hr).
      assert (Dd : Forall known dots) by (eapply Permutation_Forall; [apply Permutation_sym|]; eauto).
      apply (script_sweeps_fun _ _ _ _ He Hw Dd) in Sw. destruct (nest_scripted o e dots (known_docs Lone dots Dd)) as (l' & C1 & E).
      assert (Er : r = unless (faults e dots) l').
      { subst q. destruct (faults e dots) as [f|]; [exact Hr|]. destruct Hr as (l & -> & K). cbn [unless]. f_equal.
        eapply StepExact.collects_fun; [|exact K|exact C1]. apply Forall_forall. intros x Hx. apply in_flat_map in Hx as (d & Hin & Hx).
        assert (N : Forall (fun a => json_node (snd a)) (applications (sels (counts_back o) d e) [d])).
        { apply apps_nodes. rewrite Forall_forall in Dd. constructor; [exact (proj1 (Dd d Hin))|constructor]. }
        rewrite Forall_forall in N. exact (N x Hx). }
      rewrite Er, E. apply (unless_agree (fun d => fault d e)); [exact Pd|apply Permutation_flat_map; exact Pd].
Qed.
Lemma path_fetch_alike : forall ss vs cands r, wf_path ss -> Forall plain_step ss -> Forall known vs -> Permutation cands vs ->
  slices_only_arrays W same name root ss vs = true -> path_means W root ss cands r -> agree r (fetch_path W same name root ss vs).
Proof.
  intros ss. induction ss as [|s ss IH]; intros vs cands r Hw Ha Hd P C H.
  - inversion H; subst. exists cands. auto.
  - inversion Hw as [|? ? Hs Hw']; subst. inversion Ha as [|? ? Hsa Ha']; subst. cbn [slices_only_arrays] in C. apply andb_prop in C as [C1 C2].
    apply negb_true_iff in C1. cbn [fetch_path].
    pose proof (step_fetched s vs Hs Hsa Hd) as T.
    inversion H as [|? ? ? x ? S Q|? ? ? err S|? ? ? S]; subst; pose proof (step_fetch_alike _ _ _ _ Hs Hsa Hd P C1 S) as A;
      destruct (fetch_step s vs) as [l0|f| |]; cbn [agree] in *; try discriminate A; try (destruct A as (l & E & A); try discriminate E); try (destruct A as (f' & E); discriminate E);
      try (eexists; reflexivity); try reflexivity.
    injection E as ->. eapply IH; eauto. eapply step_closed; [exact (known_nil Lone)|exact (known_sub Lone)|exact Hd|exact T].
Qed.

End fetching.

(** ** In order *)
Section ordering.
Variable W : world.
Hypothesis HW : orders_ok W.
Hypothesis HS : splits_ok W.
Variable same : val -> val -> bool.
Hypothesis Hsame : forall a b, (forall x, within x b -> distinct_names x) -> (same a b = true <-> loose W a b).
Variable name : val -> bytes.
Hypothesis Hname : forall v k, named W v k -> name v = k.
Variable root : val.
Hypothesis Hroot : doc root.
Notation TX := (w_text W).
Notation worth := (worth W same name root).
Notation fault := (fault W same name root).
Notation fetch_step := (fetch_step W same name root).
Notation faults e dots := (first_some (map (fun d => fault d e) dots)).
Notation keep e := (filter (fun d => truth TX (worth d e))).
Notation simple := (simple False).
Notation plain_step := (plain_step False).
Lemma simple_kids : forall o kids x, simple (EInner o kids) -> In x kids -> simple x \/ forall o' kids', x <> EInner o' kids'.
Proof.
  intros o kids x Hs Hx. destruct (op_eq_dec o OpCall) as [->|Nc].
  { destruct (simple_call False _ Hs) as (f & l & -> & _ & _ & Hl). apply (all_simple False) in Hl. rewrite Forall_forall in Hl. destruct Hx as [<-|Hx]; [right; discriminate|left; apply Hl; exact Hx]. }
  destruct (op_eq_dec o OpArray) as [->|Na].
  { destruct Hs as [_ Hs]. apply (all_simple False) in Hs. rewrite Forall_forall in Hs. left. apply Hs. exact Hx. }
  destruct kids as [|a [|b [|c kids]]]; try (destruct o; try congruence; destruct Hs; fail).
  - destruct Hx as [<-|[]]. left. destruct o; try congruence; try destruct Hs; assumption.
  - assert (K : simple a /\ (simple b \/ forall o' kids', b <> EInner o' kids')).
    { destruct o; try congruence; try (destruct Hs; fail); try (split; [apply Hs|left; apply Hs]);
        destruct b as [| | | | | | | | |ob l]; try (destruct Hs; fail); try (split; [apply Hs|right; discriminate]);
        destruct ob; try (destruct Hs; fail); (split; [apply Hs|left; apply Hs]). }
    destruct Hx as [<-|[<-|[]]]; [left; apply K|apply K].
  - exfalso. destruct o; try congruence; try (destruct Hs; fail); destruct b as [| | | | | | | | |ob l]; try (destruct Hs; fail); destruct ob; destruct Hs.
Qed.
Lemma simple_keyless : forall e, simple e -> UniqueProofs.keyless False e.
Proof.
  induction e using CoderProofs.expr_tree_ind; intros Hs args P; try (inversion P; fail).
  inversion P as [Q|? ? x Hx Px Q]; subst.
  - destruct (simple_call False _ Hs) as (f & l & E & N & _). injection E as <- _. exact (N eq_refl).
  - destruct (simple_kids o kids x Hs Hx) as [Sx|Nx].
    + rewrite Forall_forall in H. exact (H x Hx Sx args Px).
    + inversion Px; subst; eapply Nx; reflexivity.
Qed.
Lemma plain_keyless : forall s, wf_step s -> plain_step s -> plain False (st_args s).
Proof.
  intros s Hs Hp e He. split; [eapply step_plain; eauto|]. destruct Hp as [Hp|(e' & E & Hp)].
  - rewrite Forall_forall in Hp. destruct (Hp _ He).
  - rewrite E in He. destruct He as [Q|[]]. injection Q as ->. apply simple_keyless. exact Hp.
Qed.
Lemma lone_ok : forall vs, forallb is_lone vs = true -> Forall lone vs.
Proof.
  intros vs H. rewrite forallb_forall in H. apply Forall_forall. intros v Hv m ->. specialize (H _ Hv).
  destruct m as [|? [|]]; [cbn; lia|cbn; lia|discriminate H].
Qed.
Lemma in_order_ok : forall ss vs, wf_path ss -> Forall plain_step ss -> Forall doc vs -> in_order W same name root ss vs = true -> orderly W root ss vs.
Proof.
  intros ss. induction ss as [|s ss IH]; intros vs Hw Ha Hd H; [exact I|]. inversion Hw as [|? ? Hs Hw']; subst. inversion Ha as [|? ? Hsa Ha']; subst.
  cbn [in_order] in H. apply andb_prop in H as [H1 H2]. apply lone_ok in H1. split; [exact H1|]. intros l Hl.
  pose proof (step_fun_listed W root s vs _ _ Hroot Hs (plain_keyless s Hs Hsa) Hd H1 Hl (step_fetched False W HW HS same Hsame name Hname root (conj Hroot (fun f : False => match f with end)) s vs Hs Hsa (docs_known vs Hd))) as E.
  destruct (fetch_step s vs) as [l0|f| |]; try discriminate E. injection E as <-.
  apply IH; auto. eapply step_closed; [exact doc_nil|exact doc_sub|exact Hd|exact Hl].
Qed.
End ordering.

(** ** Every path that does not call keys *)
Lemma orders_some : forall e, (1 <= SpecHand.orders_expr e)%nat.
Proof. intros []; cbn; lia. Qed.
Lemma kids_orders : forall kids e, In e kids ->
  (SpecHand.orders_expr e <= (fix go l := match l with [] => 0 | k :: l' => SpecHand.orders_expr k + go l' end) kids)%nat.
Proof. intros kids e. induction kids as [|k kids IH]; intros H; [destruct H|]. destruct H as [->|H]; [lia|specialize (IH H); lia]. Qed.
Lemma length_orders : forall kids,
  (length kids <= (fix go l := match l with [] => 0 | k :: l' => SpecHand.orders_expr k + go l' end) kids)%nat.
Proof. induction kids as [|k kids IH]; [cbn; lia|]. pose proof (orders_some k). cbn [length]. lia. Qed.
Lemma simple_all : forall Lone l, Forall (simple Lone) l -> fold_right and True (map (simple Lone) l).
Proof. intros Lone l H. induction H; cbn; auto. Qed.
Lemma ordinary_simple : forall (Lone : Prop) e, wf_expr e -> Z.of_nat (SpecHand.orders_expr e) < 4194304 ->
  (forall args, part_of (EInner OpCall (EName (b_of "keys") :: args)) e -> Lone) -> simple Lone e.
Proof.
  intro Lone. induction e using CoderProofs.expr_tree_ind; intros Hw Hn Hc; try exact I. 
  assert (K : forall x, In x kids -> wf_expr x -> SpecHand.among o (SpecHand.valued_ops ++ SpecHand.bare_ops) = false -> simple Lone x).
  { intros x Hx Wx Ho. rewrite Forall_forall in H. apply (H x Hx Wx).
    - cbn [SpecHand.orders_expr] in Hn. rewrite Ho in Hn. pose proof (kids_orders kids x Hx). lia.
    - intros args P. apply (Hc args). eapply PoKid; eassumption. }
  inversion Hw; subst.
  - match goal with Q : _ \/ _ |- _ => destruct Q as [-> | ->] end; cbn [simple]; apply K; try assumption; try reflexivity; left; reflexivity.
  - destruct o; try discriminate; cbn [simple]; split; apply K; try assumption; try reflexivity; cbn; auto.
  - cbn [simple]. apply K; [left; reflexivity|assumption|reflexivity].
  - cbn [simple]. cbn [SpecHand.orders_expr] in Hn. change (SpecHand.among OpArray _) with false in Hn. cbv iota in Hn. pose proof (length_orders kids).
    split; [lia|]. apply simple_all. apply Forall_forall. intros x Hx. apply K; [exact Hx| |reflexivity].
    match goal with Q : Forall wf_expr _ |- _ => rewrite Forall_forall in Q; apply Q; exact Hx end.
  - cbn [simple]. cbn [SpecHand.orders_expr] in Hn. change (SpecHand.among OpCall _) with false in Hn. cbv iota in Hn. pose proof (length_orders l).
    split; [intros ->; exact (Hc l (PoSelf _))|]. split; [lia|].
    apply simple_all. apply Forall_forall. intros x Hx. apply K; [right; exact Hx| |reflexivity].
    match goal with Q : Forall wf_expr _ |- _ => rewrite Forall_forall in Q; apply Q; exact Hx end.
Qed.
Lemma step_orders : forall s e, wf_step s -> In (PExpr e) (st_args s) -> (SpecHand.orders_expr e <= SpecHand.orders_step s)%nat.
Proof.
  intros s e Hw He. assert (Q : SpecHand.among (st_op s) SpecHand.valued_ops = false) by (destruct Hw; reflexivity).
  unfold SpecHand.orders_step. rewrite Q. clear Q Hw.
  assert (P : (SpecHand.orders_expr e <= SpecHand.total SpecHand.orders_arg (st_args s))%nat); [|lia].
  induction (st_args s) as [|a l IH]; [destruct He|]. unfold SpecHand.total in *. cbn [fold_right]. destruct He as [->|He]; [cbn [SpecHand.orders_arg]; lia|specialize (IH He); lia].
Qed.
Lemma path_orders : forall ss s, In s ss -> (SpecHand.orders_step s <= SpecHand.orders_path ss)%nat.
Proof.
  intros ss s H. unfold SpecHand.orders_path, SpecHand.total. induction ss as [|x ss IH]; [destruct H|]. cbn [fold_right]. destruct H as [->|H]; [lia|specialize (IH H); lia].
Qed.
Lemma exprless_elts : forall l, Forall wf_union_elt l -> Forall exprless l.
Proof. intros l H. eapply Forall_impl; [|exact H]. intros a Ha. destruct Ha; exact I. Qed.
Lemma ordinary_plain : forall (Lone : Prop) TX s ss jp, accepted TX s ss jp -> fits jp -> (calls_keys ss -> Lone) -> Forall (plain_step Lone) ss.
Proof.
  intros Lone TX s ss jp Ha Hf Ho. assert (Hw : wf_path ss) by (eapply text_wf; eauto). assert (Hc : Coder.Compile ss = OK (jp_prog jp)) by (eapply text_compile; eauto).
  assert (L : length (p_orders (jp_prog jp)) = SpecHand.orders_path ss).
  { destruct (HandProofs.hand_outcome ss) as [(p & E & _ & L)|[[E _]|[E _]]]; rewrite Hc in E; try discriminate E. injection E as <-. exact L. }
  unfold fits, prog_size in Hf. rewrite L in Hf. unfold wf_path in Hw. apply Forall_forall. intros x Hx. rewrite Forall_forall in Hw. specialize (Hw x Hx).
  assert (K : forall e, st_args x = [PExpr e] -> wf_expr e -> plain_step Lone x).
  { intros e E We. right. exists e. split; [exact E|]. apply ordinary_simple; [exact We| |].
    - pose proof (path_orders ss x Hx). pose proof (step_orders x e Hw ltac:(rewrite E; left; reflexivity)). lia.
    - intros args P. apply Ho. exists args, x, e. split; [exact Hx|]. split; [rewrite E; left; reflexivity|exact P]. }
  assert (M : forall o v, x = mkStep o [v] -> wf_member v -> plain_step Lone x).
  { intros o v E Hv. destruct Hv; [left|left|]; try (rewrite E; constructor; [exact I|constructor]). eapply K; [rewrite E; reflexivity|assumption]. }
  assert (S : forall o v, x = mkStep o [v] -> wf_sub v -> plain_step Lone x).
  { intros o v E Hv. destruct Hv as [v Hv|e He]; [left; rewrite E; apply exprless_elts; constructor; [exact Hv|constructor]|]. eapply K; [rewrite E; reflexivity|assumption]. }
  destruct Hw as [|v Hv|v Hv|l _ Hl|e He| |v Hv|v Hv|l _ Hl|e He].
  - left. apply Forall_nil.
  - eapply M; [reflexivity|exact Hv].
  - eapply S; [reflexivity|exact Hv].
  - left. apply exprless_elts. exact Hl.
  - eapply K; [reflexivity|exact He].
  - left. apply Forall_nil.
  - eapply M; [reflexivity|exact Hv].
  - eapply S; [reflexivity|exact Hv].
  - left. apply exprless_elts. exact Hl.
  - eapply K; [reflexivity|exact He].
Qed.

(** deciding it *)
Fixpoint no_keys (e : expr) : bool :=
  match e with
  | EInner o kids =>
      match o, kids with
      | OpCall, EName f :: _ => if list_eq_dec Z.eq_dec f (b_of "keys") then false else true
      | _, _ => true
      end && forallb no_keys kids
  | _ => true
  end.
Lemma no_keys_ok : forall e args, no_keys e = true -> ~ part_of (EInner OpCall (EName (b_of "keys") :: args)) e.
Proof.
  intros e args H P. induction P.
  - discriminate H.
  - cbn [no_keys] in H. apply andb_prop in H as [_ H]. rewrite forallb_forall in H. apply IHP. apply H. assumption.
Qed.
Lemma keylessb_ok : forall ss, forallb (fun s => forallb (fun a => match a with PExpr e => no_keys e | _ => true end) (st_args s)) ss = true -> ~ calls_keys ss.
Proof.
  intros ss H (args & s & e & Hs & He & P). rewrite forallb_forall in H. specialize (H s Hs). rewrite forallb_forall in H. specialize (H _ He). cbn in H.
  exact (no_keys_ok _ _ H P).
Qed.

Lemma text_fetched : forall TX s ss jp W t root r same name, accepted TX s ss jp -> fits jp -> orders_ok W -> splits_ok W -> doc root ->
  (forall a b, (forall x, within x b -> distinct_names x) -> (same a b = true <-> loose W a b)) ->
  (forall v k, named W v k -> name v = k) -> lone_members root \/ ~ calls_keys ss /\ in_order W same name root ss [root] = true ->
  JP_Eval W t jp root r -> r = fetch_path W same name root ss [root].
Proof.
  intros TX s ss jp W t root r same name Ha Hf HW HS Hd Hsame Hname L H. pose proof (text_means _ _ _ _ _ _ _ _ Ha Hf HW Hd H) as Hm.
  assert (Hw : wf_path ss) by (eapply text_wf; eauto). destruct L as [L|[Ho L]].
  - pose proof (ordinary_plain True _ _ _ _ Ha Hf (fun _ => I)) as Hl. assert (D : known True root) by (split; [exact Hd|intros _; exact L]).
    assert (D' : Forall UniquePath.lone_doc [root]) by (constructor; [split; assumption|constructor]).
    eapply UniquePath.path_fun; [split; [exact Hd|exact L]|exact Hw|exact D'|exact Hm|].
    exact (path_fetched True W HW HS same Hsame name Hname root D ss [root] Hw Hl (Forall_cons _ D (Forall_nil _))).
  - assert (Hk : calls_keys ss -> False) by exact Ho. pose proof (ordinary_plain False _ _ _ _ Ha Hf Hk) as Hl.
    assert (D : Forall doc [root]) by (constructor; [exact Hd|constructor]).
    pose proof (path_fetched False W HW HS same Hsame name Hname root (conj Hd (fun f : False => match f with end)) ss [root] Hw Hl (docs_known _ D)) as P.
    assert (O : orderly W root ss [root]) by (eapply in_order_ok; eauto).
    eapply path_fun_listed; [exact Hd|exact Hw| |exact D|exact O|exact Hm|exact P].
    rewrite Forall_forall in Hl |- *. unfold wf_path in Hw. rewrite Forall_forall in Hw. intros x Hx. apply plain_keyless; auto.
Qed.
Lemma text_fetch_alike : forall TX s ss jp W t root r same name, accepted TX s ss jp -> fits jp -> orders_ok W -> splits_ok W -> doc root ->
  (forall a b, (forall x, within x b -> distinct_names x) -> (same a b = true <-> loose W a b)) ->
  (forall v k, named W v k -> name v = k) -> ~ calls_keys ss -> slices_only_arrays W same name root ss [root] = true -> JP_Eval W t jp root r ->
  agree r (fetch_path W same name root ss [root]).
Proof.
  intros TX s ss jp W t root r same name Ha Hf HW HS Hd Hsame Hname Ho C H. pose proof (ordinary_plain False _ _ _ _ Ha Hf Ho) as Hl. pose proof (text_means _ _ _ _ _ _ _ _ Ha Hf HW Hd H) as Hm.
  assert (Hw : wf_path ss) by (eapply text_wf; eauto).
  exact (path_fetch_alike False W HW HS same Hsame name Hname root (conj Hd (fun f : False => match f with end)) ss [root] [root] r Hw Hl (docs_known [root] ltac:(constructor; [exact Hd|constructor])) (Permutation_refl _) C Hm).
Qed.
Lemma mapKey_only : forall W v k, named W v k -> mapKey W v = k.
Proof.
  intros W v k H. apply (named_fun W v); [|exact H]. apply IndexProofs.mapKey_named; [intros [x ->]; inversion H|intros x ->; inversion H].
Qed.
Lemma plain_no_keys : forall ss, wf_path ss -> Forall (plain_step False) ss -> ~ calls_keys ss.
Proof.
  intros ss Hw Hp (args & s & e & Hs & He & P). unfold wf_path in Hw. rewrite Forall_forall in Hw, Hp.
  destruct (plain_keyless s (Hw s Hs) (Hp s Hs) e He) as [_ K]. exact (K args P).
Qed.
