(** Descent unfolds. *)
From Coq Require Import Permutation.
From Verif Require Import Syntax SpecSyntax Machine Coder SpecDoc SpecSelect SpecRun SpecCode SpecSem SpecText Api
  DocProofs SelectProofs WalkProofs OrderProofs SemFinal SpecLaws.
Local Open Scope Z_scope.

Lemma gathers_app : forall P a b l, gathers P (a ++ b) l -> exists x y, gathers P a x /\ gathers P b y /\ l = x ++ y.
Proof.
  intros P a b l (ls & F & ->). apply Forall2_app_inv_l in F as (x & y & Fx & Fy & ->).
  exists (concat x), (concat y). repeat split; [exists x; auto|exists y; auto|apply concat_app].
Qed.
Lemma gathers_cons : forall P v b l, gathers P (v :: b) l -> exists x y, P v x /\ gathers P b y /\ l = x ++ y.
Proof. intros P v b l (ls & F & ->). inversion F as [|? x ? y H G]; subst. exists x, (concat y). repeat split; auto. exists y; auto. Qed.
Lemma app_gathers : forall P a b x y, gathers P a x -> gathers P b y -> gathers P (a ++ b) (x ++ y).
Proof. intros P a b x y (ls & F & ->) (ls' & F' & ->). exists (ls ++ ls'). split; [apply Forall2_app; auto|symmetry; apply concat_app]. Qed.

Lemma walks_within : forall v l, walks v l -> Forall (fun x => within x v) l.
Proof.
  intro v. induction v as [|x0|x0|x0|x0|s0|s0|l0 IH|m IH|s0|s0|s0|k0] using val_tree_ind; intros r H;
    inversion H as [? ls F|? m' ls Hp F|]; subst; try discriminate; try apply Forall_nil; constructor; try constructor; apply Forall_forall; intros x Hx;
    apply in_concat in Hx as (y & Hy & Hx).
  - destruct (Forall2_in_r _ _ _ _ _ _ F Hy) as (e & He & Hw). rewrite Forall_forall in IH. specialize (IH e He y Hw). rewrite Forall_forall in IH.
    eapply WElem; eauto.
  - destruct (Forall2_in_r _ _ _ _ _ _ F Hy) as (e & He & Hw). apply in_map_iff in He as ([k e'] & E & He). cbn [snd] in E. subst e'.
    apply (Permutation_in _ (Permutation_sym Hp)) in He. rewrite Forall_forall in IH. specialize (IH (k, e) He y Hw). rewrite Forall_forall in IH.
    eapply WMember; eauto.
Qed.
Lemma gathered_docs : forall cands D, Forall doc cands -> gathers walks cands D -> Forall doc D.
Proof.
  intros cands D Hd (ls & F & ->). induction F as [|v w cands ls Hw F IH]; [constructor|]. inversion Hd as [|? ? Hv Hc]; subst.
  cbn [concat]. apply Forall_app. split; [|auto]. eapply Forall_impl; [|apply walks_within; exact Hw]. intros x Hx. eapply doc_within; eauto.
Qed.
Lemma children_docs : forall cands l, Forall doc cands -> gathers children_in_order cands l -> Forall doc l.
Proof.
  intros cands D Hd (ls & F & ->). induction F as [|v w cands ls Hw F IH]; [constructor|]. inversion Hd as [|? ? Hv Hc]; subst.
  cbn [concat]. apply Forall_app. split; [|auto]. apply Forall_forall. intros x Hx. apply (doc_within x v Hv).
  inversion Hw as [l|m m' Hp|]; subst; [eapply WElem; [exact Hx|constructor]| |destruct Hx].
  apply in_map_iff in Hx as ([k e] & <- & He). apply (Permutation_in _ (Permutation_sym Hp)) in He. eapply WMember; [exact He|constructor].
Qed.

(** the containers in a value: itself, and those in its children *)
Definition itself (v : val) : list val := if IsStructure v then [v] else [].
Lemma walks_children : forall v w c d, walks v w -> children_in_order v c -> gathers walks c d -> Permutation w (itself v ++ d).
Proof.
  intros v w c d Hw Hc (ls' & F' & ->). destruct Hw as [l ls F|m m' ls Hp F|v Hv].
  - inversion Hc; subst; [|discriminate]. cbn. apply perm_skip. apply concat_perm2. eapply F2_both; [|exact F|exact F']. intros a b b' _. apply walks_perm.
  - inversion Hc as [|? m2 Hp2|]; subst; [|discriminate]. cbn. apply perm_skip.
    assert (Hxy : Permutation (map snd m') (map snd m2)) by (apply Permutation_map; eapply Permutation_trans; [apply Permutation_sym; exact Hp|exact Hp2]).
    destruct (F2_perm _ _ _ _ _ _ Hxy F) as (ls2 & Hq & F2).
    eapply Permutation_trans; [apply concat_perm; exact Hq|]. apply concat_perm2. eapply F2_both; [|exact F2|exact F']. intros a b b' _. apply walks_perm.
  - inversion Hc; subst; try discriminate Hv. inversion F'; subst. unfold itself. rewrite Hv. apply Permutation_refl.
Qed.
Lemma walks_unfold : forall cands D kids D2, gathers walks cands D -> gathers children_in_order cands kids -> gathers walks kids D2 ->
  Permutation D (flat_map itself cands ++ D2).
Proof.
  induction cands as [|v cands IH]; intros D kids D2 H Hk H2.
  - destruct H as (ls & F & ->). inversion F; subst. destruct Hk as (ls & F' & ->). inversion F'; subst. destruct H2 as (ls & F2 & ->). inversion F2; subst. constructor.
  - apply gathers_cons in H as (w & D' & Hw & H & ->). apply gathers_cons in Hk as (c & kids' & Hc & Hk & ->).
    apply gathers_app in H2 as (d & D2' & Hd & H2 & ->). cbn [flat_map]. rewrite <- app_assoc.
    eapply Permutation_trans; [apply Permutation_app; [eapply walks_children; eauto|eapply IH; eauto]|].
    rewrite <- app_assoc. apply Permutation_app_head. rewrite !app_assoc. apply Permutation_app_tail. apply Permutation_app_comm.
Qed.

(** what picks nothing from scalars, and the same values up to order *)
Definition fair (P : val -> list val -> Prop) : Prop :=
  (forall v l, IsStructure v = false -> P v l -> l = []) /\ forall v l l', doc v -> P v l -> P v l' -> Permutation l l'.

Lemma fair_itself : forall P cands l, fair P -> gathers P cands l -> gathers P (flat_map itself cands) l.
Proof.
  intros P cands l [H _] (ls & F & ->). induction F as [|v x cands ls Hx F IH]; [exists []; split; [constructor|reflexivity]|].
  cbn [flat_map concat]. apply app_gathers; [|exact IH]. unfold itself. destruct (IsStructure v) eqn:E.
  - exists [x]. split; [repeat constructor; exact Hx|symmetry; apply app_nil_r].
  - rewrite (H v x E Hx). exists []. split; [constructor|reflexivity].
Qed.
Lemma fair_rounds : forall P cands D l, fair P -> rounds walks cands D -> gathers P D l -> exists D', gathers walks cands D' /\ gathers P D' l.
Proof.
  intros P cands D l [H _] R G. inversion R as [|? N W|? ? N W]; subst.
  - exists []. split; [exists []; split; [constructor|reflexivity]|exact G].
  - exists []. split; [exact W|]. destruct G as (ls & F & ->). inversion F as [|? x ? y Hx Fy]; subst. inversion Fy; subst.
    rewrite (H VNil x eq_refl Hx). exists []. split; [constructor|reflexivity].
  - exists D. auto.
Qed.
Lemma fair_perm : forall P a b l l', fair P -> Forall doc a -> Permutation a b -> gathers P a l -> gathers P b l' -> Permutation l l'.
Proof.
  intros P a b l l' [_ H] Hd Hp (ls & F & ->) (ls' & F' & ->). destruct (F2_perm _ _ _ _ _ _ Hp F) as (ls2 & Hq & F2).
  assert (Hb : Forall doc b) by (eapply Permutation_Forall; eauto). rewrite Forall_forall in Hb.
  eapply Permutation_trans; [apply concat_perm; exact Hq|]. apply concat_perm2. eapply F2_both; [|exact F2|exact F'].
  intros v x y Hv. apply H. apply Hb. exact Hv.
Qed.
Lemma unfolds : forall P cands D l l1 kids D2 l2, fair P -> Forall doc cands -> rounds walks cands D -> gathers P D l -> gathers P cands l1 ->
  gathers children_in_order cands kids -> rounds walks kids D2 -> gathers P D2 l2 -> Permutation l (l1 ++ l2).
Proof.
  intros P cands D l l1 kids D2 l2 HP Hd R G G1 K R2 G2.
  destruct (fair_rounds P _ _ _ HP R G) as (D' & HD & HG). destruct (fair_rounds P _ _ _ HP R2 G2) as (D2' & HD2 & HG2).
  eapply fair_perm; [exact HP|eapply gathered_docs; eauto|eapply walks_unfold; eauto|exact HG|].
  apply app_gathers; [apply fair_itself; assumption|exact HG2].
Qed.

(** the selector of a literal *)
Definition sel_of (back : bool) (a : pval) : sel := match a with PInt n => SIndex back n | PName k | PStr k => SName k | _ => SName [] end.
Lemma literal_args : forall W root dot back args sels, Forall literal_key args -> args_mean W root dot back args (OK sels) -> sels = map (sel_of back) args.
Proof.
  intros W root dot back args sels Hl H. inversion H as [? os F|]; subst. clear H. induction F as [|a o args os Ha F IH]; [reflexivity|].
  inversion Hl as [|? ? H1 H2]; subst. cbn [flat_map map]. rewrite IH by exact H2. inversion Ha; subst; try reflexivity; destruct H1.
Qed.
Lemma literal_fail : forall W root dot back args err, Forall literal_key args -> ~ args_mean W root dot back args (Fail err).
Proof.
  intros W root dot back args err Hl H. inversion H as [|pre a post os ? F Ha]; subst. apply Forall_app in Hl as [_ Hl]. apply Forall_inv in Hl.
  inversion Ha; subst. exact Hl.
Qed.
Definition unsliced_sels (sels : list sel) : Prop := Forall (fun s => is_slice s = false) sels.
Lemma literal_unsliced : forall back args, Forall literal_key args -> unsliced_sels (map (sel_of back) args).
Proof. intros back args H. apply Forall_forall. intros s Hs. apply in_map_iff in Hs as (a & <- & Ha). rewrite Forall_forall in H. specialize (H a Ha). destruct a; try destruct H; reflexivity. Qed.
Lemma no_overflow : forall sels dots, unsliced_sels sels -> ~ Exists app_overflows (applications sels dots).
Proof.
  intros sels dots H E. apply Exists_exists in E as ([s v] & Hi & Ho). apply in_flat_map in Hi as (d & _ & Hi). apply in_map_iff in Hi as (s' & [= -> ->] & Hs).
  unfold unsliced_sels in H. rewrite Forall_forall in H. specialize (H s Hs). destruct s; [exact Ho|exact Ho|discriminate].
Qed.
Lemma collects_gathers : forall sels dots l, unsliced_sels sels -> collects (applications sels dots) l -> gathers (picks_all sels) dots l.
Proof.
  intros sels dots l Hu H. apply unsliced_collects in H as (ls & F & ->).
  2:{ apply Forall_forall. intros [s v] Hi. apply in_flat_map in Hi as (d & _ & Hi). apply in_map_iff in Hi as (s' & [= -> ->] & Hs).
      unfold unsliced_sels in Hu. rewrite Forall_forall in Hu. exact (Hu s Hs). }
  revert ls F. induction dots as [|d dots IH]; intros ls F.
  - inversion F; subst. exists []. split; [constructor|reflexivity].
  - change (applications sels (d :: dots)) with (map (fun s => (s, d)) sels ++ applications sels dots) in F.
    apply Forall2_app_inv_l in F as (x & y & Fx & Fy & ->). rewrite concat_app.
    change (d :: dots) with ([d] ++ dots). apply app_gathers; [|apply IH; exact Fy]. exists [concat x]. split; [|symmetry; apply app_nil_r].
    constructor; [|constructor]. exists x. split; [|reflexivity]. clear - Fx. revert x Fx. induction sels as [|s sels IH]; intros x Fx; inversion Fx; subst; constructor; auto.
Qed.
Lemma picks_fair : forall sels, unsliced_sels sels -> fair (picks_all sels).
Proof.
  intros sels Hu. split.
  - intros v l Hv (ls & F & ->). induction F as [|s l sels ls Hs F IH]; [reflexivity|]. inversion Hu; subst. cbn [concat]. rewrite IH by assumption. rewrite app_nil_r.
    assert (N : forall k l, picks_name k v l -> l = []). { intros k l0 H0. destruct H0; try reflexivity; discriminate Hv. }
    inversion Hs; subst; eauto; discriminate Hv.
  - intros v l l' Hd (ls & F & ->) (ls' & F' & ->). apply concat_perm2. eapply F2_both; [|exact F|exact F'].
    intros s x y _ Hx Hy. rewrite (picks_fun s v x y); [apply Permutation_refl|apply Hd; constructor|assumption..].
Qed.
Lemma children_fair : fair children_in_order.
Proof. split; [|intros v l l' _; apply children_perm]. intros v l Hv H. destruct H; try discriminate Hv. reflexivity. Qed.

Lemma literal_sweeps : forall W root back args dots r, Forall literal_key args -> sweeps W root back args dots r -> r = OK (applications (map (sel_of back) args) dots).
Proof.
  intros W root back args dots r Hl H. induction H as [|d dots sels r Ha Ho Hs IH|d dots sels Ha He|d dots err Ha].
  - reflexivity.
  - rewrite IH. cbn [obind]. rewrite (literal_args _ _ _ _ _ _ Hl Ha). cbn. rewrite app_nil_r. reflexivity.
  - rewrite (literal_args _ _ _ _ _ _ Hl Ha) in He. destruct (no_overflow _ _ (literal_unsliced back args Hl) He).
  - destruct (literal_fail _ _ _ _ _ _ Hl Ha).
Qed.

(** one relation for the four pairs of steps *)
Definition picked (o : op) (args : list pval) : val -> list val -> Prop :=
  if op_num o =? op_num OpWild then children_in_order else picks_all (map (sel_of (counts_back o)) args).
Lemma picked_fair : forall o no args, nested o no -> Forall literal_key args -> fair (picked o args).
Proof. intros o no args N H. destruct N; try (apply picks_fair; apply literal_unsliced; exact H). apply children_fair. Qed.
Lemma plain_step : forall W root o no args cands r, nested o no -> Forall literal_key args -> step_means W root (mkStep o args) cands r ->
  exists l, r = OK l /\ gathers (picked o args) cands l.
Proof.
  intros W root o no args cands r N Hl H. inversion H; destruct N; cbn [st_op st_args is_select is_nest_select counts_back] in *; try discriminate;
    try (exfalso; eapply literal_fail; eauto; fail);
    try (match goal with A : args_mean _ _ _ _ _ (OK _) |- _ => apply literal_args in A; [subst|exact Hl] end);
    try (exfalso; eapply no_overflow; [|eassumption]; apply literal_unsliced; exact Hl); eexists; (split; [reflexivity|]);
    try assumption; apply collects_gathers; auto; apply literal_unsliced; exact Hl.
Qed.
Lemma nest_step : forall W root o no args cands r, nested o no -> Forall literal_key args -> step_means W root (mkStep no args) cands r ->
  exists D l, r = OK l /\ rounds walks cands D /\ gathers (picked o args) D l.
Proof.
  intros W root o no args cands r N Hl H. inversion H; destruct N; cbn [st_op st_args is_select is_nest_select counts_back] in *; try discriminate;
    try (match goal with A : sweeps _ _ _ _ _ _ |- _ => apply literal_sweeps in A; [|exact Hl]; try discriminate A; injection A as -> end);
    eexists _, _; (split; [reflexivity|]); (split; [eassumption|]); try assumption; apply collects_gathers; auto; apply literal_unsliced; exact Hl.
Qed.

Lemma unfold_means : forall W W1 W2 root root1 root2 o no args cands r r1 r2, nested o no -> Forall literal_key args -> Forall doc cands ->
  path_means W root [mkStep no args] cands r -> path_means W1 root1 [mkStep o args] cands r1 -> path_means W2 root2 [mkStep OpWild []; mkStep no args] cands r2 ->
  exists l l1 l2, r = OK l /\ r1 = OK l1 /\ r2 = OK l2 /\ Permutation l (l1 ++ l2).
Proof.
  intros W W1 W2 root root1 root2 o no args cands r r1 r2 N Hl Hd H H1 H2.
  inversion H as [|? ? ? x ? S P|? ? ? err S|? ? ? S]; subst; apply (nest_step _ _ _ _ _ _ _ N Hl) in S as (D & l & E & R & G); try discriminate E. injection E as ->.
  inversion P; subst. clear P H.
  inversion H1 as [|? ? ? x ? S P|? ? ? err S|? ? ? S]; subst; apply (plain_step _ _ _ _ _ _ _ N Hl) in S as (l1 & E & G1); try discriminate E. injection E as ->.
  inversion P; subst. clear P H1.
  inversion H2 as [|? ? ? x ? S P|? ? ? err S|? ? ? S]; subst; apply (plain_step _ _ _ _ _ _ _ NsWild (Forall_nil _)) in S as (kids & E & K); try discriminate E. injection E as ->.
  inversion P as [|? ? ? x ? S Q|? ? ? err S|? ? ? S]; subst; apply (nest_step _ _ _ _ _ _ _ N Hl) in S as (D2 & l2 & E & R2 & G2); try discriminate E. injection E as ->.
  inversion Q; subst. exists l, l1, l2. repeat split; auto. eapply unfolds; eauto. apply picked_fair with (no := no); assumption.
Qed.

Lemma eval_unfold : forall TX o no args s jp s1 jp1 s2 jp2 W W1 W2 t t1 t2 root r r1 r2, nested o no -> Forall literal_key args ->
  accepted TX s [mkStep no args] jp -> accepted TX s1 [mkStep o args] jp1 -> accepted TX s2 [mkStep OpWild []; mkStep no args] jp2 ->
  fits jp -> fits jp1 -> fits jp2 -> orders_ok W -> orders_ok W1 -> orders_ok W2 -> doc root ->
  JP_Eval W t jp root r -> JP_Eval W1 t1 jp1 root r1 -> JP_Eval W2 t2 jp2 root r2 ->
  exists l l1 l2, r = OK l /\ r1 = OK l1 /\ r2 = OK l2 /\ Permutation l (l1 ++ l2).
Proof.
  intros TX o no args s jp s1 jp1 s2 jp2 W W1 W2 t t1 t2 root r r1 r2 N Hl A A1 A2 F F1 F2 O O1 O2 Hd E E1 E2.
  apply (unfold_means W W1 W2 root root root o no args [root]); auto.
  - exact (text_means TX s _ jp W t root r A F O Hd E).
  - exact (text_means TX s1 _ jp1 W1 t1 root r1 A1 F1 O1 Hd E1).
  - exact (text_means TX s2 _ jp2 W2 t2 root r2 A2 F2 O2 Hd E2).
Qed.
Lemma steps_unfold : forall W W1 W2 t t1 t2 root root1 root2 o no args cands r r1 r2, nested o no -> Forall literal_key args ->
  small [mkStep no args] -> small [mkStep o args] -> small [mkStep OpWild []; mkStep no args] -> wf_step (mkStep no args) -> wf_step (mkStep o args) ->
  orders_ok W -> orders_ok W1 -> orders_ok W2 -> doc root -> doc root1 -> doc root2 -> Forall doc cands ->
  runs W root t cands [mkStep no args] r -> runs W1 root1 t1 cands [mkStep o args] r1 -> runs W2 root2 t2 cands [mkStep OpWild []; mkStep no args] r2 ->
  exists l l1 l2 u u1 u2, r = OK (l, u) /\ r1 = OK (l1, u1) /\ r2 = OK (l2, u2) /\ Permutation l (l1 ++ l2).
Proof.
  intros W W1 W2 t t1 t2 root root1 root2 o no args cands r r1 r2 N Hl S S1 S2 Hn Ho O O1 O2 D D1 D2 Hd E E1 E2.
  apply runs_means in E; [|try assumption; repeat constructor; auto..]. apply runs_means in E1; [|try assumption; repeat constructor; auto..].
  apply runs_means in E2; [|try assumption; repeat constructor; auto..].
  destruct (unfold_means _ _ _ _ _ _ _ _ _ _ _ _ _ N Hl Hd E E1 E2) as (l & l1 & l2 & R & R1 & R2 & P).
  destruct r as [[a u]| | |], r1 as [[a1 u1]| | |], r2 as [[a2 u2]| | |]; try discriminate. injection R as ->. injection R1 as ->. injection R2 as ->.
  exists l, l1, l2, u, u1, u2. auto.
Qed.
