(** Single steps with literal selectors, in the form the properties state them. *)
From Coq Require Import Permutation.
From Verif Require Import Syntax SpecSyntax Value Machine Coder Eval SpecDoc DocProofs SpecSelect SpecRun SpecCode
  SelectProofs SliceProofs RunProofs WalkProofs StepExact.
Local Open Scope Z_scope.

Lemma Forall2_impl : forall A B (R S : A -> B -> Prop) l l', (forall a b, R a b -> S a b) ->
  Forall2 R l l' -> Forall2 S l l'.
Proof. intros A B R S l l' H H1. induction H1; constructor; auto. Qed.

Lemma applied_gathers : forall sels cands ls,
  Forall2 (fun a l => picks (fst a) (snd a) l) (applications sels cands) ls ->
  gathers (picks_all sels) cands (concat ls).
Proof.
  intros sels. induction cands as [|v cands IH]; intros ls H; cbn in H.
  - inversion H; subst. exists []. split; [constructor|reflexivity].
  - apply Forall2_app_inv_l in H as (l1 & l2 & H1 & H2 & ->). rewrite concat_app.
    apply gathers_cons; auto. exists l1. split; [|reflexivity].
    clear -H1. revert l1 H1. induction sels as [|s sels IH]; intros l1 H; inversion H; subst; constructor; auto.
Qed.

Lemma gathers_applied : forall sels cands l, gathers (picks_all sels) cands l ->
  exists ls, Forall2 (fun a l => picks (fst a) (snd a) l) (applications sels cands) ls /\ l = concat ls.
Proof.
  intros sels cands l (ls & H & ->). induction H as [|v l cands ls Hv H IH].
  - exists []. split; [constructor|reflexivity].
  - destruct IH as (ls' & H' & E'). destruct Hv as (l1 & H1 & ->). exists (l1 ++ ls'). split.
    + cbn. apply Forall2_app; auto. clear -H1. induction H1; constructor; auto.
    + rewrite concat_app. cbn. rewrite E'. reflexivity.
Qed.

Lemma collects_gathers : forall sels cands l, Forall (fun a => ~ discards a) (applications sels cands) ->
  (collects (applications sels cands) l <-> gathers (picks_all sels) cands l).
Proof.
  intros sels cands l Hd. split.
  - intros (before & after & E & Hb & Ha & ls & Hls & ->).
    assert (before = []) as ->.
    { destruct Hb as [Hb|(b & a & -> & Hx)]; auto. exfalso. rewrite E in Hd.
      rewrite <- app_assoc in Hd. apply Forall_app in Hd as [_ Hd]. inversion Hd; subst. auto. }
    cbn in E. subst after. apply applied_gathers. exact Hls.
  - intro H. apply gathers_applied in H as (ls & H & ->). exists [], (applications sels cands).
    split; [reflexivity|]. split; [left; reflexivity|]. split; [exact Hd|]. exists ls. auto.
Qed.

Lemma gathers_impl : forall (p q : val -> list val -> Prop) cands l, (forall v l, p v l -> q v l) ->
  gathers p cands l -> gathers q cands l.
Proof.
  intros p q cands l H (ls & H1 & ->). exists ls. split; [|reflexivity].
  eapply Forall2_impl; [|exact H1]. auto.
Qed.

Lemma picks_one : forall s v l, picks_all [s] v l <-> picks s v l.
Proof.
  intros s v l. split.
  - intros (ls & H & ->). inversion H as [|? x ? ? H1 H2]; subst. inversion H2; subst. cbn.
    rewrite app_nil_r. exact H1.
  - intro H. exists [l]. split; [constructor; [exact H|constructor]|]. cbn. rewrite app_nil_r. reflexivity.
Qed.

Lemma gathers_one : forall s cands l, gathers (picks_all [s]) cands l <-> gathers (picks s) cands l.
Proof. intros s cands l. split; apply gathers_impl; intros v x; apply picks_one. Qed.

Lemma picks_name_sel : forall k v l, picks (SName k) v l <-> picks_name k v l.
Proof. intros k v l. split; [inversion 1; auto|apply PkName]. Qed.

Lemma applications_of : forall (P : sel * val -> Prop) sels cands,
  (forall s v, In s sels -> In v cands -> P (s, v)) -> Forall P (applications sels cands).
Proof.
  intros P sels cands H. apply Forall_forall. intros [s v] Hin. unfold applications in Hin.
  apply in_flat_map in Hin as (v' & Hv & Hin). apply in_map_iff in Hin as (s' & E & Hs).
  injection E as -> ->. auto.
Qed.

Lemma no_slices : forall sels cands, Forall (fun s => is_slice s = false) sels ->
  Forall (fun a => ~ discards a) (applications sels cands) /\
  Forall (fun a => ~ app_overflows a) (applications sels cands).
Proof.
  intros sels cands H. rewrite Forall_forall in H.
  split; apply applications_of; intros s v Hs _; apply H in Hs; destruct s; cbn in *; auto; discriminate.
Qed.

Lemma none_some : forall A (P : A -> Prop) l, Forall (fun a => ~ P a) l -> ~ Exists P l.
Proof. intros A P l H He. apply Forall_Exists_neg in H. auto. Qed.

(** one selector that is not a slice *)
Lemma one_exact : forall W root t cands s sl r, orders_ok W -> doc root -> Forall doc cands ->
  wf_step s -> small [s] -> is_select (st_op s) = true -> is_slice sl = false ->
  Forall2 (selector (counts_back (st_op s))) (st_args s) [sl] ->
  (runs W root t cands [s] r <-> exists l, r = OK (l, t) /\ gathers (picks sl) cands l).
Proof.
  intros W root t cands s sl r HW Hr Hc Hwf Hs Hsel Hsl Hsels.
  rewrite (select_exact W root t cands s [sl] r) by auto.
  destruct (no_slices [sl] cands) as [Hd Ho]; [constructor; auto|]. split.
  - intros [(l & -> & H & _)|[_ H]].
    + exists l. split; [reflexivity|]. apply gathers_one. apply collects_gathers; auto.
    + exfalso. revert H. apply none_some. exact Ho.
  - intros (l & -> & H). left. exists l. split; [reflexivity|]. split; [|exact Ho].
    apply collects_gathers; auto. apply gathers_one. exact H.
Qed.

Ltac step1 := match goal with |- small _ => vm_compute; reflexivity | _ => idtac end.

Lemma small1 : forall o a, is_select o = true -> literal a = true -> small [mkStep o [a]].
Proof. intros o a Ho Ha. destruct o; try discriminate Ho; destruct a; try discriminate Ha; reflexivity. Qed.

Lemma member_exact : forall W root t cands k s r, orders_ok W -> doc root -> Forall doc cands ->
  In s [mkStep OpMember [PName k]; mkStep OpSelect [PName k]; mkStep OpSelect [PStr k]] ->
  (runs W root t cands [s] r <-> exists l, r = OK (l, t) /\ gathers (picks_name k) cands l).
Proof.
  intros W root t cands k s r HW Hr Hc Hs.
  assert (H : runs W root t cands [s] r <-> exists l, r = OK (l, t) /\ gathers (picks (SName k)) cands l).
  { destruct Hs as [<-|[<-|[<-|[]]]]; apply one_exact; auto; try reflexivity; repeat constructor. }
  rewrite H. split; intros (l & -> & Hl); exists l; split; auto; revert Hl; apply gathers_impl;
    intros; apply picks_name_sel; auto.
Qed.

Lemma index_exact : forall W root t cands n r, orders_ok W -> doc root -> Forall doc cands -> in_int64 n ->
  (runs W root t cands [mkStep OpSelect [PInt n]] r <->
     exists l, r = OK (l, t) /\ gathers (picks (SIndex true n)) cands l) /\
  (runs W root t cands [mkStep OpMember [PInt n]] r <->
     exists l, r = OK (l, t) /\ gathers (picks (SIndex false n)) cands l).
Proof.
  intros W root t cands n r HW Hr Hc Hn.
  split; apply one_exact; auto; try reflexivity; try (repeat constructor; apply Hn).
Qed.

Lemma slice_exact : forall W root t cands sl a b c r, orders_ok W -> doc root -> Forall doc cands -> wf_slice sl ->
  bound_is (sl_start sl) a -> bound_is (sl_end sl) b -> bound_is (sl_stride sl) c ->
  Forall (fun v => IsArray v = true) cands ->
  (runs W root t cands [mkStep OpSelect [PSlice sl]] r <->
    (exists l, r = OK (l, t) /\ gathers (picks (SSlice a b c)) cands l /\
       forall l', In (VArr l') cands -> ~ overflowing (Z.of_nat (length l')) a b c) \/
    (r = Panics /\ exists l', In (VArr l') cands /\ overflowing (Z.of_nat (length l')) a b c)).
Proof.
  intros W root t cands sl a b c r HW Hr Hc Hwf Ha Hb Hs Harr.
  rewrite (select_exact W root t cands _ [SSlice a b c] r); auto; try reflexivity;
    [|repeat constructor; apply Hwf|repeat constructor; auto].
  assert (Hd : Forall (fun a => ~ discards a) (applications [SSlice a b c] cands)).
  { apply applications_of. intros s v [<-|[]] Hv. rewrite Forall_forall in Harr. apply Harr in Hv.
    unfold discards; cbn. congruence. }
  assert (Hno : Forall (fun a => ~ app_overflows a) (applications [SSlice a b c] cands) <->
    forall l', In (VArr l') cands -> ~ overflowing (Z.of_nat (length l')) a b c).
  { split.
    - intros H l' Hl'. rewrite Forall_forall in H. apply (H (SSlice a b c, VArr l')).
      apply in_flat_map. exists (VArr l'). split; [exact Hl'|left; reflexivity].
    - intro H. apply applications_of. intros s v [<-|[]] Hv. destruct v; cbn; auto. }
  assert (Hex : Exists app_overflows (applications [SSlice a b c] cands) <->
    exists l', In (VArr l') cands /\ overflowing (Z.of_nat (length l')) a b c).
  { split.
    - intro H. apply Exists_exists in H as ([s v] & Hin & Ho). apply in_flat_map in Hin as (v' & Hv & Hin).
      destruct Hin as [E|[]]. injection E as <- ->. destruct v; cbn in Ho; try contradiction. eauto.
    - intros (l' & Hl' & Ho). apply Exists_exists. exists (SSlice a b c, VArr l'). split; [|exact Ho].
      apply in_flat_map. exists (VArr l'). split; [exact Hl'|left; reflexivity]. }
  rewrite Hex. split; (intros [(l & -> & H1 & H2)|H]; [left; exists l; split; [reflexivity|]|right; exact H]).
  - split; [apply gathers_one; apply collects_gathers; auto|apply Hno; exact H2].
  - split; [apply collects_gathers; auto; apply gathers_one; exact H1|apply Hno; exact H2].
Qed.

(** ** Candidates one by one *)

Lemma applications_app : forall sels c1 c2,
  applications sels (c1 ++ c2) = applications sels c1 ++ applications sels c2.
Proof. intros. unfold applications. rewrite flat_map_app. reflexivity. Qed.

Lemma forall_neg_exists : forall (A : Type) (P : A -> Prop) l, Forall (fun a => ~ P a) l -> Exists P l -> False.
Proof. intros A P l H He. apply Forall_Exists_neg in H. auto. Qed.

Lemma select_one_by_one : forall W root t cands s sels l t', orders_ok W -> doc root -> Forall doc cands ->
  wf_step s -> small [s] -> is_select (st_op s) = true ->
  Forall2 (selector (counts_back (st_op s))) (st_args s) sels ->
  Forall (fun a => ~ discards a) (applications sels cands) ->
  (runs W root t cands [s] (OK (l, t')) <-> one_by_one W root s t cands l t').
Proof.
  intros W root t cands s sels l t' HW Hr Hc Hwf Hs Hsel Hsels Hd.
  rewrite (select_exact W root t cands s sels) by auto.
  transitivity (t' = t /\ gathers (picks_all sels) cands l /\
    Forall (fun a => ~ app_overflows a) (applications sels cands)).
  { split.
    - intros [(l0 & E & H1 & H2)|[E _]]; [|discriminate]. injection E as -> ->.
      split; [reflexivity|]. split; [apply collects_gathers; auto|exact H2].
    - intros (-> & H1 & H2). left. exists l. split; [reflexivity|]. split; [apply collects_gathers; auto|exact H2]. }
  revert l. induction cands as [|v cands IH]; intro l.
  - split.
    + intros (-> & (ls & H & ->) & _). inversion H; subst. constructor.
    + intro H. inversion H; subst. split; [reflexivity|]. split; [apply gathers_nil|constructor].
  - assert (E0 : applications sels (v :: cands) = applications sels [v] ++ applications sels cands)
      by (apply (applications_app sels [v] cands)).
    rewrite E0 in Hd |- *. apply Forall_app in Hd as [Hd1 Hd2]. inversion Hc; subst.
    assert (Hone : forall l t1, runs W root t [v] [s] (OK (l, t1)) <-> t1 = t /\ picks_all sels v l /\
        Forall (fun a => ~ app_overflows a) (applications sels [v])).
    { intros l0 t1. rewrite (select_exact W root t [v] s sels) by auto. split.
      - intros [(l1 & E & H3 & H4)|[E _]]; [|discriminate]. injection E as -> ->. split; [reflexivity|].
        split; [|exact H4]. apply collects_gathers in H3; auto. destruct H3 as (ls & H5 & ->).
        inversion H5 as [|? x ? ? H6 H7]; subst. inversion H7; subst. cbn. rewrite app_nil_r. exact H6.
      - intros (-> & H3 & H4). left. exists l0. split; [reflexivity|]. split; [|exact H4].
        apply collects_gathers; auto. rewrite <- (app_nil_r l0). apply gathers_cons; [exact H3|apply gathers_nil]. }
    split.
    + intros (-> & (ls & H3 & ->) & H4). apply Forall_app in H4 as [H4 H5].
      inversion H3 as [|? x ? ls' H6 H7]; subst. cbn. apply ObCons with t; [apply Hone; auto|].
      apply IH; auto. split; [reflexivity|]. split; [|exact H5]. exists ls'. auto.
    + intro H. inversion H as [|? ? l1 t1 ? r ? H3 H4]; subst. apply Hone in H3 as (-> & H5 & H6).
      apply IH in H4 as (-> & H7 & H8); auto. split; [reflexivity|]. split; [apply gathers_cons; auto|].
      apply Forall_app. auto.
Qed.

(** the values of a wildcard *)
Definition wilds1 (W : world) (t : nat) (v : val) : list val * nat :=
  match v with
  | VArr l => (l, t)
  | VObj m => (map snd (reorder (w_perm W t (length m)) m), S t)
  | _ => ([], t)
  end.
Fixpoint wilds (W : world) (t : nat) (cands : list val) : list val * nat :=
  match cands with
  | [] => ([], t)
  | v :: r => let (l, t1) := wilds1 W t v in let (l', t2) := wilds W t1 r in (l ++ l', t2)
  end.

Lemma wild_loop : forall W cands t acc,
  exists g, applySelection_loop (fun t v acc => @OK rerr _ (valsWild W t acc v)) t cands acc =
    OK (g, snd (wilds W t cands)) /\ g_list g = g_list acc ++ fst (wilds W t cands).
Proof.
  intros W. induction cands as [|v c IH]; intros t acc; cbn [applySelection_loop wilds].
  - exists acc. rewrite app_nil_r. auto.
  - assert (E : exists g, valsWild W t acc v = (g, snd (wilds1 W t v)) /\
       g_list g = g_list acc ++ fst (wilds1 W t v)).
    { unfold valsWild, wilds1. destruct v; cbn [fst snd]; eexists; (split; [reflexivity|]);
        rewrite ?g_appends_list, ?app_nil_r; reflexivity. }
    destruct E as (g & -> & Eg). destruct (wilds1 W t v) as [l t1]. cbn [obind fst snd] in *.
    destruct (IH t1 g) as (g' & -> & Eg'). destruct (wilds W t1 c) as [l' t2]. cbn [fst snd] in *.
    exists g'. split; [reflexivity|]. rewrite Eg', Eg, app_assoc. reflexivity.
Qed.

Lemma wild_runs : forall W root t cands r, orders_ok W -> doc root -> Forall doc cands ->
  (runs W root t cands [mkStep OpWild []] r <-> r = OK (wilds W t cands)).
Proof.
  intros W root t cands r HW Hr Hc.
  rewrite runs_exact by (auto; repeat constructor). rewrite ev_sel_one.
  unfold ev_step, applySelection. cbn [st_op st_args ev_args obind g_list].
  destruct (wild_loop W cands t (Some [])) as (g & -> & Eg). cbn [obind]. rewrite Eg.
  destruct (wilds W t cands). reflexivity.
Qed.

Lemma wild_one_by_one : forall W root cands, orders_ok W -> doc root -> Forall doc cands ->
  forall t l t', runs W root t cands [mkStep OpWild []] (OK (l, t')) <->
    one_by_one W root (mkStep OpWild []) t cands l t'.
Proof.
  intros W root cands HW Hr Hc. induction Hc as [|v cands Hv Hc IH]; intros t l t'; rewrite wild_runs by auto.
  - cbn. split.
    + intro H. injection H as -> ->. constructor.
    + intro H. inversion H. reflexivity.
  - cbn [wilds]. assert (H1 : forall l t1, runs W root t [v] [mkStep OpWild []] (OK (l, t1)) <-> (l, t1) = wilds1 W t v).
    { intros l1 t1. rewrite wild_runs by auto. cbn [wilds]. destruct (wilds1 W t v) as [l0 t0].
      rewrite app_nil_r. split; intro H; injection H as -> ->; reflexivity. }
    split.
    + intro H. destruct (wilds1 W t v) as [l1 t1] eqn:E1. destruct (wilds W t1 cands) as [l2 t2] eqn:E2.
      injection H as -> ->. apply ObCons with t1; [apply H1; auto|]. apply IH. apply wild_runs; auto.
      rewrite E2. reflexivity.
    + intro H. inversion H as [|? ? l1 t1 ? r2 ? H2 H3]; subst. apply H1 in H2. rewrite <- H2.
      apply IH in H3. apply wild_runs in H3; auto. injection H3 as H3. rewrite <- H3. reflexivity.
Qed.

(** ** Walks visit each container once *)

Lemma nth_error_lt : forall A (l : list A) i x, nth_error l i = Some x -> (i < length l)%nat.
Proof. intros A l i x H. apply nth_error_Some. congruence. Qed.

Lemma first_app : forall A (p q : list A) a b, comes_first p a b -> comes_first q a b ->
  ~ (In b p /\ In a q) -> comes_first (p ++ q) a b.
Proof.
  intros A p q a b Hp Hq Hn i j Hi Hj.
  destruct (Nat.lt_ge_cases i (length p)) as [Li|Li]; destruct (Nat.lt_ge_cases j (length p)) as [Lj|Lj].
  - rewrite nth_error_app1 in Hi, Hj by lia. auto.
  - lia.
  - exfalso. apply Hn. rewrite nth_error_app2 in Hi by lia. rewrite nth_error_app1 in Hj by lia.
    split; eapply nth_error_In; eauto.
  - rewrite nth_error_app2 in Hi, Hj by lia. specialize (Hq _ _ Hi Hj). lia.
Qed.

Lemma first_map_cons : forall (k : key) p a b, comes_first p a b ->
  comes_first (map (cons k) p) (k :: a) (k :: b).
Proof.
  intros k p a b H i j Hi Hj. rewrite nth_error_map in Hi, Hj.
  destruct (nth_error p i) eqn:Ei; [|discriminate]. destruct (nth_error p j) eqn:Ej; [|discriminate].
  injection Hi as ->. injection Hj as ->. eauto.
Qed.

Lemma first_absent : forall A (p : list A) a b, ~ In a p \/ ~ In b p -> comes_first p a b.
Proof. intros A p a b H i j Hi Hj. exfalso. apply nth_error_In in Hi, Hj. tauto. Qed.

Lemma in_map_cons : forall (k k' : key) p a, In (k' :: a) (map (cons k) p) <-> k' = k /\ In a p.
Proof.
  intros. rewrite in_map_iff. split.
  - intros (x & E & H). injection E as -> ->. auto.
  - intros [-> H]. eauto.
Qed.

Lemma branch : forall kvs ls, NoDup (map fst kvs) ->
  Forall2 (fun kv l => visits_containers (snd kv) l) kvs ls ->
  exists places, NoDup places /\
    Forall2 (fun a d => (exists k e b, a = k :: b /\ In (k, e) kvs /\ value_at e b d) /\ IsStructure d = true)
      places (concat ls) /\
    (forall k e b d, In (k, e) kvs -> value_at e b d -> IsStructure d = true -> In (k :: b) places) /\
    (forall k a b, b <> [] -> comes_first places (k :: a) (k :: a ++ b)) /\
    (forall k a i j b c, (i < j)%nat ->
       comes_first places (k :: a ++ AtIndex i :: b) (k :: a ++ AtIndex j :: c)) /\
    (forall k1 k2 b c, comes_first (map fst kvs) k1 k2 -> comes_first places (k1 :: b) (k2 :: c)) /\
    (forall a, In a places -> exists k b, a = k :: b /\ In k (map fst kvs)).
Proof.
  intros kvs ls Hnd H. induction H as [|[k e] l kvs ls Hv H IH].
  - exists []. split; [constructor|]. split; [constructor|]. split; [intros ? ? ? ? []|].
    split; [intros; apply first_absent; auto|]. split; [intros; apply first_absent; auto|].
    split; [intros; apply first_absent; auto|]. intros a [].
  - inversion Hnd as [|? ? Hk Hnd']; subst. cbn [fst snd] in *.
    destruct (IH Hnd') as (q & Q1 & Q2 & Q3 & Q4 & Q5 & Q6 & Q7).
    destruct Hv as (p & P1 & P2 & P3 & P4 & P5).
    assert (Hq : forall b, ~ In (k :: b) q).
    { intros b Hb. destruct (Q7 _ Hb) as (k' & b' & E & Hin). injection E as <- <-. auto. }
    assert (Same : forall k' a b, comes_first p a b -> comes_first q (k' :: a) (k' :: b) ->
              comes_first (map (cons k) p ++ q) (k' :: a) (k' :: b)).
    { intros k' a b Hp Hq'. apply first_app; auto.
      - intros i j Hi Hj. pose proof (nth_error_In _ _ Hi) as Hin. apply in_map_cons in Hin as [-> _].
        exact (first_map_cons k p a b Hp i j Hi Hj).
      - intros [H1 H2]. apply in_map_cons in H1 as [-> _]. eapply Hq; eauto. }
    exists (map (cons k) p ++ q). split; [|split; [|split; [|split; [|split; [|split]]]]].
    + assert (N : NoDup (map (cons k) p)).
      { apply FinFun.Injective_map_NoDup; auto. intros x y E. injection E. auto. }
      clear -N Q1 Hq. revert N. generalize (in_map_cons k k p). intros Hin N.
      assert (D : forall a, In a (map (cons k) p) -> ~ In a q).
      { intros a Ha. apply in_map_iff in Ha as (b & <- & _). apply Hq. }
      clear Hin. induction (map (cons k) p) as [|x r IH]; cbn; auto.
      inversion N; subst. constructor.
      * rewrite in_app_iff. intros [Hx|Hx]; auto. apply (D x); [left; reflexivity|exact Hx].
      * apply IH; auto. intros a Ha. apply D. right. exact Ha.
    + cbn [concat]. apply Forall2_app.
      * clear -P2. induction P2 as [|a d p l [Ha Hd] H IH]; constructor; auto.
        split; auto. exists k, e, a. split; [reflexivity|]. split; [left; reflexivity|exact Ha].
      * eapply Forall2_impl; [|exact Q2]. intros a d [(k' & e' & b & -> & Hin & Hv) Hd]. split; auto.
        exists k', e', b. split; [reflexivity|]. split; [right; exact Hin|exact Hv].
    + intros k' e' b d [E|Hin] Hv Hd; apply in_app_iff.
      * injection E as <- <-. left. apply in_map_cons. split; eauto.
      * right. eauto.
    + intros k' a b Hb. apply Same; auto.
    + intros k' a i j b c Hij. apply Same; auto.
    + intros k1 k2 b c Hf. cbn [map] in Hf. apply first_app.
      * intros i j Hi Hj. apply nth_error_In in Hi, Hj. apply in_map_cons in Hi as [-> _].
        apply in_map_cons in Hj as [-> _]. exfalso. specialize (Hf 0%nat 0%nat eq_refl eq_refl). lia.
      * apply Q6. intros i j Hi Hj. specialize (Hf (S i) (S j) Hi Hj). lia.
      * intros [H1 H2]. apply in_map_cons in H1 as [-> _]. destruct (Q7 _ H2) as (k' & b' & E & Hin).
        injection E as <- <-. apply In_nth_error in Hin as (i & Hi).
        specialize (Hf (S i) 0%nat Hi eq_refl). lia.
    + intros a Ha. apply in_app_iff in Ha as [Ha|Ha].
      * apply in_map_iff in Ha as (b & <- & _). exists k, b. split; [reflexivity|left; reflexivity].
      * destruct (Q7 _ Ha) as (k' & b' & -> & Hin). exists k', b'. split; [reflexivity|right; exact Hin].
Qed.

(** a container and its branches *)
Lemma node_visits : forall v kvs ls, IsStructure v = true -> NoDup (map fst kvs) ->
  (forall k a x, value_at v (k :: a) x <-> exists e, In (k, e) kvs /\ value_at e a x) ->
  (forall i j, (i < j)%nat -> comes_first (map fst kvs) (AtIndex i) (AtIndex j)) ->
  Forall2 (fun kv l => visits_containers (snd kv) l) kvs ls -> visits_containers v (v :: concat ls).
Proof.
  intros v kvs ls Hs Hnd Hva Hord H. destruct (branch kvs ls Hnd H) as (q & Q1 & Q2 & Q3 & Q4 & Q5 & Q6 & Q7).
  assert (Hn : ~ In [] q).
  { intro Hin. destruct (Q7 _ Hin) as (k & b & E & _). discriminate. }
  assert (First : forall k a b, comes_first q (k :: a) b -> comes_first ([] :: q) (k :: a) b \/ b = []).
  { intros k a b Hf. destruct b as [|kb b]; auto. left. apply (first_app _ [[]] q); auto.
    - apply first_absent. left. intros [E|[]]. discriminate.
    - intros [[E|[]] _]. discriminate. }
  exists ([] :: q). split; [constructor; auto|]. split; [|split; [|split]].
  - constructor; [split; [constructor|exact Hs]|]. eapply Forall2_impl; [|exact Q2].
    intros a d [(k & e & b & -> & Hin & Hv) Hd]. split; auto. apply Hva. eauto.
  - intros a d Hd Hsd. destruct a as [|k a]; [left; reflexivity|]. right.
    apply Hva in Hd as (e & Hin & Hd). eauto.
  - intros a b Hb. destruct a as [|k a].
    + intros i j Hi Hj. cbn [app] in Hj. destruct j as [|j]; [cbn in Hj; congruence|].
      destruct i as [|i]; [lia|]. exfalso. apply Hn. eapply nth_error_In. exact Hi.
    + cbn [app]. destruct (First k a (k :: a ++ b)); auto; discriminate.
  - intros a i j b c Hij. destruct a as [|k a]; cbn [app].
    + destruct (First (AtIndex i) b (AtIndex j :: c)); auto; discriminate.
    + destruct (First k (a ++ AtIndex i :: b) (k :: a ++ AtIndex j :: c)); auto; discriminate.
Qed.

Lemma scalar_visits : forall v, IsStructure v = false -> visits_containers v [].
Proof.
  intros v Hv. exists []. split; [constructor|]. split; [constructor|]. split.
  - intros a d Hd Hs. exfalso. inversion Hd; subst; cbn in Hv; congruence.
  - split; intros; apply first_absent; auto.
Qed.

Lemma combine_fst : forall A B (l : list A) (l' : list B), length l = length l' -> map fst (combine l l') = l.
Proof. intros A B. induction l as [|a l IH]; intros [|b l'] H; try discriminate; cbn; auto. rewrite IH; auto. Qed.

Lemma indexed_in : forall (l : list val) i e s,
  In (AtIndex i, e) (combine (map AtIndex (seq s (length l))) l) <-> (s <= i)%nat /\ nth_error l (i - s) = Some e.
Proof.
  induction l as [|x l IH]; intros i e s; cbn [length seq map combine].
  - split; [intros []|]. intros [_ H]. destruct (i - s)%nat; discriminate.
  - split.
    + intros [E|H].
      * injection E as -> ->. rewrite Nat.sub_diag. split; [lia|reflexivity].
      * apply IH in H as [H1 H2]. split; [lia|]. replace (i - s)%nat with (S (i - S s)) by lia. exact H2.
    + intros [H1 H2]. destruct (Nat.eq_dec i s) as [->|Hne].
      * left. rewrite Nat.sub_diag in H2. injection H2 as ->. reflexivity.
      * right. apply IH. split; [lia|]. replace (i - s)%nat with (S (i - S s)) in H2 by lia. exact H2.
Qed.

Lemma walks_visits : forall v, doc v -> forall dots, walks v dots -> visits_containers v dots.
Proof.
  induction v using val_tree_ind; intros Hd dots Hw; inversion Hw; subst; try discriminate;
    try (apply scalar_visits; reflexivity).
  - apply node_visits with (kvs := combine (map AtIndex (seq 0 (length l))) l); [reflexivity| | | |].
    + rewrite combine_fst by (rewrite map_length, seq_length; reflexivity).
      apply FinFun.Injective_map_NoDup; [intros x y E; injection E; auto|apply seq_NoDup].
    + intros k a x. split.
      * intro Hv. inversion Hv as [|? i e ? ? Hi Hx|]; subst. exists e. split; auto. apply indexed_in.
        rewrite Nat.sub_0_r. split; [lia|exact Hi].
      * intros (e & Hin & Hx). pose proof (in_combine_l _ _ _ _ Hin) as Hk. apply in_map_iff in Hk as (i & <- & _).
        apply indexed_in in Hin as [_ Hi]. rewrite Nat.sub_0_r in Hi. econstructor; eauto.
    + rewrite combine_fst by (rewrite map_length, seq_length; reflexivity). intros i j Hij p q Hp Hq.
      rewrite nth_error_map in Hp, Hq.
      destruct (nth_error (seq 0 (length l)) p) eqn:Ep; [|discriminate]. injection Hp as ->.
      destruct (nth_error (seq 0 (length l)) q) eqn:Eq; [|discriminate]. injection Hq as ->.
      pose proof (nth_error_lt _ _ _ _ Ep) as L1. pose proof (nth_error_lt _ _ _ _ Eq) as L2.
      rewrite seq_length in L1, L2.
      apply nth_error_nth with (d := 0%nat) in Ep, Eq. rewrite seq_nth in Ep, Eq by lia. lia.
    + assert (Hdl : forall e, In e l -> doc e) by (intros; apply (doc_child e (VArr l)); auto).
      match goal with K : Forall2 walks l _ |- _ => revert K end. clear -H Hdl.
      generalize 0%nat. revert ls Hdl. induction H as [|e l He H IH]; intros ls Hdl s K; inversion K; subst;
        cbn [length seq map combine]; constructor.
      * apply He; auto. apply Hdl. left. reflexivity.
      * apply IH; auto. intros x Hx. apply Hdl. right. exact Hx.
  - rename m' into m2. assert (Hnd : NoDup (map fst m)) by (apply (doc_node _ Hd)).
    assert (Hp : Permutation m m2) by assumption.
    apply node_visits with (kvs := map (fun kv => (AtName (fst kv), snd kv)) m2); [reflexivity| | | |].
    + rewrite map_map. cbn [fst]. rewrite <- map_map.
      apply FinFun.Injective_map_NoDup; [intros x y E; injection E; auto|].
      apply (Permutation_NoDup (Permutation_map fst Hp) Hnd).
    + intros k a x. split.
      * intro Hv. inversion Hv as [| |? k' e ? ? Hi Hx]; subst. exists e. split; auto.
        apply in_map_iff. exists (k', e). split; auto. apply (Permutation_in _ Hp Hi).
      * intros (e & Hin & Hx). apply in_map_iff in Hin as ([k' e'] & E & Hin). cbn in E. injection E as <- ->.
        econstructor; eauto. apply (Permutation_in _ (Permutation_sym Hp) Hin).
    + intros i j _. apply first_absent. left. rewrite map_map. intro Hin. apply in_map_iff in Hin as (x & E & _). discriminate.
    + assert (Hdl : forall kv, In kv m2 -> doc (snd kv)).
      { intros kv Hkv. apply (doc_child (snd kv) (VObj m)); auto. apply in_map.
        apply (Permutation_in _ (Permutation_sym Hp) Hkv). }
      assert (Hall : Forall (fun kv => doc (snd kv) -> forall dots, walks (snd kv) dots -> visits_containers (snd kv) dots) m2).
      { apply Forall_forall. intros kv Hkv. rewrite Forall_forall in H. apply H.
        apply (Permutation_in _ (Permutation_sym Hp) Hkv). }
      match goal with K : Forall2 walks (map snd m2) _ |- _ => revert K end. clear -Hall Hdl.
      revert ls. induction m2 as [|kv m2 IH]; intros ls K; inversion K; subst; cbn [map]; constructor.
      * inversion Hall as [|? ? Hx _]; subst. apply Hx; auto. apply Hdl. left. reflexivity.
      * apply IH; auto. { intros x Hx. apply Hdl. right. exact Hx. } inversion Hall; auto.
Qed.

Lemma gathers_visits : forall cands dots, Forall doc cands -> gathers walks cands dots ->
  gathers visits_containers cands dots.
Proof.
  intros cands dots Hc (ls & H & ->). exists ls. split; [|reflexivity].
  induction H; inversion Hc; subst; constructor; auto using walks_visits.
Qed.
