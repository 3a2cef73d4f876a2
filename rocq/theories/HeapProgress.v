(** An evaluation that has not returned can go on: whatever the machine of Machine.v does, the
    machine over a store can do. *)
From Coq Require Import Permutation.
From Verif Require Import SpecDoc DocProofs SpecRun SpecText WalkProofs StackProofs MachineProofs EvalProofs TextProofs DepthProofs Api Conc SpecConc ConcProofs
  Heap SpecHeap HeapProofs HeapSys.
Local Open Scope Z_scope.

(** ** New storage *)
Lemma alloc_list : forall l, Forall (fun v => forall h, exists new x, stands (fun a => (length h <= a)%nat) (h ++ new) x v) l ->
  forall h, exists new xs, Forall2 (stands (fun a => (length h <= a)%nat) (h ++ new)) xs l.
Proof.
  intros l H. induction H as [|v l Hv H IH]; intro h; [exists [], []; constructor|].
  destruct (Hv h) as (n1 & x & Hx). destruct (IH (h ++ n1)) as (n2 & xs & Hxs). exists (n1 ++ n2), (x :: xs). rewrite app_assoc. constructor.
  - apply stands_bound in Hx. eapply stands_move; [|exact Hx]. intros a [H1 H2]. split; [exact H1|]. apply nth_error_app1. exact H2.
  - eapply Forall2_impl_both; [exact Hxs|]. intros y w _ _ Hy. eapply stands_move; [|exact Hy]. intros a Ha. split; [|reflexivity]. rewrite app_length in Ha. lia.
Qed.

Lemma alloc : forall v h, exists new x, stands (fun a => (length h <= a)%nat) (h ++ new) x v.
Proof.
  intro v. induction v as [v Hv|l Hl|m Hm] using val_struct_ind; intro h.
  - exists [], (HAtom v). constructor. exact Hv.
  - destruct (alloc_list l Hl h) as (new & xs & Hxs). exists (new ++ [BArr xs]), (HArr (mkSl (length (h ++ new)) 0 (length xs) (length xs))). rewrite app_assoc.
    eapply RpArr with (l := xs).
    + cbn [s_addr]. rewrite app_length. lia.
    + unfold cells. cbn [s_addr s_off s_len s_cap]. rewrite nth_error_last. cbn [plus skipn]. rewrite !Nat.leb_refl, firstn_all. reflexivity.
    + eapply Forall2_impl_both; [exact Hxs|]. intros y w _ _ Hy. apply stands_bound in Hy. eapply stands_move; [|exact Hy]. intros a [H1 H2]. split; [exact H1|]. apply nth_error_app1. exact H2.
  - destruct (alloc_list (map snd m)) with (h := h) as (new & xs & Hxs); [apply Forall_map; exact Hm|].
    exists (new ++ [BMap (combine (map fst m) xs)]), (HMap (length (h ++ new))). rewrite app_assoc. eapply RpMap with (m := combine (map fst m) xs).
    + rewrite app_length. lia.
    + apply nth_error_last.
    + clear Hm. revert xs Hxs.
      assert (G : forall b xs, Forall2 (stands (fun a => (length h <= a)%nat) (h ++ new)) xs (map snd m) ->
        Forall2 (fun x y => fst x = fst y /\ stands (fun a => (length h <= a)%nat) ((h ++ new) ++ [b]) (snd x) (snd y)) (combine (map fst m) xs) m); [|auto].
      intro b. induction m as [|[k w] m IH]; intros xs Hxs; inversion Hxs; subst; cbn [map combine fst]; constructor; auto. cbn [fst snd]. split; [reflexivity|].
      match goal with H : stands _ _ ?x w |- stands _ _ ?x w => apply stands_bound in H; eapply stands_move; [|exact H] end. intros a [H1' H2']. split; [exact H1'|]. apply nth_error_app1. exact H2'.
Qed.

Lemma made_ex : forall h ins v, exists h' x, made h ins h' x v.
Proof. intros h ins v. destruct (alloc v h) as (new & x & Hx). exists (h ++ new), x. split; [eauto|]. eapply stands_move; [|exact Hx]. intros a Ha. split; [left; exact Ha|reflexivity]. Qed.

Lemma made_all_ex : forall h ins vs, exists h' xs, made_all h ins h' xs vs.
Proof.
  intros h ins vs. destruct (alloc_list vs) with (h := h) as (new & xs & Hxs); [apply Forall_forall; intros v _ h0; apply alloc|]. exists (h ++ new), xs. split; [eauto|].
  eapply Forall2_impl_both; [exact Hxs|]. intros y w _ _ Hy. eapply stands_move; [|exact Hy]. intros a Ha. split; [left; exact Ha|reflexivity].
Qed.

(** ** Appends and the stack *)
Lemma cells_inv : forall h s l, cells h s = Some l -> exists b, nth_error h (s_addr s) = Some (BArr b) /\ (s_len s <= s_cap s)%nat.
Proof.
  intros h s l H. unfold cells in H. destruct (nth_error h (s_addr s)) as [[b| |]|]; try discriminate. exists b. split; [reflexivity|].
  destruct (Nat.leb_spec (s_off s + s_cap s) (length b)); [|discriminate]. destruct (Nat.leb_spec (s_len s) (s_cap s)); [assumption|discriminate].
Qed.

Lemma append_ex : forall h v s l, elems h s l -> exists h' s', h_append h v s h' s'.
Proof.
  intros h v [s|] l H; [|do 2 eexists; apply (ApNil h v 0%nat)]. cbn in H. destruct (cells_inv _ _ _ H) as (b & Hb & Hle).
  destruct (Nat.lt_ge_cases (s_len s) (s_cap s)) as [Hlt|Hge]; [do 2 eexists; eapply ApRoom; eauto|]. do 2 eexists. eapply (ApMove h v s l 0%nat); [exact H|lia].
Qed.

Lemma appends_ex : forall xs h s l, elems h s l -> exists h' s', h_appends h s xs h' s'.
Proof.
  induction xs as [|x xs IH]; intros h s l H; [do 2 eexists; constructor|]. destruct (append_ex h x s l H) as (h1 & s1 & H1).
  destruct (append_ok _ _ _ _ _ _ H1 H) as [Hc _]. destruct (IH h1 (Some s1) _ Hc) as (h2 & s2 & H2). do 2 eexists. econstructor; eauto.
Qed.

Lemma store_ex : forall h s i v l, cells h s = Some l -> (i < s_len s)%nat -> exists h', store h s i v = Some h'.
Proof.
  intros h s i v l H Hi. destruct (cells_inv _ _ _ H) as (b & Hb & _). unfold store. rewrite Hb. destruct (Nat.ltb_spec i (s_len s)); [eauto|lia].
Qed.

Lemma push_ex : forall O h m ma lv x, sim O h m ma lv -> exists h' m', h_push x h m h' m'.
Proof.
  intros O h m ma lv x Hs. destruct (sim_stk _ _ _ _ _ Hs) as (c & Hc & _). destruct (Nat.le_gt_cases (len_of (h_stk m)) (h_sp m)) as [Hle|Hgt].
  - destruct (append_ex h x _ _ Hc) as (h' & s' & H). do 2 eexists. eapply PuAppend; eauto.
  - destruct (h_stk m) as [s|] eqn:E; [|cbn in Hgt; lia]. cbn in Hc, Hgt. destruct (store_ex h s (h_sp m) x c Hc Hgt) as (h' & H). do 2 eexists. eapply PuStore; eauto.
Qed.

Lemma pop_ex : forall O h m ma lv v ma', sim O h m ma lv -> pop ma = OK (v, ma') -> exists x h' m', h_pop h m x h' m'.
Proof.
  intros O h m ma lv v ma' Hs H. destruct (sim_stk _ _ _ _ _ Hs) as (c & Hc & Hf). pose proof (st_sp _ _ _ _ (si_m _ _ _ _ _ Hs)) as Hsp.
  unfold pop in H. destruct (m_sp ma) as [|sp]; [discriminate|]. destruct (nth_error (m_stack ma) sp) as [w|] eqn:En; [|discriminate].
  assert (Hlt : (sp < length c)%nat). { rewrite (forall2_len _ _ _ _ _ Hf). apply nth_error_Some. congruence. }
  destruct (nth_error c sp) as [x|] eqn:Ex; [|apply nth_error_None in Ex; lia].
  destruct (h_stk m) as [s|] eqn:E; cbn in Hc; [|subst; cbn in Hlt; lia].
  destruct (store_ex h s sp (HAtom VNil) c Hc) as (h' & Hst); [rewrite <- (cells_length _ _ _ Hc); exact Hlt|].
  exists x. do 2 eexists. eapply PoOne; eauto. unfold load. rewrite Hc. exact Ex.
Qed.

Lemma clear_ex : forall n h s i l, elems h s l -> (i + n <= length l)%nat -> exists h', h_clear h s i n = Some h'.
Proof.
  induction n as [|n IH]; intros h s i l H Hn; [eexists; reflexivity|]. cbn [h_clear]. destruct s as [s|]; cbn in H; [|subst; cbn in Hn; lia].
  destruct (store_ex h s i (HAtom VNil) l H) as (h1 & H1); [rewrite <- (cells_length _ _ _ H); lia|]. rewrite H1.
  destruct (store_ok _ _ _ _ _ _ H1 H) as [Hc _]. apply (IH h1 (Some s) (S i) _ Hc). rewrite set_nth_len. lia.
Qed.

Lemma popN_ex : forall O h m ma lv n vs ma', sim O h m ma lv -> stk_ok ma -> popN n ma = OK (vs, ma') -> 0 <= n /\ exists xs h' m', h_popN (Z.to_nat n) h m xs h' m'.
Proof.
  intros O h m ma lv n vs ma' Hs Hok H. destruct (sim_stk _ _ _ _ _ Hs) as (c & Hc & Hf). pose proof (st_sp _ _ _ _ (si_m _ _ _ _ _ Hs)) as Hsp.
  unfold popN in H. destruct (Z.ltb_spec (Z.of_nat (m_sp ma)) n); [discriminate|]. destruct (Z.ltb_spec n 0); [discriminate|]. split; [assumption|].
  unfold stk_ok in Hok. rewrite <- (forall2_len _ _ _ _ _ Hf) in Hok. rewrite <- Hsp in *. set (k := Z.to_nat n) in *. assert (Hk : (k <= h_sp m)%nat) by lia.
  set (xs := firstn k (skipn (h_sp m - k) c)).
  assert (Hxs : xs = match h_stk m with Some s => match cells h s with Some l => firstn k (skipn (h_sp m - k) l) | None => [] end | None => [] end).
  { unfold xs. destruct (h_stk m) as [s|]; cbn in Hc; [rewrite Hc; reflexivity|]. subst c. rewrite skipn_nil, firstn_nil. reflexivity. }
  destruct (clear_ex k (h ++ [BArr xs]) (h_stk m) (h_sp m - k)%nat c) as (h' & Hcl).
  { eapply elems_same; [exact Hc|]. intros a Ha. apply nth_error_app1. eapply elems_bound; eauto. }
  { lia. }
  exists xs, h'. eexists. eapply PoMany; [exact Hk|exact Hxs| |exact Hcl]. unfold xs. rewrite firstn_length, skipn_length. lia.
Qed.

Lemma takes_ex : forall O h m ma lv k n vs ma', sim O h m ma lv -> stk_ok ma -> (k = None \/ k = Some 0%nat \/ k = Some 1%nat \/ k = Some 2%nat) ->
  takes k n ma = OK (vs, ma') -> exists xs h' m', h_takes k n h m xs h' m'.
Proof.
  intros O h m ma lv k n vs ma' Hs Hok [->|[->|[->| ->]]] H; cbn [takes] in H.
  - destruct (popN_ex _ _ _ _ _ _ _ _ Hs Hok H) as (Hn & xs & h' & m' & Hp). do 3 eexists. eapply TkMany; eauto.
  - do 3 eexists. constructor.
  - destruct (pop ma) as [[a ma1]| | |] eqn:E; try discriminate. destruct (pop_ex _ _ _ _ _ _ _ Hs E) as (x & h' & m' & Hp). do 3 eexists. econstructor. exact Hp.
  - destruct (pop ma) as [[b ma1]| | |] eqn:E; try discriminate. cbn [obind] in H. destruct (pop_ex _ _ _ _ _ _ _ Hs E) as (x & h1 & m1 & Hp).
    destruct (pop_sim _ _ _ _ _ _ _ _ Hs Hp) as (b' & ma1' & E' & _ & Hs1 & _). rewrite E in E'. injection E' as <- <-.
    destruct (pop ma1) as [[a ma2]| | |] eqn:E2; try discriminate. destruct (pop_ex _ _ _ _ _ _ _ Hs1 E2) as (y & h2 & m2 & Hp2). do 3 eexists. econstructor; eauto.
Qed.

Lemma quiet_kinds : forall o k, quiet o = Some k -> k = None \/ k = Some 0%nat \/ k = Some 1%nat \/ k = Some 2%nat.
Proof. intros [] k H; cbn in H; try discriminate H; injection H as <-; auto. Qed.

Lemma quiet_takes : forall W p rv ord o k m, op_of_num (order_op ord) = Some o -> quiet o = Some k ->
  exec W p rv ord m <> Panics -> exists vs m1, takes k (order_small_int ord) m = OK (vs, m1).
Proof.
  intros W p rv ord o k m Ho Hq H. unfold exec in H. rewrite Ho in H.
  assert (P1 : forall r, pop m = r -> (exists v m1, r = OK (v, m1)) \/ r = Panics).
  { intros r <-. unfold pop. destruct (m_sp m); [auto|]. destruct (nth_error (m_stack m) n); eauto. }
  assert (P2 : forall m1 r, pop m1 = r -> (exists v m2, r = OK (v, m2)) \/ r = Panics).
  { intros m1 r <-. unfold pop. destruct (m_sp m1); [auto|]. destruct (nth_error (m_stack m1) n); eauto. }
  assert (P3 : forall n r, popN n m = r -> (exists v m2, r = OK (v, m2)) \/ r = Panics).
  { intros n r <-. unfold popN. destruct (_ <? n); [auto|]. destruct (n <? 0); [auto|]. eauto. }
  assert (U1 : forall K : val * mstate -> M mstate, obind (pop m) K <> Panics -> exists vs m1, takes (Some 1%nat) (order_small_int ord) m = OK (vs, m1)).
  { intros K HK. destruct (P1 _ eq_refl) as [(v & m1 & E)|E]; rewrite E in HK; [|contradiction HK; reflexivity]. cbn [takes]. rewrite E. cbn [obind]. eauto. }
  assert (U2 : forall K, (let! (b, m1) := pop m in let! (a, m2) := pop m1 in K b a m2 : M mstate) <> Panics -> exists vs m1, takes (Some 2%nat) (order_small_int ord) m = OK (vs, m1)).
  { intros K HK. destruct (P1 _ eq_refl) as [(v & m1 & E)|E]; rewrite E in HK; [|contradiction HK; reflexivity]. cbn [takes]. rewrite E. cbn [obind] in *.
    destruct (P2 m1 _ eq_refl) as [(v2 & m2 & E2)|E2]; rewrite E2 in *; [|contradiction HK; reflexivity]. cbn [obind]. eauto. }
  destruct o; cbn in Hq; try discriminate Hq; injection Hq as <-; try (cbn [takes]; eauto; fail); try (eapply U1; exact H); try (eapply U2; exact H).
  cbn [takes]. destruct (P3 (order_small_int ord) _ eq_refl) as [(v & m1 & E)|E]; rewrite E in *; [eauto|contradiction H; reflexivity].
Qed.

(** ** Selections *)
Lemma slice_loop_ok : forall fuel up src i e s acc g, slice_loop fuel up src i e s acc = OK g -> forall l, exists r, slice_loop fuel up src i e s (Some l) = OK (Some r).
Proof.
  induction fuel as [|fuel IH]; intros up src i e s acc g H l; cbn [slice_loop] in *; destruct (if up then i <? e else i >? e); try discriminate; eauto.
  destruct (index_Z src i) as [v|]; [|discriminate]. eauto.
Qed.

Lemma keys_from_none : forall W v k neg acc g, valsByKey W acc v k neg = OK g -> exists g', valsByKey W (Some []) v k neg = OK g'.
Proof.
  intros W v k neg acc g H. unfold valsByKey in *. destruct k; try (destruct v; eauto; destruct (isInt _); eauto).
  destruct v as [| | | | | | |l| | | | |]; eauto. destruct (sliceEval s (Z.of_nat (length l))) as [[a b] c].
  destruct (c >? 0); [|destruct (c <? 0)]; eauto; destruct (slice_loop_ok _ _ _ _ _ _ _ _ H []) as (r & E); eauto.
Qed.

Lemma keys_ex : forall W neg el ks h acc R g v kvs g', acc_elems R h acc g -> (forall a, R a -> (a < length h)%nat) ->
  stands (free h (with_acc R acc)) h el v -> Forall2 (stands (free h (with_acc R acc)) h) ks kvs ->
  keys_vals W neg g v kvs = OK g' -> exists h' acc', h_keys W neg el h ks acc h' acc'.
Proof.
  intros W neg el ks. induction ks as [|k ks IH]; intros h acc R g v kvs g' Ha HR Hel Hks H; inversion Hks as [|? kv ? kvs' Hk Hks' E1 E2]; subst; [do 2 eexists; constructor|].
  cbn [keys_vals] in H. destruct (isNothing kv) eqn:En.
  - cbn [obind] in H. destruct (IH h acc R g v kvs' g') as (h' & acc' & Hh); auto. do 2 eexists. eapply KySkip; [eapply stands_any; exact Hk|exact En|exact Hh].
  - destruct (valsByKey W g v kv neg) as [g1| | |] eqn:E; try discriminate. cbn [obind] in H. destruct (keys_from_none _ _ _ _ _ _ E) as ([vs|] & E0).
    + destruct (made_all_ex h [el] vs) as (h1 & xs & Hm).
      destruct (acc_list _ _ _ _ Ha) as (c & Hc & _). assert (Hc1 : elems h1 acc c).
      { destruct Hm as [(new & ->) _]. eapply elems_same; [exact Hc|]. intros a Hx. apply nth_error_app1. eapply elems_bound; eauto. }
      destruct (appends_ex xs h1 acc c Hc1) as (h2 & acc2 & Hap). destruct (add_ok _ _ _ _ _ _ _ _ _ _ _ Ha HR Hel Hm Hap) as [Ha2 M].
      rewrite (keys_plus _ _ _ _ _ _ E0) in E. injection E as <-.
      destruct (IH h2 acc2 R (g_plus g vs) v kvs' g') as (h' & acc' & Hh); auto.
      * intros a Hr. apply HR in Hr. destruct M as (M & _). lia.
      * eapply stands_acc; eauto.
      * eapply stands_all_acc; eauto.
      * do 2 eexists. eapply KyAdd; [eapply stands_any; exact Hk|exact En|eapply stands_any; exact Hel|exact E0|exact Hm|exact Hap|exact Hh].
    + rewrite (keys_lost _ _ _ _ _ E0) in E. injection E as <-.
      destruct (IH h None R None v kvs' g') as (h' & acc' & Hh); auto.
      * exact I.
      * eapply stands_move; [|exact Hel]. intros a [H1 H2]. split; [|reflexivity]. split; [exact H1|]. intros [Hr|[]]. apply H2. left. exact Hr.
      * eapply Forall2_impl_both; [exact Hks'|]. intros x y _ _ Hx. eapply stands_move; [|exact Hx]. intros a [H1 H2]. split; [|reflexivity]. split; [exact H1|]. intros [Hr|[]]. apply H2. left. exact Hr.
      * do 2 eexists. eapply KyLost; [eapply stands_any; exact Hk|exact En|eapply stands_any; exact Hel|exact E0|exact Hh].
Qed.

Lemma wild_ex : forall W t el h acc R g v, acc_elems R h acc g -> stands (free h (with_acc R acc)) h el v -> exists h' acc' t', h_wild W t el h acc h' acc' t'.
Proof.
  intros W t el h acc R g v Ha Hel. destruct (valsWild W t (Some []) v) as [[vs|] t'] eqn:E.
  - destruct (made_all_ex h [el] vs) as (h1 & xs & Hm). destruct (acc_list _ _ _ _ Ha) as (c & Hc & _). assert (Hc1 : elems h1 acc c).
    { destruct Hm as [(new & ->) _]. eapply elems_same; [exact Hc|]. intros a Hx. apply nth_error_app1. eapply elems_bound; eauto. }
    destruct (appends_ex xs h1 acc c Hc1) as (h2 & acc2 & Hap). do 3 eexists. eapply WiAdd; eauto. eapply stands_any; eauto.
  - exfalso. unfold valsWild in E. destruct v; try discriminate; rewrite g_appends_plus in E; cbn [g_plus] in E; destruct (map snd _) in E || destruct l in E; discriminate.
Qed.

(** one call of the function of applySelection can be made *)
Definition call_ex (R : nat -> Prop) (inv : nat -> heap -> option slc -> Prop) (f : nat -> hval -> heap -> option slc -> heap -> option slc -> nat -> Prop)
    (fp : nat -> val -> gslice -> M (gslice * nat)) : Prop :=
  forall t el h acc g v g' t', inv t h acc -> acc_elems R h acc g -> (forall a, R a -> (a < length h)%nat) ->
  stands (free h (with_acc R acc)) h el v -> fp t v g = OK (g', t') -> exists h' acc' t'', f t el h acc h' acc' t''.

Lemma each_ex : forall n f src (R : nat -> Prop) inv fp i t h acc g c vs g' t', call_ok R inv f fp -> call_ex R inv f fp -> inv t h acc -> (forall a, addrs src a -> R a) ->
  elems h src c -> (forall a, R a -> ~ addrs acc a) -> Forall2 (stands (free h (with_acc R acc)) h) c vs -> acc_elems R h acc g -> (forall a, R a -> (a < length h)%nat) ->
  applySelection_loop fp t (skipn i vs) g = OK (g', t') -> n = (length vs - i)%nat -> exists h' acc' t'', h_each f src i t h acc h' acc' t''.
Proof.
  induction n as [|n IH]; intros f src R inv fp i t h acc g c vs g' t' Hok Hex Hinv Hsrc Hc Hd Hvs Hacc HR H Hn; pose proof (forall2_len _ _ _ _ _ Hvs) as Hlen.
  - do 3 eexists. apply EaEnd. destruct src as [s|]; cbn in *; [rewrite <- (cells_length _ _ _ Hc); lia|lia].
  - destruct src as [s|]; cbn in Hc; [|subst; cbn in Hlen; lia]. destruct (nth_error c i) as [el|] eqn:El; [|apply nth_error_None in El; lia].
    destruct (Forall2_nth _ _ _ _ _ _ _ Hvs El) as (v & Hv & Hel). rewrite (skipn_nth _ _ _ _ Hv) in H. cbn [applySelection_loop] in H.
    destruct (fp t v g) as [[g1 t1]| | |] eqn:E; try discriminate. cbn [obind] in H. destruct (Hex _ _ _ _ _ _ _ _ Hinv Hacc HR Hel E) as (h1 & acc1 & t1' & Hf).
    destruct (Hok _ _ _ _ _ _ _ _ _ Hf Hinv Hacc HR Hel) as (g1' & E1 & Ha1 & M1 & Hi1). rewrite E in E1. injection E1 as <- <-.
    destruct (IH f (Some s) R inv fp (S i) t1 h1 acc1 g1 c vs g' t') as (h2 & acc2 & t2 & H2); auto.
    + cbn. rewrite (cells_same h h1 s); [exact Hc|]. destruct M1 as (_ & M1 & _). apply M1; [eapply cells_bound; eauto|]. apply Hd, Hsrc. left. reflexivity.
    + intros a Ha Hb. destruct M1 as (_ & _ & M1). destruct (M1 _ Hb) as [M2|M2]; [eapply Hd; eauto|]. apply HR in Ha. lia.
    + eapply stands_all_acc; eauto.
    + intros a Ha. apply HR in Ha. destruct M1 as (M1 & _). lia.
    + lia.
    + do 3 eexists. eapply EaOne; eauto. unfold load. rewrite Hc. exact El.
Qed.

Lemma apply_ex : forall O h m ma lv f fp inv t g' t', sim O h m ma lv -> call_ok (bad O m) inv f fp -> call_ex (bad O m) inv f fp ->
  inv t (h ++ [BArr []]) (Some (mkSl (length h) 0 0 0)) -> applySelection t (m_out ma) fp = OK (g', t') -> exists h' acc t'', h_apply f (h_out m) t h h' acc t''.
Proof.
  intros O h m ma lv f fp inv t g' t' Hs Hf Hx Hi H. unfold h_apply.
  assert (Hout : exists c, elems h (h_out m) c /\ Forall2 (stands (free h (bad O m)) h) c (g_list (m_out ma))).
  { destruct Hs as [[H1 _ _ _ _ _] _ _ _ _]. destruct (h_out m) as [s|], (m_out ma) as [l|]; try contradiction; [exact H1|]. exists []. split; [reflexivity|constructor]. }
  destruct Hout as (c & Hc & Hv).
  apply (each_ex (length (g_list (m_out ma)) - 0) f (h_out m) (bad O m) inv fp 0 t (h ++ [BArr []]) (Some (mkSl (length h) 0 0 0)) (Some []) c (g_list (m_out ma)) g' t'); auto.
  - intros a Ha. right. unfold mine. rewrite !in_app_iff. auto.
  - eapply elems_same; [exact Hc|]. intros a Ha. apply nth_error_app1. eapply elems_bound; eauto.
  - intros a Ha [<-|[]]. cbn [s_addr] in Ha. apply (bad_lt _ _ _ _ _ _ Hs) in Ha. lia.
  - eapply Forall2_impl_both; [exact Hv|]. intros x y _ _ Hxy. eapply stands_move; [|exact Hxy]. intros a [Hl Hn]. split; [|apply nth_error_app1; exact Hl].
    split; [rewrite app_length; lia|]. intros [Hb|[<-|[]]]; [auto|]. cbn in Hl. lia.
  - cbn [acc_elems]. exists []. split; [|constructor]. unfold cells. cbn [s_addr s_off s_len s_cap]. rewrite nth_error_last. reflexivity.
  - intros a Ha. apply (bad_lt _ _ _ _ _ _ Hs) in Ha. rewrite app_length. lia.
Qed.

Lemma wild_call_ex : forall R W inv, call_ex R inv (f_wild W) (fun t v acc => OK (valsWild W t acc v)).
Proof. intros R W inv t el h acc g v g' t' _ Ha HR Hel _. eapply wild_ex; eauto. Qed.

Lemma keys_call_ex : forall R W neg ks kvs fp, (forall t v acc, fp t v acc = let! g := keys_vals W neg acc v kvs in OK (g, t)) ->
  call_ex R (fun _ h acc => Forall2 (stands (free h (with_acc R acc)) h) ks kvs) (f_keys W neg ks) fp.
Proof.
  intros R W neg ks kvs fp Hfp t el h acc g v g' t' Hi Ha HR Hel H. rewrite Hfp in H. destruct (keys_vals W neg g v kvs) as [g1| | |] eqn:E; try discriminate.
  destruct (keys_ex _ _ _ _ _ _ _ _ _ _ _ Ha HR Hel Hi E) as (h' & acc' & Hh). exists h', acc', t. split; [reflexivity|exact Hh].
Qed.

(** ** Orders *)
Lemma stands_m_any : forall P h m ma, stands_m P h m ma -> stands_m any h m ma.
Proof.
  intros P h m ma [H1 H2 H3 H4 H5 H6].
  assert (L : forall s l, stands_list P h s l -> stands_list any h s l) by (intros s l (c & Hc & Hf); exists c; split; [exact Hc|]; eapply Forall2_impl_both; [exact Hf|]; intros; eapply stands_any; eauto).
  constructor; auto; [destruct (h_out m), (m_out ma); auto|eapply stands_any; eauto|destruct (h_stk m); auto].
Qed.

Lemma exec_ex : forall W p root ord h m O ma lv rv ma', sim O h m ma lv -> stk_ok ma -> stands (free h (bad O m)) h root rv ->
  (match op_of_num (order_op ord) with Some o => looping o = false | None => True end) -> exec W p rv ord ma = OK ma' -> exists h' m', h_exec W p root ord h m h' m'.
Proof.
  intros W p root ord h m O ma lv rv ma' Hs Hok Hroot Hl H. pose proof (si_m _ _ _ _ _ Hs) as Hma.
  destruct (op_of_num (order_op ord)) as [o|] eqn:Ho; [|unfold exec in H; rewrite Ho in H; discriminate].
  destruct (quiet o) as [k|] eqn:Hq.
  { destruct (quiet_takes W p rv ord o k ma Ho Hq) as (vs & ma1 & Ht); [congruence|].
    destruct (takes_ex _ _ _ _ _ _ _ _ _ Hs Hok (quiet_kinds _ _ Hq) Ht) as (xs & h1 & m1 & Hh).
    destruct (takes_sim _ _ _ _ _ _ _ _ _ _ Hs Hh) as (vs' & ma1' & Ht' & Hx & Hs1 & _). rewrite Ht in Ht'. injection Ht' as <- <-.
    destruct (quiet_exec W p rv ord o k ma ma' vs ma1 Ho Hq H Ht) as (v & Ev).
    assert (Hok1 : stk_ok ma1).
    { clear -Hok Ht Hq. destruct (quiet_kinds _ _ Hq) as [->|[->|[->| ->]]]; cbn [takes] in Ht.
      - eapply popN_eff; eauto.
      - injection Ht as <- <-. exact Hok.
      - destruct (pop ma) as [[a mb]| | |] eqn:E; try discriminate. injection Ht as <- <-. eapply pop_eff; eauto.
      - destruct (pop ma) as [[a mb]| | |] eqn:E; try discriminate. cbn [obind] in Ht. apply pop_eff in E; [|exact Hok]. destruct E as (E & _).
        destruct (pop mb) as [[a2 mc]| | |] eqn:E2; try discriminate. injection Ht as <- <-. eapply pop_eff; eauto. }
    destruct (made_ex h1 (root :: h_dot m :: xs) v) as (h2 & x & Hmade). pose proof Hmade as [(new & ->) _].
    destruct (sim_new O h1 m1 ma1 lv new Hs1) as [Hs2 _]. apply (sim_tick _ _ _ _ _ (m_tick ma')) in Hs2. destruct (push_ex _ _ _ _ _ x Hs2) as (h3 & m3 & Hp).
    assert (Hok1' : stk_ok (set_tick ma1 (m_tick ma'))) by exact Hok1. pose proof (push_eff v _ Hok1') as (_ & Hsp & _). rewrite <- Ev in Hsp.
    do 2 eexists. eapply XQuiet with (ma := ma) (n := m_sp ma1) (v := v); eauto using stands_any, stands_m_any.
    clear -Ev Hok1'. rewrite Ev. unfold push, stk_ok in *. cbn [set_tick m_sp m_stack] in *. destruct (Nat.leb_spec (length (m_stack ma1)) (m_sp ma1)); cbn [set_stack m_stack].
    - replace (m_sp ma1) with (length (m_stack ma1)) by lia. apply nth_error_last.
    - apply nth_error_set_same. exact H. }
  unfold exec in H. rewrite Ho in H.
  assert (Hpop : forall v mb, pop ma = OK (v, mb) -> exists x h1 m1, h_pop h m x h1 m1 /\ stands any h x v /\ stands (free h1 (bad O m1)) h1 x v /\ sim O h1 m1 mb lv).
  { intros v mb E. destruct (pop_ex _ _ _ _ _ _ _ Hs E) as (x & h1 & m1 & Hp). destruct (pop_sim _ _ _ _ _ _ _ _ Hs Hp) as (v' & mb' & E' & Hx & Hs1 & M).
    rewrite E in E'. injection E' as <- <-. exists x, h1, m1. csplit; auto; [eapply stands_any; eauto|eapply stands_ours; eauto]. }
  assert (HpopN : forall n vs mb, popN n ma = OK (vs, mb) -> 0 <= n /\ exists xs h1 m1, h_popN (Z.to_nat n) h m xs h1 m1 /\ Forall2 (stands (free h1 (bad O m1)) h1) xs vs /\ sim O h1 m1 mb lv).
  { intros n vs mb E. destruct (popN_ex _ _ _ _ _ _ _ _ Hs Hok E) as (Hn & xs & h1 & m1 & Hp). split; [exact Hn|].
    destruct (popN_sim _ _ _ _ _ _ _ _ _ Hs Hp) as (v' & mb' & E' & Hx & Hs1 & M & _). rewrite Z2Nat.id in E' by exact Hn.
    rewrite E in E'. injection E' as <- <-. exists xs, h1, m1. csplit; auto. eapply stands_all_ours; eauto. }
  assert (HFilter : o = OpFilter \/ o = OpNestFilter -> (let! (v, m1) := pop ma in
      if negb (isNothing v) && cvb W v then OK (set_out m1 (g_append (m_out m1) (m_dot m1))) else OK m1) = OK ma' -> exists h' m', h_exec W p root ord h m h' m').
  { intros Ho' H'. destruct (pop ma) as [[v mb]| | |] eqn:E; try discriminate. destruct (Hpop _ _ eq_refl) as (x & h1 & m1 & Hp & Hx & _ & Hs1).
    destruct (isNothing v) eqn:En; [do 2 eexists; eapply XFilterNo; eauto|]. destruct (cvb W v) eqn:Eb; [|do 2 eexists; eapply XFilterNo; eauto].
    destruct (acc_list _ _ _ _ (acc_out _ _ _ _ _ Hs1)) as (c & Hc & _). destruct (append_ex h1 (h_dot m1) _ _ Hc) as (h2 & s & Ha). do 2 eexists. eapply XFilterYes; eauto. }
  assert (HMember : o = OpMember \/ o = OpSelect -> (let! (sel, m1) := pop ma in
      if isNothing sel then OK (set_out m1 (Some []))
      else
        let! (out, t) := applySelection (m_tick m1) (m_out m1)
                           (fun t v acc => let! g := valsByKey W acc v sel (op_beq o OpSelect) in OK (g, t)) in
        OK (set_tick (set_out m1 out) t)) = OK ma' -> exists h' m', h_exec W p root ord h m h' m').
  { intros Ho' H'. destruct (pop ma) as [[v mb]| | |] eqn:E; try discriminate. destruct (Hpop _ _ eq_refl) as (x & h1 & m1 & Hp & Hx & Hx1 & Hs1). cbn [obind] in H'.
    destruct (isNothing v) eqn:En; [do 2 eexists; eapply XMemberNone; eauto|].
    set (fp := fun (t : nat) (v0 : val) (acc : gslice) => let! g := valsByKey W acc v0 v (op_beq o OpSelect) in OK (E := rerr) (g, t)) in *.
    assert (Hfp : forall t v0 acc, fp t v0 acc = let! g := keys_vals W (op_beq o OpSelect) acc v0 [v] in OK (g, t)).
    { intros t0 v0 acc0. unfold fp. cbn [keys_vals]. rewrite En. destruct (valsByKey W acc0 v0 v (op_beq o OpSelect)); reflexivity. }
    destruct (applySelection (m_tick mb) (m_out mb) fp) as [[g t]| | |] eqn:Ea; try discriminate. rewrite <- (sim_tick_eq _ _ _ _ _ Hs1) in Ea.
    destruct (apply_ex O h1 m1 mb lv _ _ _ _ _ _ Hs1 (keys_call (bad O m1) W (op_beq o OpSelect) [x] [v] fp Hfp) (keys_call_ex (bad O m1) W (op_beq o OpSelect) [x] [v] fp Hfp)
      ltac:(cbn beta; eapply keep_fresh; eauto) Ea) as (h2 & acc & t' & Hap).
    do 2 eexists. eapply XMember; eauto. }
  assert (HNestMember : o = OpNestMember \/ o = OpNestSelect -> (let! (sel, m1) := pop ma in
      if isNothing sel then OK m1
      else
        let! out := valsByKey W (m_out m1) (m_dot m1) sel (op_beq o OpNestSelect) in
        OK (set_out m1 out)) = OK ma' -> exists h' m', h_exec W p root ord h m h' m').
  { intros Ho' H'. destruct (pop ma) as [[v mb]| | |] eqn:E; try discriminate. destruct (Hpop _ _ eq_refl) as (x & h1 & m1 & Hp & Hx & Hx1 & Hs1). cbn [obind] in H'.
    destruct (isNothing v) eqn:En; [do 2 eexists; eapply XNestMemberNone; eauto|].
    destruct (valsByKey W (m_out mb) (m_dot mb) v (op_beq o OpNestSelect)) as [g| | |] eqn:Ek; try discriminate.
    destruct (keys_ex W (op_beq o OpNestSelect) (h_dot m1) [x] h1 (h_out m1) _ (m_out mb) (m_dot mb) [v] g (acc_out _ _ _ _ _ Hs1)) as (h2 & acc & Hk).
    - intros a [Hb _]. eapply bad_lt; eauto.
    - apply stands_out. apply (si_m _ _ _ _ _ Hs1).
    - constructor; [|constructor]. apply stands_out. exact Hx1.
    - cbn [keys_vals]. rewrite En, Ek. reflexivity.
    - do 2 eexists. eapply XNestMember; eauto. }
  destruct o; try discriminate Hq; try discriminate Hl; try discriminate H; try (apply HFilter; [auto|exact H]); try (apply HMember; [auto|exact H]); try (apply HNestMember; [auto|exact H]).
  - (* OpUnion *)
    destruct (popN (order_small_int ord) ma) as [[vs mb]| | |] eqn:E; try discriminate. destruct (HpopN _ _ _ E) as (Hn & xs & h1 & m1 & Hp & Hx & Hs1). cbn [obind] in H.
    set (fp := fun (t : nat) (v0 : val) (acc : gslice) => let! g := unionVals W acc v0 vs in OK (E := rerr) (g, t)) in *.
    assert (Hfp : forall t v0 acc, fp t v0 acc = let! g := keys_vals W true acc v0 vs in OK (g, t)) by (intros; unfold fp; rewrite union_keys; reflexivity).
    destruct (applySelection (m_tick mb) (m_out mb) fp) as [[g t]| | |] eqn:Ea; try discriminate. rewrite <- (sim_tick_eq _ _ _ _ _ Hs1) in Ea.
    destruct (apply_ex O h1 m1 mb lv _ _ _ _ _ _ Hs1 (keys_call (bad O m1) W true xs vs fp Hfp) (keys_call_ex (bad O m1) W true xs vs fp Hfp)
      ltac:(cbn beta; eapply keep_fresh; eauto) Ea) as (h2 & acc & t' & Hap).
    do 2 eexists. eapply XUnion; eauto.
  - (* OpWild *)
    destruct (applySelection (m_tick ma) (m_out ma) (fun t v acc => OK (valsWild W t acc v))) as [[g t]| | |] eqn:Ea; try discriminate.
    rewrite <- (sim_tick_eq _ _ _ _ _ Hs) in Ea.
    destruct (apply_ex O h m ma lv _ _ _ _ _ _ Hs (wild_call (bad O m) W) (wild_call_ex _ W _) I Ea) as (h1 & acc & t' & Hap). do 2 eexists. eapply XWild; eauto.
  - (* OpNestUnion *)
    destruct (popN (order_small_int ord) ma) as [[vs mb]| | |] eqn:E; try discriminate. destruct (HpopN _ _ _ E) as (Hn & xs & h1 & m1 & Hp & Hx & Hs1). cbn [obind] in H.
    destruct (unionVals W (m_out mb) (m_dot mb) vs) as [g| | |] eqn:Ek; try discriminate. rewrite union_keys in Ek.
    destruct (keys_ex W true (h_dot m1) xs h1 (h_out m1) _ (m_out mb) (m_dot mb) vs g (acc_out _ _ _ _ _ Hs1)) as (h2 & acc & Hk).
    + intros a [Hb _]. eapply bad_lt; eauto.
    + apply stands_out. apply (si_m _ _ _ _ _ Hs1).
    + eapply Forall2_impl_both; [exact Hx|]. intros y w _ _ Hy. apply stands_out. exact Hy.
    + exact Ek.
    + do 2 eexists. eapply XNestUnion; eauto.
  - (* OpNestWild *)
    destruct (wild_ex W (h_tick m) (h_dot m) h (h_out m) _ (m_out ma) (m_dot ma) (acc_out _ _ _ _ _ Hs)) as (h1 & acc & t & Hw); [apply stands_out, Hma|].
    do 2 eexists. eapply XNestWild; eauto.
  - (* OpArray *)
    destruct (popN (order_small_int ord) ma) as [[vs mb]| | |] eqn:E; try discriminate. destruct (HpopN _ _ _ E) as (Hn & xs & h1 & m1 & Hp & Hx & Hs1).
    destruct (push_ex _ _ _ _ _ (HArr (mkSl (length h) 0 (length xs) (length xs))) Hs1) as (h2 & m2 & Hpu). do 2 eexists. eapply XArray; eauto.
Qed.

Lemma fails_ex : forall W p root ord h m O ma lv rv e, sim O h m ma lv -> stk_ok ma -> stands (free h (bad O m)) h root rv ->
  exec W p rv ord ma = Fail e -> exists h' m', h_fails W p root ord h m e h' m'.
Proof.
  intros W p root ord h m O ma lv rv e Hs Hok Hroot H. pose proof (stands_m_any _ _ _ _ (si_m _ _ _ _ _ Hs)) as Hma.
  destruct (op_of_num (order_op ord)) as [o|] eqn:Ho.
  - destruct (quiet o) as [k|] eqn:Hq.
    + destruct (quiet_takes W p rv ord o k ma Ho Hq) as (vs & ma1 & Ht); [congruence|].
      destruct (takes_ex _ _ _ _ _ _ _ _ _ Hs Hok (quiet_kinds _ _ Hq) Ht) as (xs & h1 & m1 & Hh). do 2 eexists. eapply FQuiet; eauto using stands_any.
    + do 2 eexists. eapply FOther; eauto using stands_any. rewrite Ho. exact Hq.
  - do 2 eexists. eapply FOther; eauto using stands_any. rewrite Ho. exact I.
Qed.

(** ** The machine *)
Lemma top_ex : forall O h m ma i r, sim O h m ma (chans (i :: r)) -> top_chan h m = Some i.
Proof.
  intros O h m ma i r Hs. pose proof (si_vals _ _ _ _ _ Hs) as Hv. pose proof (vals_len _ _ _ _ _ Hs) as Hl. unfold top_chan. destruct (h_vals m) as [s|]; [|cbn in Hl; discriminate].
  unfold elems in Hv. unfold load. rewrite Hv. cbn [len_of] in Hl. rewrite Hl. unfold chans. cbn [rev length]. rewrite map_app. replace (S (length r) - 1)%nat with (length (map HChan (rev r))) by (rewrite map_length, rev_length; lia).
  rewrite nth_error_app2 by lia. rewrite Nat.sub_diag. reflexivity.
Qed.

Lemma Forall2_nth_r : forall A B (R : A -> B -> Prop) l l' i b, Forall2 R l l' -> nth_error l' i = Some b -> exists a, nth_error l i = Some a /\ R a b.
Proof.
  intros A B R l l' i b H. revert i. induction H as [|x y l l' Hxy H IH]; intros [|i] Hi; try discriminate; [injection Hi as <-; exists x; auto|apply IH; exact Hi].
Qed.

Lemma loop_ex : forall O h m ma lv s x, sim O h m ma lv -> h_out m = Some s -> exists h1 vs l, h_append h x (h_vals m) h1 vs /\ stands_list any h1 s l.
Proof.
  intros O h m ma lv s x Hs Eo. destruct (append_ex h x (h_vals m) _ (si_vals _ _ _ _ _ Hs)) as (h1 & vs & Ha). destruct (append_ok _ _ _ _ _ _ Ha (si_vals _ _ _ _ _ Hs)) as [_ (M1 & M2 & M3)].
  pose proof (st_out _ _ _ _ (si_m _ _ _ _ _ Hs)) as Hout. rewrite Eo in Hout. destruct (m_out ma) as [l|]; [|contradiction]. destruct Hout as (c & Hc & Hf).
  exists h1, vs, l. split; [exact Ha|]. exists c. split.
  - rewrite (cells_same h h1 s); [exact Hc|]. apply M2; [eapply cells_bound; eauto|]. intro Hin. pose proof (si_nd _ _ _ _ _ Hs) as Nd. unfold mine in Nd. rewrite Eo in Nd.
    cbn [addr_of app] in Nd. apply NoDup_cons_iff in Nd as [Nd _]. apply Nd. apply in_or_app. right. exact Hin.
  - eapply Forall2_impl_both; [exact Hf|]. intros y w _ _ Hy. eapply stands_move; [|exact Hy]. intros a [Ha1 Ha2]. split; [exact I|]. apply M2; [exact Ha1|]. intro Hin. apply Ha2. right.
    unfold mine. rewrite !in_app_iff. auto.
Qed.

Lemma main_ex : forall W p root rv O h e c c', thr O h root rv e c -> stk_ok (c_m c) -> main_step W p rv c = Some c' -> c_mode c' <> CDone OutOfFuel ->
  exists h' e', h_main W p root h (g_m e) (g_prods e) (g_mode e) h' e'.
Proof.
  intros W p root rv O h [m md ps] [ma l cm qs] c' [Tr Tp TO Tm] Hok Hstep Hfuel. cbn [g_m g_mode g_prods c_m c_chans c_mode c_prods] in *. unfold main_step in Hstep. cbn [c_m c_chans c_mode c_prods] in Hstep.
  assert (Hroot : (forall r, md <> GoDone r) -> stands (free h (bad O m)) h root rv).
  { intro Hn. eapply stands_move; [|exact Tr]. intros a [Ha1 Ha2]. split; [|reflexivity]. split; [exact Ha1|]. intro Hb. apply Ha2. apply (held_run O (mkT m md ps) Hn). exact Hb. }
  destruct md as [| |ord|r], cm as [| |ord'|r']; try contradiction; try (destruct r; contradiction); try discriminate Hstep.
  - (* GoRun *)
    specialize (Hroot ltac:(discriminate)). pose proof (si_m _ _ _ _ _ Tm) as Hma. pose proof (st_pc _ _ _ _ Hma) as Hpc. rewrite <- Hpc in Hstep.
    destruct (Z.ltb_spec (h_pc m) (prog_size p)) as [Hlt|Hge].
    2:{ destruct (h_out m) as [s|] eqn:Eo; do 2 eexists; [eapply NEnd|eapply NEndNil]; eauto. }
    destruct (index_Z (p_orders p) (h_pc m)) as [ord|] eqn:Eord; [|do 2 eexists; eapply NNoOrder; eauto].
    injection Hstep as <-. pose proof (sim_pc _ _ _ _ _ (h_pc m + 1) Tm) as Hs. set (ma1 := set_pc ma (h_pc m + 1)) in *.
    assert (Hroot1 : stands (free h (bad O (h_set_pc m (h_pc m + 1)))) h root rv) by exact Hroot.
    assert (Hok1 : stk_ok ma1) by exact Hok.
    assert (Hloop : forall o, op_of_num (order_op ord) = Some o -> (o = OpFor \/ o = OpNest) -> exists h' e', h_main W p root h m ps GoRun h' e').
    { intros o Ho Ho'. destruct (order_pc ord) as [epc|] eqn:Epc; [|do 2 eexists; eapply NLoopPanics; eauto].
      destruct (Nat.eq_dec (len_of (h_out m)) 0) as [E0|E0]; [do 2 eexists; eapply NLoopEmpty; eauto|].
      destruct (h_out m) as [s|] eqn:Eo; [|cbn in E0; congruence]. cbn [len_of] in E0.
      destruct (loop_ex _ _ _ _ _ s (HChan (length ps)) Tm Eo) as (h1 & vs & l1 & Ha & Hst).
      destruct Ho' as [->| ->]; do 2 eexists; eapply NLoop; eauto; [apply StFor|apply StNest]; exact Hst. }
    destruct (op_of_num (order_op ord)) as [o|] eqn:Ho.
    + destruct (looping o) eqn:El.
      * destruct o; try discriminate El; try (eapply Hloop; eauto; fail).
        destruct (Nat.eq_dec (len_of (h_vals m)) 0) as [E0|E0]; do 2 eexists; [eapply NRepPanics|eapply NRep]; eauto.
      * assert (Hl : match op_of_num (order_op ord) with Some o => looping o = false | None => True end) by (rewrite Ho; exact El).
        rewrite c_exec_plain in Hfuel by exact Hl. cbn [c_m] in Hfuel. destruct (exec W p rv ord ma1) as [ma'|x| |] eqn:E.
        -- destruct (exec_ex _ _ root _ _ _ _ _ _ _ _ Hs Hok1 Hroot1 Hl E) as (h' & m' & Hx). do 2 eexists. eapply NExec; eauto.
        -- destruct (fails_ex _ _ root _ _ _ _ _ _ _ _ Hs Hok1 Hroot1 E) as (h' & m' & Hx). do 2 eexists. eapply NFails; eauto.
        -- do 2 eexists. eapply NPanics; eauto using stands_any; [|eapply stands_m_any; exact (si_m _ _ _ _ _ Hs)]. destruct o; try discriminate El; csplit; discriminate.
        -- contradiction Hfuel. reflexivity.
    + assert (E : exists x, exec W p rv ord ma1 = Fail x) by (unfold exec; rewrite Ho; eauto). destruct E as (x & E).
      destruct (fails_ex _ _ root _ _ _ _ _ _ _ _ Hs Hok1 Hroot1 E) as (h' & m' & Hx). do 2 eexists. eapply NFails; eauto.
  - (* GoFirst *)
    destruct l as [|i r]; [discriminate|]. pose proof (top_ex _ _ _ _ _ _ Tm) as Ht. destruct (nth_error qs i) as [q|] eqn:Eq; [|discriminate].
    destruct (Forall2_nth_r _ _ _ _ _ _ _ Tp Eq) as (g & Hg & Hgq). destruct Hgq as [k k' Hk|x v k k' Hx Hk|]; [discriminate| |]; do 2 eexists; [eapply NFirst|eapply NFirstNone]; eauto.
  - (* GoRep *)
    destruct Tm as [<- Tm]. destruct l as [|i r]; [discriminate|]. pose proof (top_ex _ _ _ _ _ _ Tm) as Ht. destruct (nth_error qs i) as [q|] eqn:Eq; [|discriminate].
    destruct (Forall2_nth_r _ _ _ _ _ _ _ Tp Eq) as (g & Hg & Hgq). destruct Hgq as [k k' Hk|x v k k' Hx Hk|]; [discriminate| |].
    + destruct (order_pc ord) as [pc|] eqn:Epc; do 2 eexists; [eapply NNext|eapply NNextPanics]; eauto.
    + unfold top_chan in Ht. destruct (h_vals m) as [s|] eqn:Ev; [|discriminate]. do 2 eexists. eapply NLast; eauto. unfold top_chan. rewrite Ev. exact Ht.
Qed.

(** ** Producers *)
Lemma upto_more : forall P h s i v vs, upto P h s i (v :: vs) -> exists x, load h s i = Some x /\ stands P h x v.
Proof.
  intros P h s i v vs (_ & c & Hc & Hf). unfold load. rewrite Hc. inversion Hf as [|x ? l' ? Hx Hr E1 E2]; subst. exists x. split; [|exact Hx].
  rewrite <- (firstn_skipn i c), <- E1. assert (length (firstn i c) = i). { rewrite firstn_length. apply (f_equal (@length _)) in E1. cbn [length] in E1. rewrite skipn_length in E1. lia. }
  rewrite nth_error_app2 by lia. rewrite H, Nat.sub_diag. reflexivity.
Qed.

Lemma upto_stop : forall P h s i, upto P h s i [] -> (s_len s <= i)%nat.
Proof.
  intros P h s i (_ & c & Hc & Hf). inversion Hf as [E1|]. apply (f_equal (@length _)) in E1. rewrite skipn_length in E1. rewrite (cells_length _ _ _ Hc) in E1. cbn in E1. lia.
Qed.

Lemma entries_more : forall P h m ks v vs, entries P h m ks (v :: vs) -> exists x r y, ks = x :: r /\ option_map snd (nth_error m x) = Some y /\ stands P h y v.
Proof.
  intros P h m ks v vs H. inversion H as [|x ? r ? (y & Hy & Hs) Hr]; subst. exists x, r, y. rewrite nth_error_map in Hy. auto.
Qed.

Lemma prod_ex : forall W h P g q q', stands_prod P h g q -> prod_step W q = Some q' -> exists g', g_step W h g g'.
Proof.
  intros W h P g q q' Hg Hq. destruct Hg as [k k' Hk|x v k k' Hx Hk|]; try discriminate Hq. destruct Hk as [|f f' k k' Hf Hk]; [eexists; constructor|].
  destruct Hf as [s i ts vs Hu Hl|a ks ts m vs Hp Hb He Hl|t x v Hx|t s i vs Hu|s i vs Hu|a ks m vs Hp Hb He].
  - destruct vs as [|v vs]; [eexists; apply GsEachEnd; eapply upto_stop; eauto|]. destruct (upto_more _ _ _ _ _ _ Hu) as (x & Hx & _). destruct ts as [|t ts]; [discriminate|].
    destruct (is_ref x) eqn:Er; eexists; [eapply GsEachPut|eapply GsEachSkip]; eauto.
  - destruct vs as [|v vs]; [inversion He; subst; eexists; apply GsMapEnd|]. destruct (entries_more _ _ _ _ _ _ He) as (x & r & y & -> & Hy & _). destruct ts as [|t ts]; [discriminate|].
    destruct (is_ref y) eqn:Er; eexists; [eapply GsMapPut|eapply GsMapSkip]; eauto.
  - destruct Hx as [v Hv|s l vs Hp Hc Hf|a m vs Hp Hm Hf].
    + eexists. apply GsBodyOther. reflexivity.
    + eexists. eapply GsBodyArr. exists l. split; [exact Hc|]. eapply Forall2_impl_both; [exact Hf|]. intros. eapply stands_any; eauto.
    + eexists. eapply (GsBodyMap W h t a m (map snd vs)); [exact Hm|]. eapply Forall2_impl_both; [eapply obj_entries; exact Hf|]. intros. eapply stands_any; eauto.
  - destruct vs as [|v vs]; [eexists; apply GsStepEnd; eapply upto_stop; eauto|]. destruct (upto_more _ _ _ _ _ _ Hu) as (x & Hx & Hs).
    destruct Hs as [v Hv|s' l vs' Hp Hc Hf|a m vs' Hp Hm Hf]; eexists; [eapply GsStepSkip|eapply GsStepArr|eapply GsStepMap]; eauto.
  - destruct vs as [|v vs]; [eexists; apply GsSendEnd; eapply upto_stop; eauto|]. destruct (upto_more _ _ _ _ _ _ Hu) as (x & Hx & Hs). eexists. eapply GsSendPut; eauto.
  - destruct vs as [|v vs]; [inversion He; subst; eexists; apply GsSendMEnd|]. destruct (entries_more _ _ _ _ _ _ He) as (x & r & y & -> & Hy & _). eexists. eapply GsSendMPut; eauto.
Qed.

(** ** The stack of the machine *)
Lemma exec_stk : forall W p root ord m m', stk_ok m -> (match op_of_num (order_op ord) with Some o => looping o = false | None => True end) -> exec W p root ord m = OK m' -> stk_ok m'.
Proof.
  intros W p root ord m m' Hok Hl H. destruct (op_of_num (order_op ord)) as [o|] eqn:Ho; [|unfold exec in H; rewrite Ho in H; discriminate].
  destruct (quiet o) as [k|] eqn:Hq.
  { destruct (quiet_takes W p root ord o k m Ho Hq) as (vs & m1 & Ht); [congruence|]. destruct (quiet_exec W p root ord o k m m' vs m1 Ho Hq H Ht) as (v & ->).
    apply push_eff. change (stk_ok m1). clear -Hok Ht Hq. destruct (quiet_kinds _ _ Hq) as [->|[->|[->| ->]]]; cbn [takes] in Ht.
    - eapply popN_eff; eauto.
    - injection Ht as <- <-. exact Hok.
    - destruct (pop m) as [[a mb]| | |] eqn:E; try discriminate. injection Ht as <- <-. eapply pop_eff; eauto.
    - destruct (pop m) as [[a mb]| | |] eqn:E; try discriminate. cbn [obind] in Ht. apply pop_eff in E; [|exact Hok]. destruct E as (E & _).
      destruct (pop mb) as [[a2 mc]| | |] eqn:E2; try discriminate. injection Ht as <- <-. eapply pop_eff; eauto. }
  unfold exec in H. rewrite Ho in H.
  assert (P1 : forall v mb, pop m = OK (v, mb) -> stk_ok mb) by (intros; eapply pop_eff; eauto).
  assert (P2 : forall n v mb, popN n m = OK (v, mb) -> stk_ok mb) by (intros; eapply popN_eff; eauto).
  destruct o; try discriminate Hq; try discriminate Hl; try discriminate H;
    repeat match type of H with
    | obind ?r _ = OK _ => destruct r as [[]| | |] eqn:?E; try discriminate H; cbn [obind] in H
    | obind ?r _ = OK _ => destruct r as [?| | |] eqn:?E; try discriminate H; cbn [obind] in H
    | (let (_, _) := ?r in _) = OK _ => destruct r eqn:?E
    | (if ?b then _ else _) = OK _ => destruct b
    end; injection H as <-;
    try (match goal with |- stk_ok (push _ _) => apply push_eff end);
    try (match goal with |- stk_ok (set_out ?x _) => change (stk_ok x) | |- stk_ok (set_dot ?x _) => change (stk_ok x)
         | |- stk_ok (set_tick (set_out ?x _) _) => change (stk_ok x) end); eauto using pop_eff.
Qed.

Lemma sched_stk : forall W p root t c, scheduled W p root t c -> stk_ok (c_m c).
Proof.
  intros W p root t c H. induction H as [|c c' H IH Hs]; [unfold stk_ok; cbn; lia|]. destruct Hs as [c c' Hs|c i q q' Hq Hs]; [|exact IH].
  unfold main_step in Hs. destruct (c_mode c) as [| |ord|r]; try discriminate.
  - injection Hs as <-. destruct (_ <? _); [|exact IH]. destruct (index_Z _ _) as [ord|]; [|exact IH].
    assert (IH1 : stk_ok (set_pc (c_m c) (m_pc (c_m c) + 1))) by exact IH.
    assert (Hb : forall pc c0, stk_ok (c_m c0) -> stk_ok (c_m (after c0 (branch p pc (c_m c0))))) by (intros pc c0 H0; unfold branch; destruct (_ || _); exact H0).
    destruct (op_of_num (order_op ord)) as [o|] eqn:Ho; [destruct (looping o) eqn:El|].
    + unfold c_exec. rewrite Ho. destruct o; try discriminate El.
      * destruct (order_pc ord); [|exact IH]. unfold c_looptop. destruct (g_list _); [apply Hb; exact IH1|]. destruct (start _ _ _). exact IH.
      * destruct (order_pc ord); [|exact IH]. unfold c_looptop. destruct (g_list _); [apply Hb; exact IH1|]. destruct (start _ _ _). exact IH.
      * cbn [c_chans]. destruct (c_chans c); exact IH.
    + assert (Hl : match op_of_num (order_op ord) with Some o => looping o = false | None => True end) by (rewrite Ho; exact El).
      rewrite c_exec_plain by exact Hl. cbn [c_m]. destruct (exec W p root ord _) eqn:E; [eapply exec_stk; eauto|exact IH|exact IH|exact IH].
    + assert (Hl : match op_of_num (order_op ord) with Some o => looping o = false | None => True end) by (rewrite Ho; exact I).
      rewrite c_exec_plain by exact Hl. cbn [c_m]. destruct (exec W p root ord _) eqn:E; [eapply exec_stk; eauto|exact IH|exact IH|exact IH].
  - destruct (c_chans c) as [|i r]; [discriminate|]. destruct (nth_error (c_prods c) i) as [[]|]; try discriminate; injection Hs as <-; exact IH.
  - destruct (c_chans c) as [|i r]; [discriminate|]. destruct (nth_error (c_prods c) i) as [[]|]; try discriminate; injection Hs as <-; [|exact IH].
    destruct (order_pc ord); [|exact IH]. unfold branch. destruct (_ || _); exact IH.
Qed.

(** ** Any number of evaluations *)
Lemma step_ex : forall y j e c c', sys_ok y -> nth_error (y_evals y) j = Some e -> ev_ok y j e c -> cstep (e_world e) (e_prog e) (e_val e) c c' -> c_mode c' <> CDone OutOfFuel ->
  exists y', sstep y y' /\ only j y y' /\ (length (y_evals y') = length (y_evals y)) /\
    exists e' c'', nth_error (y_evals y') j = Some e' /\ e' = with_st e (e_st e') /\ ev_ok y' j e' c'' /\ cstep (e_world e) (e_prog e) (e_val e) c c''.
Proof.
  intros [h es] j e c c' Hok Hj (Hs & Ht & Hp) Hc Hf. cbn [y_heap y_evals] in *.
  assert (Hset : forall st h', only j (mkS h es) (mkS h' (set_nth j (with_st e st) es)) /\ length (set_nth j (with_st e st) es) = length es /\
    nth_error (set_nth j (with_st e st) es) j = Some (with_st e st)).
  { intros st h'. split; [|split].
    - intros k Hk. cbn [y_evals]. rewrite nth_error_set_nth. destruct (Nat.eqb_spec j k); [congruence|reflexivity].
    - apply set_nth_len.
    - apply nth_error_set_same. apply nth_error_Some. congruence. }
  destruct Hc as [c c' Hc|c i q q' Hq Hc].
  - destruct (main_ex _ _ _ _ _ _ _ _ _ Ht (sched_stk _ _ _ _ _ Hs) Hc Hf) as (h' & st & Hm). destruct (Hset st h') as (H1 & H2 & H3).
    exists (mkS h' (set_nth j (with_st e st) es)). assert (Hst : sstep (mkS h es) (mkS h' (set_nth j (with_st e st) es))) by (eapply YMain; eauto).
    split; [exact Hst|]. split; [exact H1|]. split; [exact H2|]. destruct (ok_step _ _ Hok Hst _ _ H3) as (c2 & Hc2).
    destruct (main_sim _ _ _ _ _ _ _ _ _ _ Ht Hm) as (c3 & Hc3 & Ht3 & M1 & M2 & _). exists (with_st e st), c3. split; [exact H3|]. split; [reflexivity|]. split; [|constructor; exact Hc3].
    destruct Hc2 as (_ & _ & Hp2). split; [eapply SdStep; [exact Hs|constructor; exact Hc3]|]. split; [|exact Hp2]. cbn [y_heap y_evals with_st e_st e_root e_val].
    eapply thr_same_O; [|exact Ht3]. intro a. apply others_self. exact Hj.
  - destruct (Forall2_nth_r _ _ _ _ _ _ _ (th_prods _ _ _ _ _ _ Ht) Hq) as (g & Hg & Hgq). destruct (prod_ex _ _ _ _ _ _ Hgq Hc) as (g' & Hst').
    set (st := mkT (g_m (e_st e)) (g_mode (e_st e)) (set_nth i g' (g_prods (e_st e)))). destruct (Hset st h) as (H1 & H2 & H3).
    exists (mkS h (set_nth j (with_st e st) es)). assert (Hst : sstep (mkS h es) (mkS h (set_nth j (with_st e st) es))) by (eapply YProd; eauto).
    split; [exact Hst|]. split; [exact H1|]. split; [exact H2|].
    destruct (step_sim _ _ _ _ Hst' _ _ Hgq) as (q2 & Hq2 & Hgq2). rewrite Hc in Hq2. injection Hq2 as <-.
    exists (with_st e st), (mkC (c_m c) (c_chans c) (c_mode c) (set_nth i q' (c_prods c))). split; [exact H3|]. split; [reflexivity|].
    assert (Hcs : cstep (e_world e) (e_prog e) (e_val e) c (mkC (c_m c) (c_chans c) (c_mode c) (set_nth i q' (c_prods c)))) by (eapply CProd; eauto). split; [|exact Hcs].
    split; [eapply SdStep; eauto|]. split; [|exact Hp]. cbn [y_heap y_evals with_st e_st e_root e_val].
    eapply thr_same_O; [intro a; apply others_self; exact Hj|].
    destruct Ht as [T1 T2 T3 T4]. constructor; cbn [g_prods c_prods g_mode c_mode g_m c_m c_chans]; auto. apply Forall2_set_nth; [exact T2|exact Hgq2].
Qed.

(** only evaluation [j] takes steps *)
Inductive later_of (j : nat) : sys -> sys -> Prop :=
| LoHere : forall y, later_of j y y
| LoStep : forall y y1 y2, sstep y y1 -> only j y y1 -> later_of j y1 y2 -> later_of j y y2.

Lemma later_of_later : forall j y y', later_of j y y' -> later y y'.
Proof. intros j y y' H. induction H; [constructor|econstructor; eauto]. Qed.

Lemma later_of_reach : forall j y y', later_of j y y' -> reachable y -> reachable y'.
Proof. intros j y y' H Hr. apply later_of_later in H. eapply reach_later; eauto. Qed.

Lemma eval_completes : forall TX s ss jp, accepted TX s ss jp -> fits jp -> forall W t v, orders_ok W -> doc v ->
  forall c, scheduled W (jp_prog jp) v t c -> forall y j e, reachable y -> nth_error (y_evals y) j = Some e -> e_world e = W -> e_prog e = jp_prog jp -> e_val e = v ->
  ev_ok y j e c -> exists y' r, later_of j y y' /\ returned y' j r.
Proof.
  intros TX s ss jp Ha Hf W t v HW Hd c Hc. pose proof (sched_ends _ _ _ _ Ha Hf _ _ _ HW Hd _ Hc) as Hacc. revert Hc.
  induction Hacc as [c _ IH]. intros Hc y j e Hr Hj EW Ep Ev Hev.
  assert (D : (exists r, g_mode (e_st e) = GoDone r) \/ forall r, c_mode c <> CDone r).
  { destruct Hev as (_ & [_ _ _ Hm] & _). destruct (g_mode (e_st e)); eauto; right; intros r Er; rewrite Er in Hm; contradiction. }
  destruct D as [(r & Er)|Hn]; [exists y, r; split; [constructor|exists e; auto]|].
  destruct (sched_progress _ _ _ _ _ HW Hc Hn) as (c' & Hs).
  assert (Hfu : c_mode c' <> CDone OutOfFuel).
  { intro E. assert (Hc' : scheduled W (jp_prog jp) v t c') by (eapply SdStep; eauto). destruct (text_sched_result _ _ _ _ Ha Hf _ _ _ HW Hd _ _ Hc' E) as [H _]. apply H. reflexivity. }
  rewrite <- EW, <- Ep, <- Ev in Hs.
  destruct (step_ex _ _ _ _ _ (ok_reachable _ Hr) Hj Hev Hs Hfu) as (y1 & H1 & H2 & H3 & e1 & c1 & Hj1 & E1 & Hev1 & Hs1). rewrite EW, Ep, Ev in Hs1.
  destruct (IH c1 Hs1 ltac:(eapply SdStep; eauto) y1 j e1) as (y2 & r & Hl & Hd2); auto; try (rewrite E1; assumption).
  - econstructor; eauto.
  - exists y2, r. split; [econstructor; eauto|exact Hd2].
Qed.

Lemma completes : forall TX s ss jp, accepted TX s ss jp -> fits jp -> forall W t v, orders_ok W -> doc v ->
  forall y j root, reachable y -> called y j W t jp root v -> exists y' r, later_of j y y' /\ returned y' j r.
Proof.
  intros TX s ss jp Ha Hf W t v HW Hd y j root Hr (e & Hj & EW & Et & Ep & _ & Ev). destruct (ok_reachable _ Hr _ _ Hj) as (c & Hev).
  assert (Hc : scheduled W (jp_prog jp) v t c) by (rewrite <- EW, <- Et, <- Ep, <- Ev; exact (proj1 Hev)). eapply (eval_completes _ _ _ _ Ha Hf _ _ _ HW Hd c Hc); eauto.
Qed.

Lemma later_only : forall j y y', later_of j y y' -> only j y y'.
Proof. intros j y y' H. induction H as [|y y1 y2 _ Ho _ IH]; intros k Hk; [reflexivity|]. rewrite IH by exact Hk. apply Ho. exact Hk. Qed.

(** what [completes] says, without [later_of] *)
Lemma completes_alone : forall TX s ss jp, accepted TX s ss jp -> fits jp -> forall W t v, orders_ok W -> doc v ->
  forall y j root, reachable y -> called y j W t jp root v -> exists y' r, later y y' /\ only j y y' /\ returned y' j r.
Proof.
  intros TX s ss jp Ha Hf W t v HW Hd y j root Hr Hc. destruct (completes _ _ _ _ Ha Hf _ _ _ HW Hd _ _ _ Hr Hc) as (y' & r & H & Hd').
  exists y', r. split; [eapply later_of_later; eauto|]. split; [eapply later_only; eauto|exact Hd'].
Qed.

(** ** Same call, same result *)
Lemma same_result : forall y1 j1 y2 j2 W t jp root1 root2 v s1 s2, reachable y1 -> reachable y2 -> orders_ok W ->
  called y1 j1 W t jp root1 v -> called y2 j2 W t jp root2 v -> returned y1 j1 (ROk s1) -> returned y2 j2 (ROk s2) ->
  exists l, stands_list (frozen y1) (y_heap y1) s1 l /\ stands_list (frozen y2) (y_heap y2) s2 l.
Proof.
  intros y1 j1 y2 j2 W t jp root1 root2 v s1 s2 H1 H2 HW C1 C2 R1 R2. destruct (result _ _ _ _ _ _ _ _ H1 C1 HW R1) as (l1 & E1 & _ & S1).
  destruct (result _ _ _ _ _ _ _ _ H2 C2 HW R2) as (l2 & E2 & _ & S2). pose proof (eval_unique _ _ _ _ _ _ E1 E2) as E. injection E as <-. eauto.
Qed.

(** ** No run of evaluations goes on for ever *)
Definition one {A} (n : nat) (R : nat -> A -> A -> Prop) (f' f : nat -> A) : Prop :=
  exists j, (j < n)%nat /\ R j (f' j) (f j) /\ forall k, k <> j -> f' k = f k.

Lemma one_acc : forall {A} (R : nat -> A -> A -> Prop) n f, (forall j, (j < n)%nat -> Acc (R j) (f j)) -> Acc (one n R) f.
Proof.
  intros A R n. induction n as [|n IH]; intros f Hf; [constructor; intros f' (j & Hj & _); lia|].
  assert (K : forall x, Acc (R n) x -> forall f, f n = x -> (forall j, (j < n)%nat -> Acc (R j) (f j)) -> Acc (one (S n) R) f); [|apply (K (f n)); auto].
  clear f Hf. intros x Hx. induction Hx as [x _ IHx]. intros f Ex Hf. pose proof (IH f Hf) as Ha. revert Ex Hf. induction Ha as [f _ IHf]. intros Ex Hf.
  constructor. intros f' (j & Hj & Hr & Hk). destruct (Nat.eq_dec j n) as [->|Hn].
  - apply (IHx (f' n)); [rewrite <- Ex; exact Hr|reflexivity|]. intros i Hi. rewrite Hk by lia. auto.
  - assert (Hj' : (j < n)%nat) by lia. apply IHf; [exists j; auto|rewrite Hk by lia; exact Ex|]. intros i Hi. destruct (Nat.eq_dec i j) as [->|Hij]; [|rewrite Hk by exact Hij; auto].
    eapply Acc_inv; [apply Hf; exact Hj'|exact Hr].
Qed.

Definition good (y : sys) (cs : nat -> cstate) : Prop := forall j e, nth_error (y_evals y) j = Some e -> ev_ok y j e (cs j).

Lemma good_ex : forall y, sys_ok y -> exists cs, good y cs.
Proof.
  intros y Hok. assert (K : forall n, (n <= length (y_evals y))%nat -> exists cs, forall j e, (j < n)%nat -> nth_error (y_evals y) j = Some e -> ev_ok y j e (cs j)).
  { induction n as [|n IH]; intro Hn; [exists (fun _ => c_init 0 VNil); intros; lia|]. destruct (IH ltac:(lia)) as (cs & Hcs).
    destruct (nth_error (y_evals y) n) as [e|] eqn:E; [|apply nth_error_None in E; lia]. destruct (Hok _ _ E) as (c & Hc). exists (fun k => if (k =? n)%nat then c else cs k).
    intros j e' Hj Hj'. destruct (Nat.eqb_spec j n) as [->|Hne]; [rewrite E in Hj'; injection Hj' as <-; exact Hc|apply Hcs; [lia|exact Hj']]. }
  destruct (K _ (le_n _)) as (cs & Hcs). exists cs. intros j e Hj. apply Hcs; [apply nth_error_Some; congruence|exact Hj].
Qed.

Lemma works_sstep : forall j y y', works j y y' -> sstep y y'.
Proof. intros j y y' H. destruct H; [eapply YMain|eapply YProd]; eauto. Qed.

Lemma works_good : forall j y y' cs, works j y y' -> good y cs -> exists e c', nth_error (y_evals y) j = Some e /\ cstep (e_world e) (e_prog e) (e_val e) (cs j) c' /\
  good y' (fun k => if (k =? j)%nat then c' else cs k).
Proof.
  intros j y y' cs H Hok. destruct H as [h es e p h' st Hj Hp Hm|h es e i q q' Hj Hq Hg]; unfold good in *; cbn [y_heap y_evals] in *.
  - destruct (Hok _ _ Hj) as (Hs & Ht & Hcode). cbn [y_heap y_evals] in *. rewrite Hp in Hcode. injection Hcode as ->.
    destruct (main_sim _ _ _ _ _ _ _ _ _ _ Ht Hm) as (c' & Hc' & Ht' & M). exists e, c'. split; [exact Hj|]. split; [constructor; exact Hc'|].
    intros k e2 Hk. rewrite nth_error_set_nth in Hk. rewrite (Nat.eqb_sym k j). destruct (Nat.eqb_spec j k) as [<-|Hjk].
    + rewrite Hj in Hk. injection Hk as <-. split; [eapply SdStep; [exact Hs|constructor; exact Hc']|]. cbn [with_st e_world e_prog e_val e_tick0 e_root e_st e_code y_heap y_evals]. split.
      * eapply thr_same_O; [|exact Ht']. intro a. cbn [with_st e_st]. apply others_self. exact Hj.
      * destruct M as (M1 & M2 & _). rewrite M2; [exact Hp|apply nth_error_Some; congruence|]. intro Hin. destruct (bufs_arr _ _ _ _ _ _ _ Ht Hin) as (l & Hl). congruence.
    + destruct (Hok _ _ Hk) as (Hs2 & Ht2 & Hp2). split; [exact Hs2|]. cbn [y_heap y_evals] in *. destruct M as (M1 & M2 & M3). split.
      * eapply thr_other; [exact Ht2|exact M1| |].
        -- intros a Ha Hn. apply M2; [exact Ha|]. intro Hin. apply Hn. exists j, e. auto.
        -- intros a Ha. destruct (others_upd _ _ _ _ _ _ Hj Ha) as [Ho|[_ Hb]].
           ++ split; [apply (th_O _ _ _ _ _ _ Ht2) in Ho; lia|left; exact Ho].
           ++ apply thr_bufs in Ht' as [_ Ht']. split; [apply (Ht' _ Hb)|]. destruct (M3 _ Hb) as [Hx|Hx]; [left; exists j, e; auto|right; lia].
      * rewrite M2; [exact Hp2|apply nth_error_Some; congruence|]. intro Hin. destruct (bufs_arr _ _ _ _ _ _ _ Ht Hin) as (l & Hl). congruence.
  - destruct (Hok _ _ Hj) as (Hs & Ht & Hp). cbn [y_heap y_evals] in *. pose proof (th_prods _ _ _ _ _ _ Ht) as Hps.
    destruct (Forall2_nth _ _ _ _ _ _ _ Hps Hq) as (qa & Hqa & Hsp). destruct (step_sim _ _ _ _ Hg _ _ Hsp) as (qa' & Hst & Hsp').
    set (c := cs j) in *. exists e, (mkC (c_m c) (c_chans c) (c_mode c) (set_nth i qa' (c_prods c))). split; [exact Hj|].
    assert (Hcs : cstep (e_world e) (e_prog e) (e_val e) c (mkC (c_m c) (c_chans c) (c_mode c) (set_nth i qa' (c_prods c)))) by (eapply CProd; eauto). split; [exact Hcs|].
    intros k e2 Hk. rewrite nth_error_set_nth in Hk. rewrite (Nat.eqb_sym k j). destruct (Nat.eqb_spec j k) as [<-|Hjk].
    + rewrite Hj in Hk. injection Hk as <-. split; [eapply SdStep; eauto|]. cbn [with_st e_world e_prog e_val e_tick0 e_root e_st e_code y_heap y_evals]. split; [|exact Hp].
      eapply thr_same_O; [intro a; cbn [with_st e_st]; apply others_self; exact Hj|].
      destruct Ht as [T1 T2 T3 T4]. constructor; cbn [g_prods c_prods g_mode c_mode g_m c_m c_chans]; auto.
      apply Forall2_set_nth; [exact Hps|exact Hsp'].
    + destruct (Hok _ _ Hk) as (Hs2 & Ht2 & Hp2). split; [exact Hs2|]. split; [|exact Hp2]. cbn [y_heap y_evals] in *.
      eapply thr_same_O; [|exact Ht2]. intro a. split.
      * intro Ha. destruct (others_upd _ _ _ _ _ _ Hj Ha) as [Ho|[_ Hb]]; [exact Ho|]. exists j, e. auto.
      * intros (n & e' & Hne & Hn & Ha). destruct (Nat.eq_dec n j) as [->|Hnj].
        -- rewrite Hj in Hn. injection Hn as <-. exists j. eexists. split; [auto|]. split; [rewrite nth_error_set_nth, Nat.eqb_refl, Hj; reflexivity|exact Ha].
        -- exists n, e'. split; [auto|]. split; [|exact Ha]. rewrite nth_error_set_nth. destruct (Nat.eqb_spec j n); [congruence|exact Hn].
Qed.

Lemma works_same : forall j y y' k, works j y y' -> match nth_error (y_evals y) k, nth_error (y_evals y') k with
  | Some e, Some e' => e' = with_st e (e_st e')
  | None, None => True
  | _, _ => False
  end.
Proof.
  intros j y y' k H. assert (Hid : forall e, e = with_st e (e_st e)) by (intros []; reflexivity).
  destruct H as [h es e p h' st Hj Hp Hm|h es e i q q' Hj Hq Hg]; cbn [y_evals]; rewrite nth_error_set_nth; destruct (Nat.eqb_spec j k) as [<-|Hk];
    try (rewrite Hj; reflexivity); destruct (nth_error es k) as [e2|]; auto.
Qed.

Lemma works_len : forall j y y', works j y y' -> length (y_evals y') = length (y_evals y).
Proof. intros j y y' H. destruct H; cbn [y_evals]; apply set_nth_len. Qed.

Lemma works_end : forall y, reachable y -> compiled y -> Acc (fun y' y => exists j, works j y y') y.
Proof.
  intros y Hr Hc. destruct (good_ex _ (ok_reachable _ Hr)) as (cs & Hcs).
  set (R := fun j c' c => match nth_error (y_evals y) j with Some e => cstep (e_world e) (e_prog e) (e_val e) c c' | None => False end).
  assert (Hacc : Acc (one (length (y_evals y)) R) cs).
  { apply one_acc. intros j Hj. unfold R. destruct (nth_error (y_evals y) j) as [e|] eqn:Ej; [|apply nth_error_None in Ej; lia].
    destruct (Hc _ _ Ej) as (TX & s & ss & jp & Ha & Hf & Hp & HW & Hd). destruct (Hcs _ _ Ej) as (Hs & _). rewrite Hp in *. exact (sched_ends _ _ _ _ Ha Hf _ _ _ HW Hd _ Hs). }
  clear Hr Hc.
  assert (K : forall y1, length (y_evals y1) = length (y_evals y) -> (forall k e, nth_error (y_evals y1) k = Some e -> exists e0, nth_error (y_evals y) k = Some e0 /\ e = with_st e0 (e_st e)) ->
    good y1 cs -> Acc (fun y' y => exists j, works j y y') y1).
  { clear Hcs. induction Hacc as [cs _ IH]. intros y1 Hlen Hsame Hg. constructor. intros y2 (j & Hw). destruct (works_good _ _ _ _ Hw Hg) as (e & c' & Hj & Hs & Hg').
    eapply IH; [|rewrite (works_len _ _ _ Hw); exact Hlen| |exact Hg'].
    - exists j. split; [rewrite <- Hlen; apply nth_error_Some; congruence|]. split; [|intros k Hk; apply Nat.eqb_neq in Hk; rewrite Hk; reflexivity].
      rewrite Nat.eqb_refl. unfold R. destruct (Hsame _ _ Hj) as (e0 & -> & E). rewrite E in Hs. exact Hs.
    - intros k e2 Hk. pose proof (works_same _ _ _ k Hw) as Hx. rewrite Hk in Hx. destruct (nth_error (y_evals y1) k) as [e1|] eqn:Ek; [|contradiction].
      destruct (Hsame _ _ Ek) as (e0 & He0 & E). exists e0. split; [exact He0|]. rewrite Hx, E. reflexivity. }
  apply K; auto. intros k e Hk. exists e. split; [exact Hk|]. destruct e; reflexivity.
Qed.

(** ** Calls *)
(** on a new document *)
Lemma call_new : forall y W t jp v, reachable y -> exists y' root, later y y' /\ length (y_evals y') = S (length (y_evals y)) /\ called y' (length (y_evals y)) W t jp root v.
Proof.
  intros [h es] W t jp v Hr. destruct (alloc v h) as (new & root & Hst). set (h1 := (h ++ new) ++ [BProg (jp_prog jp)]).
  assert (H1 : sstep (mkS h es) (mkS h1 es)) by (unfold h1; rewrite <- app_assoc; apply YAlloc).
  assert (Hs1 : stands (frozen (mkS h1 es)) h1 root v).
  { apply stands_bound in Hst. eapply stands_move; [|exact Hst]. intros a [Ha1 Ha2]. split; [|apply nth_error_app1; exact Ha2]. split; cbn [y_heap y_evals]; [unfold h1; rewrite app_length; lia|].
    intro Hin. apply in_flat_map in Hin as (e & Hin & Ha). apply In_nth_error in Hin as (k & Hk). destruct (ok_reachable _ Hr _ _ Hk) as (c & _ & Ht & _).
    apply thr_bufs in Ht as [_ Ht]. specialize (Ht _ Ha). cbn [y_heap] in Ht. lia. }
  assert (Hb : nth_error h1 (length (h ++ new)) = Some (BProg (jp_prog jp))) by apply nth_error_last.
  eexists. exists root. split; [eapply LtStep; [exact H1|eapply LtStep; [apply (YCall h1 es W t _ _ _ _ Hs1 Hb)|apply LtHere]]|]. cbn [y_evals].
  split; [rewrite app_length; cbn; lia|]. eexists. cbn [y_evals]. split; [apply nth_error_last|]. csplit; reflexivity.
Qed.

(** of the same path, on the same document *)
Lemma call_again : forall y j W t jp root v W' t', reachable y -> called y j W t jp root v -> exists y', later y y' /\ length (y_evals y') = S (length (y_evals y)) /\
  called y' (length (y_evals y)) W' t' jp root v /\ exists e e', nth_error (y_evals y') j = Some e /\ nth_error (y_evals y') (length (y_evals y)) = Some e' /\ e_code e' = e_code e.
Proof.
  intros [h es] j W t jp root v W' t' Hr (e & Hj & _ & _ & Hp & <- & <-). cbn [y_evals] in Hj. assert (Hin : In e es) by (eapply nth_error_In; eauto).
  pose proof (document_kept _ _ Hr Hin) as Hs. destruct (program_kept _ _ Hr Hin) as [Hb _]. cbn [y_heap] in *.
  eexists. split; [eapply LtStep; [apply (YCall h es W' t' _ _ _ _ Hs Hb)|apply LtHere]|]. cbn [y_evals]. split; [rewrite app_length; cbn; lia|].
  split; [eexists; cbn [y_evals]; split; [apply nth_error_last|]; csplit; try reflexivity; exact Hp|].
  exists e. eexists. split; [rewrite nth_error_app1; [exact Hj|apply nth_error_Some; congruence]|]. split; [apply nth_error_last|]. reflexivity.
Qed.

Lemma later_trans : forall y1 y2 y3, later y1 y2 -> later y2 y3 -> later y1 y3.
Proof. intros y1 y2 y3 H. induction H; intro H3; [exact H3|econstructor; eauto]. Qed.

Lemma only_called : forall y y' j k W t jp root v, only j y y' -> k <> j -> called y k W t jp root v -> called y' k W t jp root v.
Proof. intros y y' j k W t jp root v Ho Hk (e & Hj & H). exists e. rewrite (Ho _ Hk). auto. Qed.
