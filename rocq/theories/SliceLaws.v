(** Laws of slices. *)
From Verif Require Import Syntax Machine SpecSyntax Eval SpecDoc SpecSelect SpecRun SpecText SpecSem DocProofs Api SliceProofs TextProofs SpecLaws.
Local Open Scope Z_scope.

Lemma subscript_eval : forall TX a s jp W t root r, subscript TX a s jp -> orders_ok W -> doc root ->
  (JP_Eval W t jp root r <-> r = ev_run W root t [mkStep OpSelect [a]]).
Proof. intros TX a s jp W t root r [Ha Hf] HW Hr. exact (text_eval TX s _ jp Ha Hf W t root r HW Hr). Qed.
Lemma subscript_wf : forall TX a s jp, subscript TX a s jp -> wf_sub a.
Proof. intros TX a s jp [Ha _]. pose proof (Forall_inv (text_wf _ _ _ _ Ha)) as H. inversion H. assumption. Qed.

Lemma slice_run : forall TX a b c s jp W t l xs, subscript TX (PSlice (mkSlice (bound_of a) (bound_of b) (bound_of c))) s jp ->
  orders_ok W -> doc (VArr l) -> ~ overflowing (Z.of_nat (length l)) a b c -> picks (SSlice a b c) (VArr l) xs ->
  JP_Eval W t jp (VArr l) (OK xs).
Proof.
  intros TX a b c s jp W t l xs Hs HW Hd Ho Hp. apply (subscript_eval _ _ _ _ W t (VArr l) _ Hs HW Hd).
  unfold ev_run. cbn [ev_path ev_step st_op st_args ev_args ev_arg obind isNothing]. unfold applySelection. cbn [g_list applySelection_loop].
  apply subscript_wf in Hs. inversion Hs as [? Hu|]; subst. inversion Hu as [| | |sl [Ha [Hb Hc]]]; subst. cbn [sl_start sl_end sl_stride] in *.
  assert (B : forall x, wf_obound (bound_of x) -> in_oint64 x).
  { intros [x|] H; [inversion H; assumption|exact I]. }
  destruct (slice_keys W (Some []) l (mkSlice (bound_of a) (bound_of b) (bound_of c)) true a b c) as [(g & ys & -> & Hg & _ & _ & Hy)|[_ H]]; auto.
  - unfold slice_ints. cbn [sl_start sl_end sl_stride]. destruct a, b, c; reflexivity.
  - apply doc_node in Hd. exact Hd.
  - cbn [obind]. rewrite Hg. cbn [g_list app]. f_equal.
    assert (E : forall zs, picks (SSlice a b c) (VArr l) zs -> exists ps, slice_positions (Z.of_nat (length l)) a b c ps /\ Forall2 (elem l) ps zs).
    { intros zs H. inversion H; subst; eauto. discriminate. }
    destruct (E _ Hp) as (ps & P1 & P2). destruct (E _ Hy) as (qs & Q1 & Q2).
    rewrite (positions_fun _ _ _ _ _ _ P1 Q1) in P2. exact (elems_fun _ _ _ _ P2 Q2).
  - contradiction.
Qed.

Lemma section_elems : forall (l : list val) n p, 0 <= p -> p + Z.of_nat n <= Z.of_nat (length l) ->
  Forall2 (elem l) (progression p 1 n) (firstn n (skipn (Z.to_nat p) l)).
Proof.
  intros l n. induction n as [|n IH]; intros p Hp Hn; [constructor|]. rewrite progression_S.
  destruct (nth_error l (Z.to_nat p)) as [x|] eqn:E; [|apply nth_error_None in E; lia].
  assert (S : skipn (Z.to_nat p) l = x :: skipn (Z.to_nat (p + 1)) l).
  { replace (Z.to_nat (p + 1)) with (S (Z.to_nat p)) by lia. clear - E. revert E. generalize (Z.to_nat p) as k. induction l as [|y l IH]; intros [|k] E; try discriminate E.
    - injection E as ->. reflexivity.
    - cbn [skipn]. rewrite (IH k E). reflexivity. }
  rewrite S. cbn [firstn]. constructor; [split; assumption|]. apply IH; lia.
Qed.
Lemma unit_picks : forall a b l, let len := Z.of_nat (length l) in
  picks (SSlice a b None) (VArr l) (section (place len (or_default 0 a)) (place len (or_default len b)) l).
Proof.
  intros a b l len. set (p := place len (or_default 0 a)). set (q := place len (or_default len b)).
  assert (Hp : 0 <= p <= len) by (unfold p, place; lia). assert (Hq : 0 <= q <= len) by (unfold q, place; lia).
  apply PkSlice with (ps := progression p 1 (Z.to_nat (q - p))).
  - assert (F : forall x, clip 0 len (from_end len x) = place len x) by reflexivity.
    apply (SlUp len a b None 1 (Z.to_nat (q - p))); [reflexivity|lia|]. rewrite !F. fold p q. intro k. lia.
  - destruct (Z.le_ge_cases p q).
    + unfold section. apply section_elems; lia.
    + unfold section. replace (Z.to_nat (q - p)) with 0%nat by lia. constructor.
Qed.
Lemma unit_safe : forall len a b, len <= max_int64 -> ~ overflowing len a b None.
Proof.
  intros len a b Hl (ps & i & Hp & Hi). cbn [or_default] in Hi. unfold max_int64 in *. inversion Hp as [s n Hs Hpos from to Hn E|s n Hs Hpos|Hz]; subst; cbn [or_default] in *; try lia; try discriminate.
  destruct n as [|n]; [destruct ps; discriminate E|]. rewrite progression_last in E. apply app_inj_tail in E as [_ E].
  pose proof (proj1 (Hn n) ltac:(lia)). unfold to, clip in *. lia.
Qed.
Lemma eval_section : forall TX a b s jp W t l, let len := Z.of_nat (length l) in
  subscript TX (PSlice (mkSlice (bound_of a) (bound_of b) None)) s jp -> orders_ok W -> doc (VArr l) ->
  JP_Eval W t jp (VArr l) (OK (section (place len (or_default 0 a)) (place len (or_default len b)) l)).
Proof.
  intros TX a b s jp W t l len Hs HW Hd. apply (slice_run TX a b None s jp W t l _ Hs HW Hd); [|apply unit_picks].
  apply unit_safe. apply doc_node in Hd. exact Hd.
Qed.

Lemma skip_skip : forall A (l : list A) n m, skipn (n + m) l = skipn n (skipn m l).
Proof. intros A l n m. revert l. induction m as [|m IH]; intro l; [rewrite Nat.add_0_r; reflexivity|]. destruct l as [|x l]; [rewrite !skipn_nil; reflexivity|].
  rewrite Nat.add_succ_r. apply IH. Qed.
Lemma section_cut : forall A (l : list A) p q r, 0 <= p <= q -> q <= r -> section p q l ++ section q r l = section p r l.
Proof.
  intros A l p q r H1 H2. unfold section. replace (Z.to_nat (r - p)) with (Z.to_nat (q - p) + Z.to_nat (r - q))%nat by lia.
  replace (Z.to_nat q) with (Z.to_nat (q - p) + Z.to_nat p)%nat by lia. rewrite skip_skip.
  generalize (Z.to_nat (q - p)) (Z.to_nat (r - q)) (skipn (Z.to_nat p) l). clear. intros n m l. revert l. induction n as [|n IH]; intro l; [reflexivity|].
  destruct l as [|x l]; [cbn; rewrite firstn_nil; reflexivity|]. cbn [firstn skipn app plus]. f_equal. apply IH.
Qed.
Lemma eval_cut : forall TX a b c s1 jp1 s2 jp2 s3 jp3 W t l, let len := Z.of_nat (length l) in
  subscript TX (PSlice (mkSlice (bound_of a) (Some (BInt b)) None)) s1 jp1 -> subscript TX (PSlice (mkSlice (Some (BInt b)) (bound_of c) None)) s2 jp2 ->
  subscript TX (PSlice (mkSlice (bound_of a) (bound_of c) None)) s3 jp3 -> orders_ok W -> doc (VArr l) ->
  place len (or_default 0 a) <= place len b <= place len (or_default len c) ->
  exists l1 l2, JP_Eval W t jp1 (VArr l) (OK l1) /\ JP_Eval W t jp2 (VArr l) (OK l2) /\ JP_Eval W t jp3 (VArr l) (OK (l1 ++ l2)).
Proof.
  intros TX a b c s1 jp1 s2 jp2 s3 jp3 W t l len H1 H2 H3 HW Hd Hp.
  exists (section (place len (or_default 0 a)) (place len b) l), (section (place len b) (place len (or_default len c)) l).
  split; [apply (eval_section TX a (Some b) s1 jp1 W t l H1 HW Hd)|]. split; [apply (eval_section TX (Some b) c s2 jp2 W t l H2 HW Hd)|].
  rewrite section_cut; [apply (eval_section TX a c s3 jp3 W t l H3 HW Hd)| |lia]. unfold place in *. lia.
Qed.

Lemma index_run : forall TX i s jp W t l, subscript TX (PInt i) s jp -> orders_ok W -> doc (VArr l) ->
  JP_Eval W t jp (VArr l) (OK (match index_Z l (if i <? 0 then i + Z.of_nat (length l) else i) with Some x => [x] | None => [] end)).
Proof.
  intros TX i s jp W t l Hs HW Hd. apply (subscript_eval _ _ _ _ W t (VArr l) _ Hs HW Hd).
  apply subscript_wf in Hs. inversion Hs as [? Hu|]; subst. inversion Hu as [z Hz| | |]; subst.
  unfold ev_run. cbn [ev_path ev_step st_op st_args ev_args ev_arg obind isNothing]. unfold applySelection. cbn [g_list applySelection_loop].
  cbn [valsByKey isInt valByKey]. cbv zeta. cbn [andb]. change (cvi W (VInt64 i)) with i. apply doc_node in Hd. cbn [json_node] in Hd.
  unfold in_int64, min_int64, max_int64 in *. set (len := Z.of_nat (length l)) in *.
  assert (I : (if (0 <=? (if i <? 0 then wrap64 (i + len) else i)) && ((if i <? 0 then wrap64 (i + len) else i) <? len)
               then index_Z l (if i <? 0 then wrap64 (i + len) else i) else None) = index_Z l (if i <? 0 then i + len else i)).
  { destruct (Z.ltb_spec i 0).
    - rewrite wrap64_id by (unfold in_int64, min_int64, max_int64; lia). destruct (Z.leb_spec 0 (i + len)); cbn [andb].
      + destruct (Z.ltb_spec (i + len) len); [reflexivity|lia].
      + unfold index_Z. destruct (Z.ltb_spec (i + len) 0); [reflexivity|lia].
    - destruct (Z.leb_spec 0 i); [|lia]. cbn [andb]. destruct (Z.ltb_spec i len); [reflexivity|].
      unfold index_Z. destruct (Z.ltb_spec i 0); [reflexivity|]. symmetry. apply nth_error_None. lia. }
  rewrite I. clear I. destruct (index_Z l (if i <? 0 then i + len else i)); reflexivity.
Qed.
Lemma firstn_one : forall A (l : list A) k, firstn 1 (skipn k l) = match nth_error l k with Some x => [x] | None => [] end.
Proof. intros A l. induction l as [|x l IH]; intros [|k]; try reflexivity. apply IH. Qed.
Lemma eval_single : forall TX i s1 jp1 s2 jp2 W t l, subscript TX (PInt i) s1 jp1 ->
  subscript TX (PSlice (mkSlice (Some (BInt i)) (Some (BInt (i + 1))) None)) s2 jp2 -> orders_ok W -> doc (VArr l) -> i <> -1 ->
  exists r, JP_Eval W t jp1 (VArr l) (OK r) /\ JP_Eval W t jp2 (VArr l) (OK r).
Proof.
  intros TX i s1 jp1 s2 jp2 W t l H1 H2 HW Hd Hi. eexists. split; [apply (index_run TX i s1 jp1 W t l H1 HW Hd)|].
  pose proof (eval_section TX (Some i) (Some (i + 1)) s2 jp2 W t l H2 HW Hd) as E. cbn [or_default] in E. cbv zeta in E.
  match goal with |- JP_Eval _ _ _ _ (OK ?x) => match type of E with JP_Eval _ _ _ _ (OK ?y) => replace x with y; [exact E|] end end.
  clear - Hi. unfold section, place, index_Z. set (len := Z.of_nat (length l)).
  assert (N : forall k, (length l <= k)%nat -> skipn k l = []) by (intros; apply skipn_all2; assumption).
  destruct (Z.ltb_spec i 0), (Z.ltb_spec (i + 1) 0); try lia.
  - destruct (Z.ltb_spec (i + len) 0).
    + replace (Z.to_nat (_ - _)) with 0%nat by lia. reflexivity.
    + replace (Z.to_nat (_ - _)) with 1%nat by lia. rewrite firstn_one. replace (Z.max 0 (Z.min len (i + len))) with (i + len) by lia. reflexivity.
  - destruct (Z.ltb_spec i 0); [lia|]. destruct (Z.lt_ge_cases i len).
    + replace (Z.to_nat (_ - _)) with 1%nat by lia. rewrite firstn_one. replace (Z.max 0 (Z.min len i)) with i by lia. reflexivity.
    + rewrite N by lia. rewrite firstn_nil. replace (nth_error l (Z.to_nat i)) with (@None val); [reflexivity|]. symmetry. apply nth_error_None. lia.
Qed.

Lemma reverse_elems : forall l, Forall2 (elem l) (progression (Z.of_nat (length l) - 1) (-1) (length l)) (rev l).
Proof.
  intro l. induction l as [|x l IH] using rev_ind; [constructor|]. rewrite rev_app_distr, app_length. cbn [rev app length].
  replace (length l + 1)%nat with (S (length l)) by lia. rewrite progression_S. constructor.
  - split; [lia|]. rewrite nth_error_app2 by lia. replace (_ - _)%nat with 0%nat by lia. reflexivity.
  - replace (Z.of_nat (S (length l)) - 1 + -1) with (Z.of_nat (length l) - 1) by lia.
    assert (G : forall ps ys, Forall2 (elem l) ps ys -> Forall2 (elem (l ++ [x])) ps ys).
    { intros ps ys H. induction H as [|p y ps ys [H1 H2] F IHF]; constructor; auto. split; [exact H1|]. rewrite nth_error_app1; [exact H2|].
      apply nth_error_Some. congruence. }
    apply G. exact IH.
Qed.
Lemma eval_reverse : forall TX s jp W t l, subscript TX (PSlice (mkSlice None None (Some (BInt (-1))))) s jp -> orders_ok W -> doc (VArr l) ->
  JP_Eval W t jp (VArr l) (OK (rev l)).
Proof.
  intros TX s jp W t l Hs HW Hd. apply (slice_run TX None None (Some (-1)) s jp W t l _ Hs HW Hd).
  - apply doc_node in Hd. cbn [json_node] in Hd. intros (ps & i & Hp & Hi). unfold max_int64 in *. cbn [or_default] in Hi.
    inversion Hp as [s0 n Hs0 Hpos|s0 n Hs0 Hpos from to Hn E|Hz]; subst; cbn [or_default] in *; try lia; try discriminate.
    destruct n as [|n]; [destruct ps; discriminate E|]. rewrite progression_last in E. apply app_inj_tail in E as [_ E].
    unfold from, clip, from_end in E. lia.
  - apply PkSlice with (ps := progression (Z.of_nat (length l) - 1) (-1) (length l)); [|apply reverse_elems].
    set (len := Z.of_nat (length l)).
    assert (C : clip (-1) (len - 1) (from_end len (or_default (len - 1) None)) = len - 1).
    { cbn [or_default]. unfold clip, from_end. destruct (Z.ltb_spec (len - 1) 0); lia. }
    rewrite <- C. apply (SlDown len None None (Some (-1)) (-1) (length l)); [reflexivity|lia|]. rewrite C. intro k. unfold len. lia.
Qed.

Lemma eval_stride : forall TX c s jp W t l, subscript TX (PSlice (mkSlice None None (Some (BInt c)))) s jp -> orders_ok W -> doc (VArr l) ->
  0 < c -> Z.of_nat (length l) + c <= max_int64 ->
  exists r, JP_Eval W t jp (VArr l) (OK r) /\ forall k, nth_error r k = nth_error l (k * Z.to_nat c).
Proof.
  intros TX c s jp W t l Hs HW Hd Hc Ho. set (len := Z.of_nat (length l)) in *.
  set (n := count_up 0 len c). pose proof (count_up_spec 0 len c Hc) as Hn. fold n in Hn.
  destruct (progression_elems l 0 c n) as [xs Hx]. { intros k Hk. apply Hn in Hk. fold len. nia. }
  assert (P : slice_positions len None None (Some c) (progression 0 c n)).
  { assert (C0 : clip 0 len (from_end len (or_default 0 None)) = 0) by (cbn [or_default]; unfold clip, from_end; cbn; lia).
    assert (C1 : clip 0 len (from_end len (or_default len None)) = len) by (cbn [or_default]; unfold clip, from_end; destruct (Z.ltb_spec len 0); lia).
    rewrite <- C0. apply (SlUp len None None (Some c) c n); [reflexivity|lia|]. rewrite C0, C1. exact Hn. }
  exists xs. split.
  - apply (slice_run TX None None (Some c) s jp W t l _ Hs HW Hd); [|econstructor; eauto].
    intros (ps & i & Hp & Hi). pose proof (positions_fun _ _ _ _ _ _ P Hp) as E. destruct n as [|m] eqn:En; [destruct ps; discriminate E|].
    rewrite progression_last in E. apply app_inj_tail in E as [_ E]. pose proof (proj1 (Hn m) ltac:(lia)). cbn [or_default] in Hi. lia.
  - intro k. destruct (Nat.lt_ge_cases k n) as [Hk|Hk].
    + assert (Hl : nth_error (progression 0 c n) k = Some (0 + Z.of_nat k * c)).
      { unfold progression. rewrite nth_error_map. rewrite (nth_error_nth' (seq 0 n) 0%nat) by (rewrite seq_length; exact Hk).
        rewrite seq_nth by exact Hk. reflexivity. }
      assert (G : forall ps ys, Forall2 (elem l) ps ys -> forall j i, nth_error ps j = Some i -> nth_error ys j = nth_error l (Z.to_nat i)).
      { intros ps ys F. induction F as [|p y ps ys [H1 H2] F IH]; intros [|j] i E; try discriminate E; [injection E as <-; cbn; congruence|]. cbn. apply IH. exact E. }
      rewrite (G _ _ Hx k _ Hl). f_equal. nia.
    + assert (L : length xs = n). { transitivity (length (progression 0 c n)); [clear - Hx; induction Hx; simpl; congruence|]. unfold progression. rewrite map_length, seq_length. reflexivity. }
      rewrite (proj2 (nth_error_None xs k)) by lia. symmetry. apply nth_error_None.
      assert (~ (k < n)%nat) as Hk' by lia. rewrite Hn in Hk'. unfold len in Hk'. nia.
Qed.
