(** Paths of names, strings and integers select the places that match them. *)
From Coq Require Import Permutation.
From Verif Require Import Base Syntax SpecSyntax Value Machine Parser Api SpecDoc DocProofs SpecSelect SpecRun SpecOp SpecText SpecSem SpecLaws
  SpecOnce SpecReach SpecCost SelectFinal TextProofs SemFinal AddressProofs UnfoldProofs GrowProofs OnceProofs OnceFinal.
Local Open Scope Z_scope.

Lemma value_one : forall v k x, value_at v [k] x -> match v, k with
  | VArr l, AtIndex i => nth_error l i = Some x | VObj m, AtName s => In (s, x) m | _, _ => False end.
Proof. intros v k x H. inversion H as [|l i e a y He Hv|m s e a y He Hv]; subst; inversion Hv; subst; assumption. Qed.

Lemma in_unique : forall (m : list (bytes * val)) k x y, NoDup (map fst m) -> In (k, x) m -> In (k, y) m -> x = y.
Proof.
  induction m as [|[s z] m IH]; intros k x y N Hx Hy; [destruct Hx|]. cbn in N. inversion N as [|? ? N1 N2]; subst.
  destruct Hx as [E|Hx], Hy as [F|Hy].
  - congruence.
  - injection E as -> ->. exfalso. apply N1. apply in_map_iff. exists (k, y). auto.
  - injection F as -> ->. exfalso. apply N1. apply in_map_iff. exists (k, x). auto.
  - eauto.
Qed.

Lemma value_at_fun : forall v p x, value_at v p x -> doc v -> forall y, value_at v p y -> x = y.
Proof.
  intros v p x H. induction H as [v|l i e a x He H IH|m k e a x He H IH]; intros Hd y K.
  - inversion K; reflexivity.
  - inversion K as [|? ? e' ? ? He' K'|]; subst. rewrite He in He'. injection He' as <-. apply IH; [|exact K'].
    intros z Hz. apply Hd. eapply WElem; [eapply nth_error_In; exact He|exact Hz].
  - inversion K as [| |? ? e' ? ? He' K']; subst.
    assert (e = e') by (eapply in_unique; [exact (proj1 (Hd _ (WSelf _)))|eassumption..]). subst e'.
    apply IH; [|exact K']. intros z Hz. apply Hd. eapply WMember; eauto.
Qed.

(** ** Keys one argument stands for *)
Definition key_list (v : val) (P : key -> Prop) (l : list val) (ks : list key) : Prop :=
  Forall2 (fun k x => value_at v [k] x) ks l /\ forall k, In k ks <-> P k /\ exists x, value_at v [k] x.

Lemma picks_name_keys : forall v s l, picks_name s v l -> exists ks, key_list v (fun k => k = AtName s) l ks /\ NoDup ks.
Proof.
  intros v s l H. destruct H as [m x Hx|m Hx|v Hv].
  - exists [AtName s]. split; [|repeat constructor; intros []]. split; [constructor; [econstructor; [exact Hx|constructor]|constructor]|].
    intro k. split; [intros [<-|[]]|intros [-> _]; left; reflexivity]. split; [reflexivity|]. exists x. econstructor; [exact Hx|constructor].
  - exists []. split; [|constructor]. split; [constructor|]. intro k. split; [intros []|]. intros [-> (x & K)].
    apply value_one in K. apply Hx. apply in_map_iff. exists (s, x). auto.
  - exists []. split; [|constructor]. split; [constructor|]. intro k. split; [intros []|]. intros [-> (x & K)].
    apply value_one in K. destruct v; try discriminate; destruct K.
Qed.

Lemma picks_keys : forall back v a l, literal_key a -> picks (sel_of back a) v l ->
  exists ks, key_list v (arg_key back v a) l ks /\ NoDup ks.
Proof.
  intros back v a l Ha H. destruct a as [s|s|n| |]; try destruct Ha; cbn [sel_of arg_key] in *;
    try (inversion H; subst; apply picks_name_keys; assumption).
  inversion H as [|? ? i m x Hi He E1 E2 E3|? ? m Hr E1 E2 E3|? ? w m Hw Hn E1 E2 E3| |]; subst.
  - destruct He as [He1 He2]. exists [AtIndex (Z.to_nat i)]. split; [|repeat constructor; intros []].
    split; [constructor; [econstructor; [exact He2|constructor]|constructor]|].
    intro k. split.
    + intros [<-|[]]. split; [|exists x; econstructor; [exact He2|constructor]]. right. exists m, (Z.to_nat i).
      split; [reflexivity|]. split; [reflexivity|]. rewrite Z2Nat.id by lia. destruct Hi as [->|(Hb & Hn & ->)]; auto.
    + intros [[->|(l' & j & E & -> & Hj)] (y & K)]; apply value_one in K; [destruct K|]. injection E as <-.
      left. f_equal. destruct Hi as [->|(Hb & Hn & ->)]; destruct Hj as [Hj|(_ & Hn' & Hj)]; lia.
  - exists []. split; [|constructor]. split; [constructor|]. intro k. split; [intros []|].
    intros [[->|(l' & j & E & -> & Hj)] (y & K)]; apply value_one in K; [destruct K|]. injection E as <-.
    assert (j < length m)%nat by (apply nth_error_Some; congruence).
    destruct Hj as [Hj|(Hb & Hn' & Hj)]; [lia|]. destruct Hr as [Hr|[_ Hr]]; [lia|]. specialize (Hr Hb). lia.
  - destruct (picks_name_keys _ _ _ Hn) as (ks & [K1 K2] & K3). exists ks. split; [|exact K3]. split; [exact K1|].
    intro k. rewrite K2. split; intros [P E]; (split; [|exact E]).
    + left. exact P.
    + destruct P as [P|(l' & j & -> & _)]; [exact P|discriminate].
Qed.

Lemma picked_keys : forall o no args v l, nested o no -> Forall literal_key args -> doc v -> picked o args v l ->
  exists ks, key_list v (step_key (mkStep o args) v) l ks /\ ((length args <= 1)%nat -> NoDup ks).
Proof.
  intros o no args v l N Ha Hd H.
  assert (C : forall x, children_in_order v x -> exists ks, key_list v (fun _ => True) x ks /\ NoDup ks).
  { intros x Hx. destruct Hx as [x|m m' Hp|v Hv].
    - exists (map AtIndex (seq 0 (length x))). split; [|apply FinFun.Injective_map_NoDup; [intros i j E; injection E; auto|apply seq_NoDup]].
      split; [apply (elems_at x [])|]. intro k. rewrite in_map_iff. split.
      + intros (i & <- & Hi). apply in_seq in Hi. split; [exact I|]. destruct (nth_error x i) as [y|] eqn:E.
        * exists y. econstructor; [exact E|constructor].
        * apply nth_error_None in E. lia.
      + intros [_ (y & K)]. apply value_one in K. destruct k as [i|s]; [|destruct K]. exists i. split; [reflexivity|].
        apply in_seq. assert (i < length x)%nat by (apply nth_error_Some; congruence). lia.
    - exists (map (fun kv => AtName (fst kv)) m'). split.
      + split.
        * assert (K : forall kv, In kv m' -> In kv m) by (intros kv Hk; eapply Permutation_in; [apply Permutation_sym; exact Hp|exact Hk]).
          clear Hp Hd H. induction m' as [|[k x] m' IH]; cbn; constructor.
          -- econstructor; [apply K; left; reflexivity|constructor].
          -- apply IH. intros kv Hk. apply K. right. exact Hk.
        * intro k. rewrite in_map_iff. split.
          -- intros ([s x] & <- & Hx). split; [exact I|]. exists x. econstructor; [|constructor]. eapply Permutation_in; [apply Permutation_sym; exact Hp|exact Hx].
          -- intros [_ (y & K)]. apply value_one in K. destruct k as [i|s]; [destruct K|]. exists (s, y). split; [reflexivity|].
             eapply Permutation_in; eauto.
      + destruct (Hd _ (WSelf _)) as [Hn _]. apply (Permutation_NoDup (Permutation_map fst Hp)) in Hn.
        rewrite <- (map_map fst AtName). apply FinFun.Injective_map_NoDup; [intros i j E; injection E; auto|exact Hn].
    - exists []. split; [|constructor]. split; [constructor|]. intro k. split; [intros []|]. intros [_ (y & K)]. apply value_one in K.
      destruct v; try discriminate; destruct K. }
  assert (S : forall back, picks_all (map (sel_of back) args) v l ->
    exists ks, key_list v (fun k => exists a, In a args /\ arg_key back v a k) l ks /\ ((length args <= 1)%nat -> NoDup ks)).
  { intros back (ls & F & ->). clear H C N. revert ls F. induction Ha as [|a args Ha Has IH]; intros ls F; cbn [map] in F.
    - inversion F; subst. exists []. split; [|intros _; constructor]. split; [constructor|]. intro k. split; [intros []|].
      intros [(a & [] & _) _].
    - inversion F as [|? x ? ls' Hx F']; subst. destruct (picks_keys _ _ _ _ Ha Hx) as (k1 & [A1 A2] & A3).
      destruct (IH _ F') as (k2 & [B1 B2] & _). exists (k1 ++ k2). split; [split|].
      + cbn [concat]. apply Forall2_app; assumption.
      + intro k. rewrite in_app_iff, A2, B2. split.
        * intros [[P E]|[(b & Hb & P) E]]; (split; [|exact E]); [exists a|exists b]; (split; [|exact P]); [left; reflexivity|right; exact Hb].
        * intros [(b & [<-|Hb] & P) E]; [left|right]; (split; [|exact E]); [exact P|exists b; auto].
      + intro L. destruct args as [|b args]; [|cbn in L; lia]. inversion F'; subst. inversion B1; subst. rewrite app_nil_r. exact A3. }
  destruct N; [apply (S _ H)..|]. destruct (C _ H) as (ks & K1 & K2). exists ks. auto.
Qed.

(** ** Selections *)
Section reach.
Variable root : val.
Hypothesis Droot : doc root.

Definition closed_under (R : list key -> list key -> Prop) : Prop :=
  (forall p k k', keys_apart k k' -> R (p ++ [k]) (p ++ [k'])) /\ (forall p p' k k', R p p' -> R (p ++ [k]) (p' ++ [k'])).

Lemma places_doc : forall ps l, Forall2 (value_at root) ps l -> Forall doc l.
Proof.
  intros ps l H. induction H as [|p x ps l Hp H IH]; constructor; auto.
  intros z Hz. apply Droot. eapply within_trans; [exact Hz|eapply value_at_within; eauto].
Qed.

Lemma gather_places : forall (pick : val -> list val -> Prop) (P : val -> key -> Prop) (single : Prop) ps cands l,
  (forall v l, doc v -> pick v l -> exists ks, key_list v (P v) l ks /\ (single -> NoDup ks)) ->
  Forall2 (value_at root) ps cands -> gathers pick cands l ->
  exists qs, Forall2 (value_at root) qs l /\
    (forall q, In q qs <-> exists p v k y, In p ps /\ value_at root p v /\ P v k /\ value_at v [k] y /\ q = p ++ [k]) /\
    (single -> forall R, closed_under R -> FOP R ps -> FOP R qs).
Proof.
  intros pick P single ps cands l HP H (ls & G & ->). revert ps H.
  induction G as [|v x cands ls Hx G IH]; intros ps H.
  - inversion H; subst. exists []. split; [constructor|]. split; [|intros; constructor].
    intro q. split; [intros []|intros (p & _ & _ & _ & [] & _)].
  - pose proof (places_doc _ _ H) as Hd. inversion H as [|p ? ps' ? Hp H']; subst. inversion Hd as [|? ? D1 D2]; subst.
    destruct (HP v x D1 Hx) as (ks & [K1 K2] & K3). destruct (IH _ H') as (qs & Q1 & Q2 & Q3).
    exists (map (fun k => p ++ [k]) ks ++ qs). split; [|split].
    + cbn [concat]. apply Forall2_app; [|exact Q1]. clear - Hp K1.
      induction K1 as [|k x ks l Hk K IHk]; constructor; [eapply value_at_app; eauto|exact IHk].
    + intro q. rewrite in_app_iff, in_map_iff, Q2. split.
      * intros [(k & <- & Hk)|(p' & v' & k & y & Hp' & Hv' & Hk)].
        -- apply K2 in Hk as [Hk (y & Hy)]. exists p, v, k, y. repeat split; auto. left. reflexivity.
        -- exists p', v', k, y. split; [right; exact Hp'|]. split; [exact Hv'|exact Hk].
      * intros (p' & v' & k & y & [<-|Hp'] & Hv' & Hk & Hy & ->).
        -- left. assert (v' = v) by (eapply value_at_fun; [exact Hv'|exact Droot|exact Hp]). subst v'.
           exists k. split; [reflexivity|]. apply K2. split; [exact Hk|eauto].
        -- right. exists p', v', k, y. auto.
    + intros Hs R [R1 R2] HR. inversion HR as [|? ? H3 H4]; subst. apply fop_app; [|apply Q3; auto; split; assumption|].
      * specialize (K3 Hs). clear - K3 R1. induction K3 as [|k ks Hk K IHk]; constructor; [|exact IHk].
        apply Forall_map. apply Forall_forall. intros k' Hk'. apply R1. intros ->. contradiction.
      * intros a b Ha Hb. apply in_map_iff in Ha as (k & <- & _). apply Q2 in Hb as (p' & v' & k' & y & Hp' & _ & _ & _ & ->).
        apply R2. rewrite Forall_forall in H3. auto.
Qed.

Lemma walk_places : forall ps cands dots, Forall2 (value_at root) ps cands -> gathers walks cands dots ->
  exists qs, Forall2 (value_at root) qs dots /\
    (forall q, In q qs <-> exists p v r d, In p ps /\ value_at root p v /\ value_at v r d /\ IsStructure d = true /\ q = p ++ r) /\
    (FOP level_apart ps -> FOP apart qs).
Proof.
  intros ps cands dots H (ls & G & ->). revert ps H.
  induction G as [|v x cands ls Hx G IH]; intros ps H.
  - inversion H; subst. exists []. split; [constructor|]. split; [|intros; constructor].
    intro q. split; [intros []|intros (p & _ & _ & _ & [] & _)].
  - pose proof (places_doc _ _ H) as Hd. inversion H as [|p ? ps' ? Hp H']; subst. inversion Hd as [|? ? D1 D2]; subst.
    destruct (walks_visits v D1 x Hx) as (rs & N & V & C & _). destruct (IH _ H') as (qs & Q1 & Q2 & Q3).
    exists (map (fun r => p ++ r) rs ++ qs). split; [|split].
    + cbn [concat]. apply Forall2_app; [|exact Q1]. clear - Hp V.
      induction V as [|k x ks l [Hk _] V IHk]; constructor; [eapply value_at_app; eauto|exact IHk].
    + intro q. rewrite in_app_iff, in_map_iff, Q2. split.
      * intros [(r & <- & Hr)|(p' & v' & r & d & Hp' & Hr)].
        -- assert (K : exists d, value_at v r d /\ IsStructure d = true).
           { clear - V Hr. induction V as [|k x ks l Hk V IHk]; [destruct Hr|]. destruct Hr as [<-|Hr]; eauto. }
           destruct K as (d & K1 & K2). exists p, v, r, d. split; [left; reflexivity|auto].
        -- exists p', v', r, d. split; [right; exact Hp'|exact Hr].
      * intros (p' & v' & r & d & [<-|Hp'] & Hv' & Hr & Hs & ->).
        -- left. assert (v' = v) by (eapply value_at_fun; [exact Hv'|exact Droot|exact Hp]). subst v'.
           exists r. split; [reflexivity|eauto].
        -- right. exists p', v', r, d. auto.
    + intro HR. inversion HR as [|? ? H3 H4]; subst. apply fop_app; [|apply Q3; exact H4|].
      * clear - N. induction N as [|r rs Hr N IHn]; constructor; [|exact IHn]. apply Forall_map. apply Forall_forall.
        intros r' Hr' E. apply app_inv_head in E. subst. contradiction.
      * intros a b Ha Hb. apply in_map_iff in Ha as (k & <- & _). apply Q2 in Hb as (p' & v' & k' & y & Hp' & _ & _ & _ & ->).
        rewrite Forall_forall in H3. destruct (H3 _ Hp') as [L D]. intro E. apply D. eapply app_level; eauto.
Qed.

Lemma structured : forall d k y, value_at d [k] y -> IsStructure d = true.
Proof. intros d k y H. apply value_one in H. destruct d; try reflexivity; destruct k; destruct H. Qed.

Lemma nest_key : forall o no args v k, nested o no -> (step_key (mkStep no args) v k <-> step_key (mkStep o args) v k).
Proof. intros o no args v k N. destruct N; reflexivity. Qed.
Lemma nested_nest : forall o no, nested o no -> is_nest o = false /\ is_nest no = true.
Proof. intros o no N. destruct N; auto. Qed.

Lemma single_args : forall s, wf_step s -> is_union (st_op s) = false -> (length (st_args s) <= 1)%nat.
Proof. intros s H Hu. destruct H; cbn in *; try discriminate; lia. Qed.

Lemma closed_apart : closed_under apart.
Proof. split; [apply apart_same|apply apart_diff]. Qed.
Lemma closed_level : closed_under level_apart.
Proof. split; [apply level_same|apply level_diff]. Qed.

Lemma literal_cases : forall W s cands r r0, Forall literal_key (st_args s) -> step_means W r0 s cands r ->
  exists o no, nested o no /\ (s = mkStep o (st_args s) \/ s = mkStep no (st_args s)).
Proof.
  intros W [o args] cands r r0 Hs H. cbn [st_args] in *.
  assert (E : is_select o = true \/ is_nest_select o = true \/ o = OpWild \/ o = OpNestWild).
  { inversion H; cbn [st_op st_args] in *; auto; subst; apply Forall_inv in Hs; destruct Hs. }
  destruct E as [E|[E|[E|E]]]; destruct o; try discriminate E;
    first [exists OpMember, OpNestMember; split; [constructor|auto; fail] | exists OpSelect, OpNestSelect; split; [constructor|auto; fail] |
      exists OpUnion, OpNestUnion; split; [constructor|auto; fail] | exists OpWild, OpNestWild; split; [constructor|auto; fail]].
Qed.

Lemma path_reaches : forall W ss ps cands r, wf_path ss -> Forall (fun s => Forall literal_key (st_args s)) ss ->
  Forall2 (value_at root) ps cands -> path_means W root ss cands r ->
  exists l qs, r = OK l /\ Forall2 (value_at root) qs l /\
    (forall q, In q qs <-> exists p v u x, In p ps /\ value_at root p v /\ reaches v ss u x /\ q = p ++ u) /\
    (no_union ss -> (descents ss <= 1)%nat -> FOP level_apart ps -> FOP apart qs) /\
    (no_union ss -> descents ss = O -> FOP apart ps -> FOP apart qs).
Proof.
  intros W ss. induction ss as [|s ss IH]; intros ps cands r Hw Hl HF H.
  - inversion H; subst. exists cands, ps. split; [reflexivity|]. split; [exact HF|]. split; [|split].
    + intro q. split.
      * intro Hq. assert (K : exists v, value_at root q v).
        { clear - HF Hq. induction HF as [|p v ps l Hp HF IH]; [destruct Hq|]. destruct Hq as [<-|Hq]; eauto. }
        destruct K as (v & K). exists q, v, [], v. rewrite app_nil_r. repeat split; auto. constructor.
      * intros (p & v & u & x & Hp & _ & K & ->). inversion K; subst. rewrite app_nil_r. exact Hp.
    + intros _ _ K. eapply fop_impl; [|exact K]. intros x y [_ N]. exact N.
    + auto.
  - inversion Hw as [|? ? Hw1 Hw2]; subst. inversion Hl as [|? ? Hl1 Hl2]; subst.
    assert (Go : forall l1 qs1, step_means W root s cands (OK l1) -> path_means W root ss l1 r -> Forall2 (value_at root) qs1 l1 ->
      (forall q, In q qs1 <-> exists p v u y, In p ps /\ value_at root p v /\ reaches v [s] u y /\ q = p ++ u) ->
      (is_union (st_op s) = false -> is_nest (st_op s) = true -> FOP level_apart ps -> FOP apart qs1) ->
      (is_union (st_op s) = false -> is_nest (st_op s) = false -> forall R, closed_under R -> FOP R ps -> FOP R qs1) ->
      exists l qs, r = OK l /\ Forall2 (value_at root) qs l /\
        (forall q, In q qs <-> exists p v u x, In p ps /\ value_at root p v /\ reaches v (s :: ss) u x /\ q = p ++ u) /\
        (no_union (s :: ss) -> (descents (s :: ss) <= 1)%nat -> FOP level_apart ps -> FOP apart qs) /\
        (no_union (s :: ss) -> descents (s :: ss) = O -> FOP apart ps -> FOP apart qs)).
    { intros l1 qs1 _ P F1 I1 N1 N2. destruct (IH qs1 l1 r Hw2 Hl2 F1 P) as (l & qs & -> & F2 & I2 & M1 & M2).
      exists l, qs. split; [reflexivity|]. split; [exact F2|]. split; [|split].
      - intro q. rewrite I2. split.
        + intros (p1 & v1 & u & x & Hp1 & Hv1 & Hr & ->). apply I1 in Hp1 as (p & v & u1 & y & Hp & Hv & Hs & ->).
          assert (y = v1).
          { assert (K : value_at v u1 y).
            { clear - Hs. inversion Hs as [|? ? ? k z ? ? ? ? ? K|? ? ? q d k z ? ? ? Hq ? ? K]; subst; inversion K; subst; [assumption|].
              eapply value_at_app; eauto. }
            eapply value_at_fun; [eapply value_at_app; [exact Hv|exact K]|exact Droot|exact Hv1]. }
          subst y. exists p, v, (u1 ++ u), x. split; [exact Hp|]. split; [exact Hv|]. split; [|symmetry; apply app_assoc].
          inversion Hs as [|? ? ? k z ? ? ? ? ? K|? ? ? q d k z ? ? ? Hq ? ? K]; subst; inversion K; subst.
          * cbn. eapply RcStep; eauto.
          * rewrite <- app_assoc. cbn. eapply RcNest; eauto.
        + intros (p & v & u & x & Hp & Hv & Hr & ->).
          inversion Hr as [|? ? ? k z u' ? Hn Hk Hz K|? ? ? q d k z u' ? Hn Hq Hk Hz K]; subst.
          * exists (p ++ [k]), z, u', x. split; [apply I1|]; [|split; [eapply value_at_app; eauto|split; [exact K|rewrite <- app_assoc; reflexivity]]].
            exists p, v, [k], z. repeat split; auto. eapply RcStep; eauto. constructor.
          * exists (p ++ q ++ [k]), z, u', x. split; [apply I1|].
            -- exists p, v, (q ++ [k]), z. repeat split; auto. eapply RcNest; eauto. constructor.
            -- split; [eapply value_at_app; [exact Hv|]; eapply value_at_app; eauto|]. split; [exact K|]. rewrite <- !app_assoc. reflexivity.
      - intros U D HP. assert (U1 : is_union (st_op s) = false) by (apply U; left; reflexivity).
        assert (U2 : no_union ss) by (intros z Hz; apply U; right; exact Hz).
        unfold descents in *. cbn in D. destruct (is_nest (st_op s)) eqn:En.
        + apply M2; auto. cbn in D. lia.
        + apply M1; auto. apply N2; auto. apply closed_level.
      - intros U D HP. assert (U1 : is_union (st_op s) = false) by (apply U; left; reflexivity).
        assert (U2 : no_union ss) by (intros z Hz; apply U; right; exact Hz).
        unfold descents in *. cbn in D. destruct (is_nest (st_op s)) eqn:En; [discriminate|].
        apply M2; auto. apply N2; auto. apply closed_apart. }
    assert (Step : forall r1, step_means W root s cands r1 -> exists l1 qs1, r1 = OK l1 /\ Forall2 (value_at root) qs1 l1 /\
      (forall q, In q qs1 <-> exists p v u y, In p ps /\ value_at root p v /\ reaches v [s] u y /\ q = p ++ u) /\
      (is_union (st_op s) = false -> is_nest (st_op s) = true -> FOP level_apart ps -> FOP apart qs1) /\
      (is_union (st_op s) = false -> is_nest (st_op s) = false -> forall R, closed_under R -> FOP R ps -> FOP R qs1)).
    { intros r1 S. destruct (literal_cases _ _ _ _ _ Hl1 S) as (o & no & N & E). destruct (nested_nest _ _ N) as [No Nn].
      pose proof (single_args s Hw1) as Sg. destruct E as [E|E]; rewrite E in S; rewrite E; cbn [st_op].
      - destruct (UnfoldProofs.plain_step _ _ _ _ _ _ _ N Hl1 S) as (l1 & -> & G).
        destruct (gather_places _ _ (length (st_args s) <= 1)%nat ps cands l1
          (fun v x Dv Hx => picked_keys o no (st_args s) v x N Hl1 Dv Hx) HF G) as (qs & Q1 & Q2 & Q3).
        exists l1, qs. split; [reflexivity|]. split; [exact Q1|]. split; [|split].
        + intro q. rewrite Q2. split.
          * intros (p & v & k & y & Hp & Hv & Hk & Hy & ->). exists p, v, [k], y. repeat split; auto.
            eapply RcStep; eauto. constructor.
          * intros (p & v & u & y & Hp & Hv & Hr & ->).
            inversion Hr as [|? ? ? k z u' ? Hn Hk Hz K|? ? ? q d k z u' ? Hn Hq Hk Hz K]; subst; inversion K; subst.
            -- exists p, v, k, y. auto.
            -- cbn in Hn. congruence.
        + intros _ C. congruence.
        + intros U _ R HR HP. apply Q3; auto. apply Sg. rewrite E. exact U.
      - destruct (UnfoldProofs.nest_step _ _ _ _ _ _ _ N Hl1 S) as (D & l1 & -> & Rd & G).
        destruct (fair_rounds _ _ _ _ (picked_fair _ _ _ N Hl1) Rd G) as (D' & GD & G').
        destruct (walk_places ps cands D' HF GD) as (ds & E1 & E2 & E3).
        destruct (gather_places _ _ (length (st_args s) <= 1)%nat ds D' l1
          (fun v x Dv Hx => picked_keys o no (st_args s) v x N Hl1 Dv Hx) E1 G') as (qs & Q1 & Q2 & Q3).
        exists l1, qs. split; [reflexivity|]. split; [exact Q1|]. split; [|split].
        + intro q. rewrite Q2. split.
          * intros (p1 & d & k & y & Hp1 & Hd & Hk & Hy & ->). apply E2 in Hp1 as (p & v & w & d' & Hp & Hv & Hw' & _ & ->).
            assert (d' = d) by (eapply value_at_fun; [eapply value_at_app; [exact Hv|exact Hw']|exact Droot|exact Hd]). subst d'.
            exists p, v, (w ++ [k]), y. split; [exact Hp|]. split; [exact Hv|]. split; [|rewrite app_assoc; reflexivity].
            eapply RcNest; eauto; [apply (nest_key o no); auto|constructor].
          * intros (p & v & u & y & Hp & Hv & Hr & ->).
            inversion Hr as [|? ? ? k z u' ? Hn Hk Hz K|? ? ? q d k z u' ? Hn Hq Hk Hz K]; subst; inversion K; subst.
            -- cbn in Hn. congruence.
            -- exists (p ++ q), d, k, y. split; [apply E2; exists p, v, q, d; repeat split; auto; eapply structured; eauto|].
               split; [eapply value_at_app; eauto|]. split; [apply (nest_key o no); auto|]. split; [exact Hz|]. rewrite app_assoc. reflexivity.
        + intros U _ HP. apply Q3; [apply Sg; rewrite E; exact U|apply closed_apart|apply E3; exact HP].
        + intros _ C. congruence. }
    inversion H as [|? ? ? x ? S P|? ? ? err S|? ? ? S]; subst;
      destruct (Step _ S) as (l1 & qs1 & E & A1 & A2 & A3 & A4); try discriminate E. injection E as ->.
    apply (Go l1 qs1); auto.
Qed.
End reach.

Lemma text_reaches : forall TX s ss jp W t root r, accepted TX s ss jp -> fits jp -> orders_ok W -> doc root ->
  Forall (fun s => Forall literal_key (st_args s)) ss -> JP_Eval W t jp root r ->
  exists l ps, r = OK l /\ Forall2 (value_at root) ps l /\
    (forall p, In p ps <-> exists x, reaches root ss p x) /\
    (no_union ss -> (descents ss <= 1)%nat -> NoDup ps).
Proof.
  intros TX s ss jp W t root r Ha Hf HW Hd Hl H. pose proof (text_means _ _ _ _ _ _ _ _ Ha Hf HW Hd H) as M.
  destruct (path_reaches root Hd W ss [[]] [root] r (text_wf _ _ _ _ Ha) Hl) as (l & ps & -> & F & I & N & _); auto.
  { constructor; [constructor|constructor]. }
  exists l, ps. split; [reflexivity|]. split; [exact F|]. split.
  - intro p. rewrite I. split.
    + intros (q & v & u & x & [<-|[]] & Hv & Hr & ->). inversion Hv; subst. eauto.
    + intros (x & Hr). exists [], root, p, x. repeat split; auto; [left; reflexivity|constructor].
  - intros U D. apply fop_nodup. apply N; auto. apply fop_one.
Qed.
