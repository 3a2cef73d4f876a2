(** Places selected once. *)
From Coq Require Import Permutation.
From Verif Require Import Base Syntax SpecSyntax Value Machine SpecDoc DocProofs SpecSelect SpecRun SpecOp SpecText SpecSem SpecOnce
  SpecCost SelectFinal AddressProofs.
Local Open Scope Z_scope.

(** ** Lists *)
Notation FOP := ForallOrdPairs.

Lemma fop_app : forall A (R : A -> A -> Prop) l l', FOP R l -> FOP R l' ->
  (forall x y, In x l -> In y l' -> R x y) -> FOP R (l ++ l').
Proof.
  intros A R l l' H H' K. induction H as [|a l Ha H IH]; [exact H'|]. cbn. constructor.
  - apply Forall_app. split; [exact Ha|]. apply Forall_forall. intros y Hy. apply K; [left; reflexivity|exact Hy].
  - apply IH. intros x y Hx Hy. apply K; [right; exact Hx|exact Hy].
Qed.

Lemma fop_impl : forall A (R R' : A -> A -> Prop) l, (forall x y, R x y -> R' x y) -> FOP R l -> FOP R' l.
Proof.
  intros A R R' l K H. induction H as [|a l Ha H IH]; constructor; auto. eapply Forall_impl; [|exact Ha]. apply K.
Qed.

Lemma fop_nodup : forall A (l : list A), FOP (fun x y => x <> y) l <-> NoDup l.
Proof.
  intros A l. split; intro H; induction H as [|a l Ha H IH]; constructor; auto.
  - intro K. rewrite Forall_forall in Ha. apply (Ha a K). reflexivity.
  - apply Forall_forall. intros y Hy <-. contradiction.
Qed.

Inductive sub {A} : list A -> list A -> Prop :=
| SubNil : forall l, sub [] l
| SubKeep : forall x l l', sub l l' -> sub (x :: l) (x :: l')
| SubSkip : forall x l l', sub l l' -> sub l (x :: l').

Lemma sub_in : forall A (l l' : list A), sub l l' -> forall x, In x l -> In x l'.
Proof.
  intros A l l' H. induction H as [l|y l l' H IH|y l l' H IH]; intros x Hx; [destruct Hx| |right; auto].
  destruct Hx as [<-|Hx]; [left; reflexivity|right; auto].
Qed.
Lemma sub_refl : forall A (l : list A), sub l l.
Proof. induction l; constructor; auto. Qed.
Lemma sub_app_r : forall A (b l : list A), sub l (b ++ l).
Proof. induction b as [|x b IH]; intro l; cbn; [apply sub_refl|apply SubSkip; apply IH]. Qed.
Lemma sub_trans : forall A (b c : list A), sub b c -> forall a, sub a b -> sub a c.
Proof.
  intros A b c H. induction H as [l|y b c H IH|y b c H IH]; intros a Ha.
  - inversion Ha; subst; constructor.
  - inversion Ha as [?|? a' ? Ha'|? ? ? Ha']; subst; [constructor|apply SubKeep|apply SubSkip]; auto.
  - apply SubSkip. auto.
Qed.

Lemma sub_forall2 : forall A B (P : A -> B -> Prop) xs ys, Forall2 P xs ys -> forall zs, sub zs ys ->
  exists ws, sub ws xs /\ Forall2 P ws zs.
Proof.
  intros A B P xs ys H. induction H as [|x y xs ys Hxy H IH]; intros zs Hz.
  - inversion Hz; subst. exists []. split; constructor.
  - inversion Hz as [?|? z' ? Hz'|? ? ? Hz']; subst.
    + exists []. split; constructor.
    + destruct (IH _ Hz') as (ws & H1 & H2). exists (x :: ws). split; constructor; auto.
    + destruct (IH _ Hz') as (ws & H1 & H2). exists ws. split; [apply SubSkip|]; auto.
Qed.
Lemma fop_sub : forall A (R : A -> A -> Prop) l', FOP R l' -> forall l, sub l l' -> FOP R l.
Proof.
  intros A R l' H. induction H as [|a l' Ha H IH]; intros l Hl; inversion Hl as [?|? l0 ? Hl0|? ? ? Hl0]; subst; try constructor; auto.
  apply Forall_forall. intros x Hx. rewrite Forall_forall in Ha. apply Ha. eapply sub_in; eauto.
Qed.

(** ** Selections with their places *)
Section steps.
Variable root : val.
Hypothesis Droot : doc root.
Variable R : list key -> list key -> Prop.
Variable Rk : key -> key -> Prop.
Variable good : sel -> Prop.
Hypothesis Rsame : forall p k k', Rk k k' -> R (p ++ [k]) (p ++ [k']).
Hypothesis Rdiff : forall p p' k k', R p p' -> R (p ++ [k]) (p' ++ [k']).

Definition located (l : list val) : Prop := exists ps, Forall2 (value_at root) ps l /\ FOP R ps.
Definition kids (v : val) (l : list val) : Prop := exists ks, Forall2 (fun k x => value_at v [k] x) ks l /\ FOP Rk ks.

Lemma value_at_app : forall v p x q y, value_at v p x -> value_at x q y -> value_at v (p ++ q) y.
Proof. intros v p x q y H K. induction H; cbn; [exact K| |]; econstructor; eauto. Qed.

Lemma located_doc : forall l, located l -> Forall doc l.
Proof.
  intros l (ps & H & _). clear - H Droot. induction H as [|p x ps l Hp H IH]; constructor; auto.
  intros z Hz. apply Droot. eapply within_trans; [exact Hz|eapply value_at_within; eauto].
Qed.
Lemma located_sub : forall l l', located l' -> sub l l' -> located l.
Proof.
  intros l l' (ps & H1 & H2) Hs. destruct (sub_forall2 _ _ _ _ _ H1 _ Hs) as (ws & W1 & W2).
  exists ws. split; [exact W2|]. eapply fop_sub; eauto.
Qed.
Lemma located_nil : located [].
Proof. exists []. split; constructor. Qed.

Lemma expand : forall cands ls, located cands -> Forall2 kids cands ls -> located (concat ls).
Proof.
  intros cands ls (ps & H1 & H2) H.
  assert (K : exists qs, Forall2 (value_at root) qs (concat ls) /\ FOP R qs /\
                forall q, In q qs -> exists p k, In p ps /\ q = p ++ [k]).
  2:{ destruct K as (qs & K1 & K2 & _). exists qs. auto. }
  revert ps H1 H2. induction H as [|v l cands ls (ks & K1 & K2) H IH]; intros ps H1 H2.
  - exists []. repeat split; try constructor. intros q [].
  - inversion H1 as [|p ? ps' ? Hp H1']; subst. inversion H2 as [|? ? H3 H4]; subst.
    destruct (IH _ H1' H4) as (qs & Q1 & Q2 & Q3). exists (map (fun k => p ++ [k]) ks ++ qs). split; [|split].
    + cbn [concat]. apply Forall2_app; [|exact Q1]. clear - Hp K1.
      induction K1 as [|k x ks l Hk K IHk]; constructor; [eapply value_at_app; eauto|exact IHk].
    + apply fop_app; [|exact Q2|].
      * clear - K2 Rsame. induction K2 as [|k ks Hk K IHk]; constructor; [|exact IHk].
        apply Forall_map. eapply Forall_impl; [|exact Hk]. cbv beta. auto.
      * intros x y Hx Hy. apply in_map_iff in Hx as (k & <- & _). destruct (Q3 _ Hy) as (p' & k' & Hp' & ->).
        apply Rdiff. rewrite Forall_forall in H3. auto.
    + intros q Hq. apply in_app_iff in Hq as [Hq|Hq].
      * apply in_map_iff in Hq as (k & <- & _). exists p, k. split; [left; reflexivity|reflexivity].
      * destruct (Q3 _ Hq) as (p' & k' & Hp' & ->). exists p', k'. split; [right; exact Hp'|reflexivity].
Qed.

Lemma gathers_located : forall (pick : val -> list val -> Prop) cands l, (forall v l, doc v -> pick v l -> kids v l) ->
  located cands -> gathers pick cands l -> located l.
Proof.
  intros pick cands l HP HL (ls & H & ->). pose proof (located_doc _ HL) as Hd. eapply expand; [exact HL|].
  clear HL. induction H as [|v l cands ls Hv H IH]; constructor; inversion Hd; subst; auto.
Qed.

Hypothesis pick_kids : forall s v l, good s -> doc v -> picks s v l -> kids v l.
Hypothesis child_kids : forall v l, doc v -> children_in_order v l -> kids v l.

Lemma collects_located : forall dots apps l, located dots -> sub (map snd apps) dots -> Forall (fun a => good (fst a)) apps ->
  collects apps l -> located l.
Proof.
  intros dots apps l HL HS HG (before & after & -> & _ & _ & ls & H & ->).
  apply Forall_app in HG as [_ HG]. rewrite map_app in HS.
  assert (HL2 : located (map snd after)).
  { eapply located_sub; [exact HL|]. eapply sub_trans; [exact HS|apply sub_app_r]. }
  pose proof (located_doc _ HL2) as Hd. eapply expand; [exact HL2|]. clear - H HG Hd pick_kids.
  induction H as [|a l after ls Ha H IH]; cbn [map] in *; constructor; inversion Hd; inversion HG; subst; eauto.
Qed.

Lemma rounds_located : forall produces cands dots, rounds produces cands dots ->
  (forall cands l, located cands -> gathers produces cands l -> located l) ->
  located cands -> located dots \/ dots = [VNil].
Proof.
  intros produces cands dots H K HL. destruct H as [|cands Hc H|cands dots Hd H]; [left; exact HL|right; reflexivity|left; eauto].
Qed.

Lemma keeps_sub : forall W e dots r, keeps W root e dots r -> forall l, r = OK l -> sub l dots.
Proof.
  intros W e dots r H. induction H as [|d v dots r Hm Hf H IH|d v dots r Hm Hf H IH|d err dots Hm]; intros l E.
  - injection E as <-. constructor.
  - destruct r as [l'| | |]; try discriminate. injection E as <-. apply SubKeep. auto.
  - apply SubSkip. auto.
  - discriminate.
Qed.

Lemma sub_one : forall l, sub l [VNil] -> l = [] \/ l = [VNil].
Proof.
  intros l H. inversion H as [?|? l0 ? Hl|? ? ? Hl]; subst; auto; inversion Hl; subst; auto.
Qed.

(** the sole argument gives at most one selector *)
Lemma one_sel : forall W dot back a sels, args_mean W root dot back [a] (OK sels) ->
  sels = [] \/ exists s, sels = [s] /\ arg_means W root dot back a (OK (Some s)).
Proof.
  intros W dot back a sels H. inversion H as [args os F E1 E2|]; subst.
  inversion F as [|? o ? os' Ho F']; subst. inversion F'; subst. cbn. destruct o as [s|]; [right|left]; cbn; eauto.
Qed.

Lemma applications_one : forall s cands, map snd (applications [s] cands) = cands /\ forall a, In a (applications [s] cands) -> fst a = s.
Proof.
  intros s cands. unfold applications. induction cands as [|v cands [E F]]; cbn [flat_map map app]; [split; [reflexivity|intros a []]|].
  split; [cbn; f_equal; exact E|]. intros a [<-|Ha]; [reflexivity|auto].
Qed.
Lemma applications_none : forall cands, applications [] cands = [].
Proof. induction cands; auto. Qed.
Lemma collects_nil : forall l, collects [] l -> l = [].
Proof.
  intros l (b & a & E & _ & _ & ls & H & ->). symmetry in E. apply app_eq_nil in E as [_ ->]. inversion H. reflexivity.
Qed.

Lemma sweeps_sub : forall W back a dots r, (forall dot s, arg_means W root dot back a (OK (Some s)) -> good s) ->
  sweeps W root back [a] dots r -> forall apps, r = OK apps -> sub (map snd apps) dots /\ Forall (fun a => good (fst a)) apps.
Proof.
  intros W back a dots r HG H. induction H as [|d dots sels r Ha Ho H IH|d dots sels Ha Ho|d dots err Ha]; intros apps E; try discriminate.
  - injection E as <-. split; constructor.
  - destruct r as [apps'| | |]; try discriminate. injection E as <-. destruct (IH _ eq_refl) as [I1 I2].
    destruct (one_sel _ _ _ _ _ Ha) as [->|(s & -> & Hs)].
    + cbn. split; [apply SubSkip; exact I1|exact I2].
    + cbn. split; [apply SubKeep; exact I1|]. constructor; [eapply HG; eauto|exact I2].
Qed.

(** null, which is in no place, gives nothing more *)
Lemma picks_null : forall s l, picks s VNil l -> l = [].
Proof.
  intros s l H. inversion H as [k v l' Hk|? ? ? ? ? ? ?|? ? ? ?|? ? ? ? ? Hn| |]; subst; auto; [inversion Hk; auto|inversion Hn; auto].
Qed.
Lemma collects_null : forall apps l, (forall a, In a apps -> snd a = VNil) -> collects apps l -> l = [].
Proof.
  intros apps l HA (b & a & -> & _ & _ & ls & H & ->).
  assert (K : forall x, In x a -> snd x = VNil) by (intros x Hx; apply HA; apply in_app_iff; auto).
  clear HA. induction H as [|x l a ls Hx H IH]; [reflexivity|]. cbn.
  rewrite (K x (or_introl eq_refl)) in Hx. apply picks_null in Hx. subst l. apply IH. intros y Hy. apply K. right. exact Hy.
Qed.
Lemma sub_null : forall (apps : list (sel * val)), sub (map snd apps) [VNil] -> forall a, In a apps -> snd a = VNil.
Proof.
  intros apps H a Ha. assert (K : In (snd a) [VNil]) by (eapply sub_in; [exact H|apply in_map; exact Ha]).
  destruct K as [K|[]]. symmetry. exact K.
Qed.
Lemma gathers_null : forall l, gathers children_in_order [VNil] l -> l = [].
Proof. intros l H. apply (proj1 (gathers_one _ _ _)) in H. inversion H. reflexivity. Qed.

Definition arg_good (W : world) (s : pstep) : Prop :=
  forall a dot sl, In a (st_args s) -> arg_means W root dot (counts_back (st_op s)) a (OK (Some sl)) -> good sl.

(** a step without .. *)
Lemma plain_step : forall W s cands l, wf_step s -> is_union (st_op s) = false -> is_nest (st_op s) = false -> arg_good W s ->
  located cands -> step_means W root s cands (OK l) -> located l \/ (l = [VNil] /\ st_op s = OpFilter).
Proof.
  intros W s cands l Hw Hu Hn Hg HL H. inversion H as
    [l' Ho Hc|sels l' Hs Ha Hov Hc| | |e dots r Ho Ea Hr Hk|dots l' Ho Hr Hc|e dots r Ho Ea Hr Hk|dots apps l' Hs Hr Hsw Hc| |]; subst.
  - left. eapply gathers_located; eauto.
  - left. assert (Hx : exists a, st_args s = [a]).
    { destruct Hw; cbn in *; try discriminate; eauto. }
    destruct Hx as [a Ea]. rewrite Ea in Ha. destruct (one_sel _ _ _ _ _ Ha) as [->|(x & -> & Hx)].
    + rewrite applications_none in Hc. apply collects_nil in Hc. subst. apply located_nil.
    + destruct (applications_one x cands) as [E F]. eapply collects_located; [exact HL| | |exact Hc].
      * rewrite E. apply sub_refl.
      * apply Forall_forall. intros y Hy. rewrite (F y Hy). eapply Hg; [rewrite Ea; left; reflexivity|exact Hx].
  - apply keeps_sub with (l := l) in Hk; [|reflexivity].
    destruct (rounds_located _ _ _ Hr) as [K| ->]; auto.
    + intros cs x Hcs Hx. eapply gathers_located; eauto.
    + left. eapply located_sub; eauto.
    + apply sub_one in Hk as [->| ->]; [left; apply located_nil|right; auto].
  - rewrite Ho in Hn. discriminate.
  - rewrite Ho in Hn. discriminate.
  - destruct (st_op s); discriminate.
Qed.

(** a step with .., on values whose containers are at places that differ *)
Lemma nest_step : forall W s cands l, wf_step s -> is_union (st_op s) = false -> is_nest (st_op s) = true -> arg_good W s ->
  (forall dots, gathers walks cands dots -> located dots) ->
  step_means W root s cands (OK l) -> located l \/ (l = [VNil] /\ st_op s = OpNestFilter).
Proof.
  intros W s cands l Hw Hu Hn Hg HL H.
  assert (Rd : forall dots, rounds walks cands dots -> located dots \/ dots = [VNil]).
  { intros dots K. destruct K as [|cands Hc K|cands dots Hd K]; [left; apply located_nil|right; reflexivity|left; auto]. }
  inversion H as
    [l' Ho Hc|sels l' Hs Ha Hov Hc| | |e dots r Ho Ea Hr Hk|dots l' Ho Hr Hc|e dots r Ho Ea Hr Hk|dots apps l' Hs Hr Hsw Hc| |]; subst.
  - rewrite Ho in Hn. discriminate.
  - destruct (st_op s); discriminate.
  - rewrite Ho in Hn. discriminate.
  - left. destruct (Rd _ Hr) as [K| ->]; [eapply gathers_located; eauto|]. apply gathers_null in Hc. subst. apply located_nil.
  - apply keeps_sub with (l := l) in Hk; [|reflexivity]. destruct (Rd _ Hr) as [K| ->].
    + left. eapply located_sub; eauto.
    + apply sub_one in Hk as [->| ->]; [left; apply located_nil|right; auto].
  - left. assert (Hx : exists a, st_args s = [a]).
    { destruct Hw; cbn in *; try discriminate; eauto. }
    destruct Hx as [a Ea]. rewrite Ea in Hsw.
    assert (HG : forall dot x, arg_means W root dot (counts_back (st_op s)) a (OK (Some x)) -> good x).
    { intros dot x Hx. eapply Hg; [rewrite Ea; left; reflexivity|exact Hx]. }
    destruct (sweeps_sub W _ a dots _ HG Hsw apps eq_refl) as [S1 S2].
    destruct (Rd _ Hr) as [K| ->]; [eapply collects_located; eauto|].
    apply collects_null in Hc; [subst; apply located_nil|apply sub_null; exact S1].
Qed.
End steps.

(** null under a step *)
Lemma null_step : forall W root s l, wf_step s -> is_union (st_op s) = false ->
  step_means W root s [VNil] (OK l) -> l = [] \/ (l = [VNil] /\ (st_op s = OpFilter \/ st_op s = OpNestFilter)).
Proof.
  intros W root s l Hw Hu H.
  assert (Rd : forall (P : val -> list val -> Prop) dots, (forall x, P VNil x -> x = []) -> rounds P [VNil] dots -> dots = [VNil]).
  { intros P dots HP K. inversion K as [|? Hc K'|? ? Hd K']; subst; [reflexivity|].
    apply (proj1 (gathers_one _ _ _)) in K'. apply HP in K'. congruence. }
  assert (Hc0 : forall x, children_in_order VNil x -> x = []) by (intros x K; inversion K; reflexivity).
  assert (Hw0 : forall x, walks VNil x -> x = []) by (intros x K; inversion K; reflexivity).
  inversion H as
    [l' Ho Hc|sels l' Hs Ha Hov Hc| | |e dots r Ho Ea Hr Hk|dots l' Ho Hr Hc|e dots r Ho Ea Hr Hk|dots apps l' Hs Hr Hsw Hc| |]; subst.
  - left. apply gathers_null. exact Hc.
  - left. eapply collects_null; [|exact Hc]. intros a Ha'. unfold applications in Ha'. cbn in Ha'. rewrite app_nil_r in Ha'.
    apply in_map_iff in Ha' as (x & <- & _). reflexivity.
  - apply Rd in Hr; auto. subst dots. apply keeps_sub with (l := l) in Hk; [|reflexivity]. apply sub_one in Hk as [->| ->]; auto.
  - left. apply Rd in Hr; auto. subst dots. apply gathers_null. exact Hc.
  - apply Rd in Hr; auto. subst dots. apply keeps_sub with (l := l) in Hk; [|reflexivity]. apply sub_one in Hk as [->| ->]; auto.
  - left. apply Rd in Hr; auto. subst dots. assert (Hx : exists a, st_args s = [a]).
    { destruct Hw; cbn in *; try discriminate; eauto. }
    destruct Hx as [a Ea]. rewrite Ea in Hsw.
    destruct (sweeps_sub root (fun _ => True) W _ a [VNil] _ (fun _ _ _ => I) Hsw apps eq_refl) as [S1 _].
    eapply collects_null; [apply sub_null; exact S1|exact Hc].
Qed.

(** ** Keys of children *)
Lemma fop_one : forall A (R : A -> A -> Prop) x, FOP R [x].
Proof. intros. constructor; constructor. Qed.

Definition forward_keys (k k' : key) : Prop := k <> k' /\ forall i j, (i < j)%nat -> k' = AtIndex i -> k <> AtIndex j.

Lemma indices_kids : forall (Rk : key -> key -> Prop), (forall k k', forward_keys k k' -> Rk k k') ->
  forall m n, FOP Rk (map AtIndex (seq n m)).
Proof.
  intros Rk HR. induction m as [|m IH]; intro n; cbn; constructor; [|apply IH].
  apply Forall_map. apply Forall_forall. intros i Hi. apply in_seq in Hi. apply HR. split; [intro E; injection E; lia|].
  intros a b Hab Ea Eb. injection Ea as ->. injection Eb as ->. lia.
Qed.

Lemma elems_at : forall l pre, Forall2 (fun k x => value_at (VArr (pre ++ l)) [k] x) (map AtIndex (seq (length pre) (length l))) l.
Proof.
  induction l as [|x l IH]; intro pre; cbn; constructor.
  - econstructor; [|constructor]. rewrite nth_error_app2, Nat.sub_diag by lia. reflexivity.
  - specialize (IH (pre ++ [x])). rewrite <- app_assoc in IH. cbn in IH. rewrite app_length in IH. cbn in IH.
    rewrite Nat.add_1_r in IH. exact IH.
Qed.

Lemma children_kids : forall (Rk : key -> key -> Prop), (forall k k', forward_keys k k' -> Rk k k') ->
  forall v l, doc v -> children_in_order v l -> kids Rk v l.
Proof.
  intros Rk HR v l Hd H. destruct H as [l|m m' Hp|v Hv].
  - exists (map AtIndex (seq 0 (length l))). split; [apply (elems_at l [])|apply indices_kids; exact HR].
  - exists (map (fun kv => AtName (fst kv)) m'). split.
    + assert (K : forall kv, In kv m' -> In kv m) by (intros kv Hk; eapply Permutation_in; [apply Permutation_sym; exact Hp|exact Hk]).
      clear Hp Hd. induction m' as [|[k x] m' IH]; cbn; constructor.
      * econstructor; [apply K; left; reflexivity|constructor].
      * apply IH. intros kv Hk. apply K. right. exact Hk.
    + destruct (Hd _ (WSelf _)) as [Hn _]. apply (Permutation_NoDup (Permutation_map fst Hp)) in Hn. clear Hp Hd.
      induction m' as [|[k x] m' IH]; cbn in *; constructor; inversion Hn as [|? ? N1 N2]; subst; [|auto].
      apply Forall_map. apply Forall_forall. intros [k' x'] Hk. apply HR. cbn. split.
      * intro E. injection E as ->. apply N1. apply in_map_iff. exists (k', x'). auto.
      * intros i j _ E. discriminate.
  - exists []. split; constructor.
Qed.

Lemma progression_kids : forall (P : key -> key -> Prop) from c n,
  (forall a b, (a < b)%nat -> (b < n)%nat -> P (AtIndex (Z.to_nat (from + Z.of_nat a * c))) (AtIndex (Z.to_nat (from + Z.of_nat b * c)))) ->
  FOP P (map (fun z => AtIndex (Z.to_nat z)) (progression from c n)).
Proof.
  intros P from c n HP. unfold progression. rewrite map_map.
  assert (K : forall m s, (s + m <= n)%nat -> FOP P (map (fun k => AtIndex (Z.to_nat (from + Z.of_nat k * c))) (seq s m))).
  2:{ apply K. lia. }
  induction m as [|m IH]; intros s Hs; cbn; constructor; [|apply IH; lia].
  apply Forall_map. apply Forall_forall. intros b Hb. apply in_seq in Hb. apply HP; lia.
Qed.

Lemma positions_at : forall l ps xs, Forall2 (elem l) ps xs ->
  Forall2 (fun k x => value_at (VArr l) [k] x) (map (fun z => AtIndex (Z.to_nat z)) ps) xs.
Proof.
  intros l ps xs H. induction H as [|i x ps xs [_ Hi] H IH]; cbn; constructor; [|exact IH].
  econstructor; [exact Hi|constructor].
Qed.

Lemma name_kids : forall Rk k v l, picks_name k v l -> kids Rk v l.
Proof.
  intros Rk k v l H. destruct H as [m x Hx|m Hx|v Hv]; [|exists []; split; constructor..].
  exists [AtName k]. split; [constructor; [|constructor]|apply fop_one]. econstructor; [exact Hx|constructor].
Qed.

Lemma picks_kids : forall (Rk : key -> key -> Prop) (good : sel -> Prop),
  (forall k k', forward_keys k k' -> Rk k k') ->
  ((forall k k', k <> k' -> Rk k k') \/ forall a b c, good (SSlice a b c) -> 0 <= or_default 1 c) ->
  forall s v l, good s -> doc v -> picks s v l -> kids Rk v l.
Proof.
  intros Rk good HR HG s v l Hg Hd H. destruct H as [k v l H|back n i l x Hi He|back n l Hi|back n v l Hv Hn|a b c l ps xs Hs Hp|a b c v Hv].
  - eapply name_kids; eauto.
  - exists [AtIndex (Z.to_nat i)]. split; [|apply fop_one]. constructor; [|constructor]. destruct He as [_ He].
    econstructor; [exact He|constructor].
  - exists []. split; constructor.
  - eapply name_kids; eauto.
  - exists (map (fun z => AtIndex (Z.to_nat z)) ps). split; [apply positions_at; exact Hp|].
    assert (Hb : Forall (fun i => 0 <= i) ps) by (clear - Hp; induction Hp as [|? ? ? ? [? _]]; constructor; auto).
    destruct Hs as [st n Es Hst from to Hn|st n Es Hst from to Hn|Ec].
    + apply progression_kids. intros p q Hpq Hq.
      assert (0 <= from) by (unfold from, clip; lia).
      assert (E : 0 <= from + Z.of_nat p * st < from + Z.of_nat q * st) by nia.
      apply HR. split; [intro X; injection X as X; lia|]. intros i j Hij Ei Ej. injection Ei as <-. injection Ej as <-. lia.
    + destruct HG as [HG|HG]; [|apply HG in Hg; lia].
      apply progression_kids. intros p q Hpq Hq.
      assert (Z0 : 0 <= from + Z.of_nat q * st).
      { rewrite Forall_forall in Hb. apply Hb. unfold progression. apply in_map_iff. exists q. split; [reflexivity|]. apply in_seq. lia. }
      assert (E : from + Z.of_nat q * st < from + Z.of_nat p * st) by nia.
      apply HG. intro X; injection X as X; lia.
    + constructor.
  - exists []. split; constructor.
Qed.
