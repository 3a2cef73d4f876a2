(** Whole paths that select no place twice. *)
From Coq Require Import Permutation.
From Verif Require Import Base Syntax SpecSyntax Value Machine Parser Api SpecDoc DocProofs SpecSelect SpecRun SpecOp SpecText SpecSem SpecOnce
  SpecCost SelectFinal SelectText TextProofs SemFinal AddressProofs OnceProofs Examples.
Local Open Scope Z_scope.

Lemma filter_more : forall s ss, has_filter ss -> has_filter (s :: ss).
Proof. intros s ss (x & Hx & Ho). exists x. split; [right|]; assumption. Qed.

Section paths.
Variable W : world.
Variable root : val.
Hypothesis Droot : doc root.

Section plain.
Variable R : list key -> list key -> Prop.
Variable Rk : key -> key -> Prop.
Variable good : sel -> Prop.
Hypothesis Rsame : forall p k k', Rk k k' -> R (p ++ [k]) (p ++ [k']).
Hypothesis Rdiff : forall p p' k k', R p p' -> R (p ++ [k]) (p' ++ [k']).
Hypothesis Kfor : forall k k', forward_keys k k' -> Rk k k'.
Hypothesis Kgood : (forall k k', k <> k' -> Rk k k') \/ forall a b c, good (SSlice a b c) -> 0 <= or_default 1 c.

Lemma plain_one : forall s cands l, wf_step s -> is_union (st_op s) = false -> is_nest (st_op s) = false ->
  arg_good root good W s -> located root R cands -> step_means W root s cands (OK l) ->
  located root R l \/ (l = [VNil] /\ st_op s = OpFilter).
Proof.
  intros. eapply (plain_step root Droot R Rk good Rsame Rdiff (picks_kids Rk good Kfor Kgood) (children_kids Rk Kfor)); eauto.
Qed.

Lemma plain_path : forall ss cands l (null : Prop), wf_path ss -> no_union ss -> Forall (fun s => is_nest (st_op s) = false) ss ->
  Forall (arg_good root good W) ss -> located root R cands \/ (cands = [VNil] /\ null) ->
  path_means W root ss cands (OK l) ->
  located root R l \/ (l = [VNil] /\ (null \/ has_filter ss)).
Proof.
  induction ss as [|s ss IH]; intros cands l null Hw Hu Hn Hg HL H.
  - inversion H; subst. destruct HL as [HL|[-> Hl]]; auto.
  - inversion H as [|? ? ? l1 ? H1 H2| |]; subst. inversion Hw as [|? ? Hw1 Hw2]; subst. inversion Hn as [|? ? Hn1 Hn2]; subst.
    inversion Hg as [|? ? Hg1 Hg2]; subst.
    assert (Hu1 : is_union (st_op s) = false) by (apply Hu; left; reflexivity).
    assert (Hu2 : no_union ss) by (intros x Hx; apply Hu; right; exact Hx).
    assert (K : located root R l1 \/ (l1 = [VNil] /\ (null \/ has_filter (s :: ss)))).
    { destruct HL as [HL|[-> HL]].
      - destruct (plain_one s cands l1 Hw1 Hu1 Hn1 Hg1 HL H1) as [K|[K Ho]]; [left; exact K|].
        right. split; [exact K|]. right. exists s. split; [left; reflexivity|left; exact Ho].
      - destruct (null_step W root s l1 Hw1 Hu1 H1) as [->|[-> _]]; [left; apply located_nil|right; auto]. }
    destruct (IH l1 l _ Hw2 Hu2 Hn2 Hg2 K H2) as [J|[J [[E|E]|E]]]; auto using filter_more.
Qed.
End plain.

(** ** Once *)
Definition apart (x y : list key) : Prop := x <> y.
Definition level_apart (x y : list key) : Prop := length x = length y /\ x <> y.
Definition keys_apart (k k' : key) : Prop := k <> k'.
Definition any (s : sel) : Prop := True.

Lemma apart_same : forall p k k', keys_apart k k' -> apart (p ++ [k]) (p ++ [k']).
Proof. intros p k k' H E. apply app_inv_head in E. injection E. exact H. Qed.
Lemma apart_diff : forall p p' k k', apart p p' -> apart (p ++ [k]) (p' ++ [k']).
Proof. intros p p' k k' H E. apply app_inj_tail in E as [E _]. exact (H E). Qed.
Lemma level_same : forall p k k', keys_apart k k' -> level_apart (p ++ [k]) (p ++ [k']).
Proof. intros p k k' H. split; [rewrite !app_length; reflexivity|apply apart_same; exact H]. Qed.
Lemma level_diff : forall p p' k k', level_apart p p' -> level_apart (p ++ [k]) (p' ++ [k']).
Proof. intros p p' k k' [L H]. split; [rewrite !app_length, L; reflexivity|apply apart_diff; exact H]. Qed.
Lemma forward_apart : forall k k', forward_keys k k' -> keys_apart k k'.
Proof. intros k k' [H _]. exact H. Qed.
Lemma all_good : forall ss, Forall (arg_good root any W) ss.
Proof. intro ss. apply Forall_forall. intros s _ a dot sl _ _. exact I. Qed.

Lemma level_located : forall l, located root level_apart l -> located root apart l.
Proof. intros l (ps & H1 & H2). exists ps. split; [exact H1|]. eapply fop_impl; [|exact H2]. intros x y [_ H]. exact H. Qed.

Lemma app_level : forall (p p' q q' : list key), length p = length p' -> p ++ q = p' ++ q' -> p = p'.
Proof.
  induction p as [|k p IH]; intros [|k' p'] q q' L E; try discriminate; [reflexivity|]. cbn in *. injection E as <- E. f_equal. eauto.
Qed.

Lemma walks_located : forall cands dots, located root level_apart cands -> gathers walks cands dots -> located root apart dots.
Proof.
  intros cands dots HL (ls & H & ->). pose proof (located_doc root Droot _ cands HL) as Hd. destruct HL as (ps & H1 & H2).
  assert (K : exists qs, Forall2 (value_at root) qs (concat ls) /\ FOP apart qs /\
                forall q, In q qs -> exists p r, In p ps /\ q = p ++ r).
  2:{ destruct K as (qs & K1 & K2 & _). exists qs. auto. }
  revert ps H1 H2. induction H as [|v l cands ls Hv H IH]; intros ps H1 H2.
  - exists []. repeat split; try constructor. intros q [].
  - inversion H1 as [|p ? ps' ? Hp H1']; subst. inversion H2 as [|? ? H3 H4]; subst. inversion Hd as [|? ? D1 D2]; subst.
    destruct (IH D2 _ H1' H4) as (qs & Q1 & Q2 & Q3).
    destruct (walks_visits v D1 l Hv) as (rs & N & V & _).
    exists (map (fun r => p ++ r) rs ++ qs). split; [|split].
    + cbn [concat]. apply Forall2_app; [|exact Q1]. clear - Hp V.
      induction V as [|k x ks l [Hk _] V IHk]; constructor; [eapply value_at_app; eauto|exact IHk].
    + apply fop_app; [|exact Q2|].
      * clear - N. induction N as [|r rs Hr N IHn]; constructor; [|exact IHn]. apply Forall_map. apply Forall_forall.
        intros r' Hr' E. apply app_inv_head in E. subst. contradiction.
      * intros x y Hx Hy. apply in_map_iff in Hx as (k & <- & _). destruct (Q3 _ Hy) as (p' & k' & Hp' & ->).
        rewrite Forall_forall in H3. destruct (H3 _ Hp') as [L D]. intro E. apply D. eapply app_level; eauto.
    + intros q Hq. apply in_app_iff in Hq as [Hq|Hq].
      * apply in_map_iff in Hq as (k & <- & _). exists p, k. split; [left; reflexivity|reflexivity].
      * destruct (Q3 _ Hq) as (p' & k' & Hp' & ->). exists p', k'. split; [right; exact Hp'|reflexivity].
Qed.

Lemma no_descents : forall ss, descents ss = O -> Forall (fun s => is_nest (st_op s) = false) ss.
Proof.
  unfold descents. induction ss as [|s ss IH]; cbn; intro H; constructor; destruct (is_nest (st_op s)) eqn:E; try discriminate; auto.
Qed.

Lemma once_path : forall ss cands l (null : Prop), wf_path ss -> no_union ss -> (descents ss <= 1)%nat ->
  located root level_apart cands \/ (cands = [VNil] /\ null) ->
  path_means W root ss cands (OK l) ->
  located root apart l \/ (l = [VNil] /\ (null \/ has_filter ss)).
Proof.
  induction ss as [|s ss IH]; intros cands l null Hw Hu Hn HL H.
  - inversion H; subst. destruct HL as [HL|[-> Hl]]; auto using level_located.
  - inversion H as [|? ? ? l1 ? H1 H2| |]; subst. inversion Hw as [|? ? Hw1 Hw2]; subst.
    assert (Hu1 : is_union (st_op s) = false) by (apply Hu; left; reflexivity).
    assert (Hu2 : no_union ss) by (intros x Hx; apply Hu; right; exact Hx).
    assert (Hg : arg_good root any W s) by (intros a dot sl _ _; exact I).
    destruct (is_nest (st_op s)) eqn:En.
    + assert (Hd : descents ss = O) by (unfold descents in *; cbn in Hn; rewrite En in Hn; cbn in Hn; lia).
      assert (K : located root apart l1 \/ (l1 = [VNil] /\ (null \/ has_filter (s :: ss)))).
      { destruct HL as [HL|[-> HL]].
        - destruct (nest_step root Droot apart keys_apart any apart_same apart_diff
            (picks_kids keys_apart any forward_apart (or_introl (fun k k' x => x))) (children_kids keys_apart forward_apart)
            W s cands l1 Hw1 Hu1 En Hg (fun dots => walks_located cands dots HL) H1) as [K|[K Ho]]; [left; exact K|].
          right. split; [exact K|]. right. exists s. split; [left; reflexivity|right; exact Ho].
        - destruct (null_step W root s l1 Hw1 Hu1 H1) as [->|[-> _]]; [left; apply located_nil|right; auto]. }
      destruct (plain_path apart keys_apart any apart_same apart_diff forward_apart (or_introl (fun k k' x => x))
        ss l1 l _ Hw2 Hu2 (no_descents ss Hd) (all_good ss) K H2) as [J|[J [[E|E]|E]]]; auto using filter_more.
    + assert (Hd : (descents ss <= 1)%nat) by (unfold descents in *; cbn in Hn; rewrite En in Hn; exact Hn).
      assert (K : located root level_apart l1 \/ (l1 = [VNil] /\ (null \/ has_filter (s :: ss)))).
      { destruct HL as [HL|[-> HL]].
        - destruct (plain_one level_apart keys_apart any level_same level_diff forward_apart (or_introl (fun k k' x => x))
            s cands l1 Hw1 Hu1 En Hg HL H1) as [K|[K Ho]]; [left; exact K|].
          right. split; [exact K|]. right. exists s. split; [left; reflexivity|left; exact Ho].
        - destruct (null_step W root s l1 Hw1 Hu1 H1) as [->|[-> _]]; [left; apply located_nil|right; auto]. }
      destruct (IH l1 l _ Hw2 Hu2 Hd K H2) as [J|[J [[E|E]|E]]]; auto using filter_more.
Qed.

(** ** In order *)
Definition precedes (x y : list key) : Prop :=
  exists a i j b c, (i < j)%nat /\ x = a ++ AtIndex i :: b /\ y = a ++ AtIndex j :: c.
Definition ordered (x y : list key) : Prop := length x = length y /\ x <> y /\ ~ precedes y x.
Definition up (s : sel) : Prop := match s with SSlice _ _ c => 0 <= or_default 1 c | _ => True end.

Lemma snoc_cases : forall A (b : list A), b = [] \/ exists b' k, b = b' ++ [k].
Proof. intros A b. induction b using rev_ind; eauto. Qed.

Lemma precedes_level : forall x y k k', length x = length y -> precedes (x ++ [k]) (y ++ [k']) ->
  precedes x y \/ (x = y /\ exists i j, (i < j)%nat /\ k = AtIndex i /\ k' = AtIndex j).
Proof.
  intros x y k k' L (a & i & j & b & c & Hij & Ex & Ey).
  assert (Lbc : length b = length c).
  { apply (f_equal (@length _)) in Ex, Ey. rewrite !app_length in Ex, Ey. cbn in Ex, Ey. lia. }
  destruct (snoc_cases _ b) as [->|(b' & kb & ->)]; destruct (snoc_cases _ c) as [->|(c' & kc & ->)].
  - right. apply app_inj_tail in Ex as [-> ->]. apply app_inj_tail in Ey as [-> ->]. split; [reflexivity|eauto].
  - rewrite app_length in Lbc. cbn in Lbc. lia.
  - rewrite app_length in Lbc. cbn in Lbc. lia.
  - left. rewrite app_comm_cons, app_assoc in Ex, Ey. apply app_inj_tail in Ex as [-> _]. apply app_inj_tail in Ey as [-> _].
    exists a, i, j, b', c'. auto.
Qed.

Lemma precedes_self : forall x, ~ precedes x x.
Proof.
  intros x (a & i & j & b & c & Hij & E1 & E2). rewrite E1 in E2. apply app_inv_head in E2. injection E2 as E2 _. lia.
Qed.

Lemma ordered_same : forall p k k', forward_keys k k' -> ordered (p ++ [k]) (p ++ [k']).
Proof.
  intros p k k' [N F]. split; [rewrite !app_length; reflexivity|]. split; [apply apart_same; exact N|].
  intro H. apply precedes_level in H as [H|[_ (i & j & Hij & E1 & E2)]]; [eapply precedes_self; eauto|eapply F; eauto|reflexivity].
Qed.
Lemma ordered_diff : forall p p' k k', ordered p p' -> ordered (p ++ [k]) (p' ++ [k']).
Proof.
  intros p p' k k' (L & N & H). split; [rewrite !app_length, L; reflexivity|]. split; [apply apart_diff; exact N|].
  intro K. apply precedes_level in K as [K|[E _]]; [auto|congruence|symmetry; exact L].
Qed.

Lemma forwards_good : forall ss, forwards ss -> Forall (arg_good root up W) ss.
Proof.
  intros ss H. apply Forall_forall. intros s Hs a dot sl Ha Hm. destruct sl as [k|back n|x y z]; cbn; auto.
  inversion Hm as [| | |p E|e v o Hv Hac|]; subst.
  - apply (H (written_bound (sl_start p)) (written_bound (sl_end p))). exists s, p. auto.
  - inversion Hac.
Qed.

Lemma fop_nth : forall A (P : A -> A -> Prop) l, FOP P l -> forall i j x y, (i < j)%nat ->
  nth_error l i = Some x -> nth_error l j = Some y -> P x y.
Proof.
  intros A P l H. induction H as [|a l Ha H IH]; intros i j x y Hij Hx Hy; [destruct i; discriminate|].
  destruct j as [|j]; [lia|]. destruct i as [|i]; cbn in *.
  - injection Hx as <-. rewrite Forall_forall in Ha. apply Ha. eapply nth_error_In; eauto.
  - eapply IH; [|eassumption..]. lia.
Qed.

Lemma order_path : forall ss l, wf_path ss -> no_union ss -> descents ss = O -> forwards ss ->
  path_means W root ss [root] (OK l) -> places_in_order root l \/ (l = [VNil] /\ has_filter ss).
Proof.
  intros ss l Hw Hu Hd Hf H.
  assert (L0 : located root ordered [root] \/ ([root] = [VNil] /\ False)).
  { left. exists [[]]. split; [constructor; constructor|apply fop_one]. }
  destruct (plain_path ordered forward_keys up ordered_same ordered_diff (fun k k' x => x)
    (or_intror (fun a b c (x : up (SSlice a b c)) => x)) ss [root] l False Hw Hu (no_descents ss Hd) (forwards_good ss Hf) L0 H)
    as [(ps & K1 & K2)|[-> [[]|K]]]; [left|right; auto].
  exists ps. split; [apply fop_nodup; eapply fop_impl; [|exact K2]; intros x y (_ & N & _); exact N|]. split; [exact K1|].
  intros a i j b c Hij m n Hm Hn. destruct (Nat.lt_trichotomy m n) as [L|[->|L]]; [exact L| |].
  - exfalso. rewrite Hm in Hn. injection Hn as E. apply app_inv_head in E. injection E as E _. lia.
  - exfalso. destruct (fop_nth _ _ _ K2 n m _ _ L Hn Hm) as (_ & _ & N). apply N. exists a, i, j, b, c. auto.
Qed.
End paths.

Lemma text_once : forall TX s ss jp W t root l, accepted TX s ss jp -> fits jp -> orders_ok W -> doc root ->
  no_union ss -> (descents ss <= 1)%nat -> JP_Eval W t jp root (OK l) ->
  places_once root l \/ (l = [VNil] /\ has_filter ss).
Proof.
  intros TX s ss jp W t root l Ha Hf HW Hd Hu Hn H. pose proof (text_means _ _ _ _ _ _ _ _ Ha Hf HW Hd H) as M.
  assert (L0 : located root level_apart [root] \/ ([root] = [VNil] /\ False)).
  { left. exists [[]]. split; [constructor; constructor|apply fop_one]. }
  destruct (once_path W root Hd ss [root] l False (text_wf _ _ _ _ Ha) Hu Hn L0 M) as [(ps & K1 & K2)|[-> [[]|K]]]; [left|right; auto].
  exists ps. split; [apply fop_nodup; exact K2|exact K1].
Qed.

Lemma text_in_order : forall TX s ss jp W t root l, accepted TX s ss jp -> fits jp -> orders_ok W -> doc root ->
  no_union ss -> descents ss = O -> forwards ss -> JP_Eval W t jp root (OK l) ->
  places_in_order root l \/ (l = [VNil] /\ has_filter ss).
Proof.
  intros TX s ss jp W t root l Ha Hf HW Hd Hu Hn Hs H. pose proof (text_means _ _ _ _ _ _ _ _ Ha Hf HW Hd H) as M.
  eapply order_path; eauto. eapply text_wf; eauto.
Qed.

(** ** How many *)
Fixpoint all_places (v : val) : list (list key) :=
  [] :: match v with
        | VArr l => (fix go i l := match l with [] => [] | x :: l => map (cons (AtIndex i)) (all_places x) ++ go (S i) l end) O l
        | VObj m => (fix go m := match m with [] => [] | (k, x) :: m => map (cons (AtName k)) (all_places x) ++ go m end) m
        | _ => []
        end.

Lemma places_arr : forall l i, length ((fix go i l := match l with [] => [] | x :: l => map (cons (AtIndex i)) (all_places x) ++ go (S i) l end) i l)
  = list_sum (map (fun x => length (all_places x)) l).
Proof. induction l as [|x l IH]; intro i; cbn; [reflexivity|]. rewrite app_length, map_length, IH. reflexivity. Qed.
Lemma places_obj : forall m, length ((fix go m := match m with [] => [] | (k, x) :: m => map (cons (AtName k)) (all_places x) ++ go m end) m)
  = list_sum (map (fun kv : bytes * val => length (all_places (snd kv))) m).
Proof. induction m as [|[k x] m IH]; cbn; [reflexivity|]. rewrite app_length, map_length, IH. reflexivity. Qed.

Lemma places_nodes : forall v, length (all_places v) = nodes v.
Proof.
  fix go 1. intros [ | | | | | | |l|m| | | | ]; try reflexivity.
  - cbn [all_places length nodes]. rewrite places_arr. f_equal. f_equal.
    induction l as [|x l IH]; [reflexivity|]. cbn [map]. f_equal; [apply go|exact IH].
  - cbn [all_places length nodes]. rewrite places_obj. f_equal. f_equal.
    induction m as [|[k x] m IH]; [reflexivity|]. cbn [map snd]. f_equal; [apply go|exact IH].
Qed.

Lemma places_all : forall v p x, value_at v p x -> In p (all_places v).
Proof.
  intros v p x H. induction H as [v|l i e a x He H IH|m k e a x He H IH]; [destruct v; left; reflexivity| |]; cbn [all_places]; right.
  - assert (K : forall l j n, nth_error l n = Some e -> In (AtIndex (j + n) :: a)
      ((fix go i l := match l with [] => [] | x :: l => map (cons (AtIndex i)) (all_places x) ++ go (S i) l end) j l)).
    2:{ apply (K l O i He). }
    clear He l. induction l as [|y l IHl]; intros j n Hn; [destruct n; discriminate|]. apply in_app_iff. destruct n as [|n]; cbn in Hn.
    + left. injection Hn as ->. rewrite Nat.add_0_r. apply in_map. exact IH.
    + right. rewrite Nat.add_succ_r. apply (IHl (S j) n Hn).
  - induction m as [|[k' y] m IHm]; [destruct He|]. apply in_app_iff. destruct He as [E|He]; [left|right; auto].
    injection E as -> ->. apply in_map. exact IH.
Qed.

Lemma once_count : forall root l, places_once root l -> (length l <= nodes root)%nat.
Proof.
  intros root l (ps & N & H). rewrite <- places_nodes. erewrite <- (Forall2_length _ _ _ _ _ H).
  apply NoDup_incl_length; [exact N|]. clear N. induction H as [|p x ps l Hp H IH]; intros q Hq; [destruct Hq|].
  destruct Hq as [<-|Hq]; [eapply places_all; eauto|auto].
Qed.

Lemma text_count : forall TX s ss jp W t root l, accepted TX s ss jp -> fits jp -> orders_ok W -> doc root ->
  no_union ss -> (descents ss <= 1)%nat -> JP_Eval W t jp root (OK l) -> (length l <= nodes root)%nat.
Proof.
  intros TX s ss jp W t root l Ha Hf HW Hd Hu Hn H.
  destruct (text_once _ _ _ _ _ _ _ _ Ha Hf HW Hd Hu Hn H) as [K|[-> _]]; [apply once_count; exact K|].
  destruct root; cbn; lia.
Qed.
