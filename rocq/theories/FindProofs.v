(** The machine gives what the short evaluator gives, in some order. *)
From Coq Require Import Permutation.
From Verif Require Import Base Syntax SpecSyntax Value Machine Parser Api SpecDoc DocProofs SpecSelect SpecRun SpecOp SpecText SpecSem SpecLaws
  SpecOnce SpecFind SelectFinal TextProofs SemFinal UnfoldProofs ReachProofs.
Local Open Scope Z_scope.

Lemma member_in : forall s m x, NoDup (map fst m) -> In (s, x) m -> member s m = [x].
Proof.
  intros s m x N H. unfold member. induction m as [|[k y] m IH]; [destruct H|]. cbn [map fst] in N. inversion N as [|? ? N1 N2]; subst.
  cbn [find fst]. destruct (list_eq_dec Z.eq_dec k s) as [->|Ne].
  - destruct H as [E|H]; [injection E as <-; reflexivity|]. exfalso. apply N1. apply in_map_iff. exists (s, x). auto.
  - destruct H as [E|H]; [congruence|]. apply IH; auto.
Qed.
Lemma member_none : forall s m, ~ In s (map fst m) -> member s m = [].
Proof.
  intros s m H. unfold member. induction m as [|[k y] m IH]; [reflexivity|]. cbn [map fst] in H. cbn [find fst].
  destruct (list_eq_dec Z.eq_dec k s) as [->|Ne]; [exfalso; apply H; left; reflexivity|]. apply IH. intro C. apply H. right. exact C.
Qed.

Lemma name_found : forall s v l, doc v -> picks_name s v l -> l = match v with VObj m => member s m | _ => [] end.
Proof.
  intros s v l Hd H. destruct H as [m x Hx|m Hx|v Hv].
  - symmetry. apply member_in; [exact (proj1 (Hd _ (WSelf _)))|exact Hx].
  - symmetry. apply member_none. exact Hx.
  - destruct v; try reflexivity. discriminate.
Qed.

Lemma arg_found : forall back v a l, literal_key a -> doc v -> picks (sel_of back a) v l -> l = find_arg back v a.
Proof.
  intros back v a l Ha Hd H. destruct a as [n|s|s| |]; try destruct Ha; cbn [sel_of] in *;
    try (inversion H as [? ? ? Hn| | | | |]; subst; rewrite (name_found _ _ _ Hd Hn); destruct v; reflexivity).
  inversion H as [|b1 n1 i m x Hi He E1 E2 E3|b1 n1 m Hr E1 E2 E3|b1 n1 w m Hw Hn E1 E2 E3| |]; subst.
  - destruct He as [He1 He2]. cbn [find_arg].
    assert (L : (Z.to_nat i < length m)%nat) by (apply nth_error_Some; congruence).
    assert (E : (if back && (n <? 0) then n + Z.of_nat (length m) else n) = i).
    { destruct (Z.ltb_spec n 0) as [Ln|Ln]; [|rewrite andb_false_r; lia].
      destruct Hi as [Hi|(Hb & Hn & Hi)]; [lia|]. rewrite Hb, Hi. reflexivity. }
    rewrite E. destruct (Z.ltb_spec i 0); [lia|]. rewrite He2. reflexivity.
  - cbn [find_arg].
    assert (E : let i := (if back && (n <? 0) then n + Z.of_nat (length m) else n) in i < 0 \/ Z.of_nat (length m) <= i).
    { cbv zeta. destruct (Z.ltb_spec n 0); [|rewrite andb_false_r; lia]. destruct back; cbn; [|lia].
      destruct Hr as [Hr|[_ Hr]]; [lia|]. specialize (Hr eq_refl). lia. }
    cbv zeta in *. destruct (Z.ltb_spec (if back && (n <? 0) then n + Z.of_nat (length m) else n) 0); [reflexivity|].
    destruct (nth_error m _) eqn:F; [|reflexivity]. assert (K : nth_error m (Z.to_nat (if back && (n <? 0) then n + Z.of_nat (length m) else n)) <> None) by congruence.
    apply nth_error_Some in K. lia.
  - rewrite (name_found _ _ _ Hd Hn). destruct v; try reflexivity; discriminate.
Qed.

Section found.
Variable root : val.
Hypothesis Droot : doc root.
(** equality, or equality but for the order *)
Variable R : list val -> list val -> Prop.
Hypothesis R_refl : forall l, R l l.
Hypothesis R_trans : forall l m n, R l m -> R m n -> R l n.
Hypothesis R_app : forall l l' m m', R l l' -> R m m' -> R (l ++ m) (l' ++ m').
Hypothesis R_flat : forall f l l', R l l' -> R (flat_map f l) (flat_map f l').
Hypothesis R_members : forall m m', within (VObj m) root -> Permutation m m' -> R (map snd m') (map snd m).

Definition inside (v : val) : Prop := within v root.
Lemma inside_doc : forall v, inside v -> doc v.
Proof. intros v H z Hz. apply Droot. eapply within_trans; eauto. Qed.

Lemma picked_found : forall o no args v l, nested o no -> Forall literal_key args -> inside v -> picked o args v l ->
  R l (find_step (mkStep o args) v) /\ find_step (mkStep no args) v = find_step (mkStep o args) v.
Proof.
  intros o no args v l N Ha Hv H.
  assert (C : children_in_order v l -> R l (offspring v)).
  { intros K. destruct K as [l|m m' P|v K]; cbn [offspring]; [apply R_refl|apply R_members; assumption|]. destruct v; try discriminate; apply R_refl. }
  assert (S : forall back, picks_all (map (sel_of back) args) v l -> l = flat_map (find_arg back v) args).
  { intros back (ls & F & ->). clear H C N. revert ls F. induction Ha as [|a args Ha Has IH]; intros ls F; cbn [map] in F; inversion F; subst; [reflexivity|].
    cbn [concat flat_map]. f_equal; [apply arg_found; auto using inside_doc|apply IH; assumption]. }
  destruct N; split; try reflexivity; try (rewrite (S _ H); apply R_refl). apply C. exact H.
Qed.

Lemma walks_found : forall v D, inside v -> walks v D -> R D (containers v).
Proof.
  fix go 4. intros v D Hv H. destruct H as [l ls F|m m' ls P F|v Hs]; cbn [containers].
  - apply (R_app [VArr l] [VArr l]); [apply R_refl|].
    assert (Hl : forall x, In x l -> inside x) by (intros x Hx; unfold inside; eapply within_trans; [eapply WElem; [exact Hx|constructor]|exact Hv]).
    clear Hv. induction F as [|x d l ls Hx F IH]; [apply R_refl|]. cbn [concat flat_map]. apply R_app.
    + apply go; [apply Hl; left; reflexivity|exact Hx].
    + apply IH. intros y Hy. apply Hl. right. exact Hy.
  - apply (R_app [VObj m] [VObj m]); [apply R_refl|].
    assert (E : flat_map (fun kv : bytes * val => containers (snd kv)) m = flat_map containers (map snd m)).
    { clear. induction m as [|kv m IH]; [reflexivity|]. cbn. rewrite IH. reflexivity. }
    rewrite E. apply R_trans with (flat_map containers (map snd m')); [|apply R_flat; apply R_members; assumption].
    assert (Hl : forall x, In x (map snd m') -> inside x).
    { intros x Hx. apply in_map_iff in Hx as ([k y] & <- & Hx). unfold inside. eapply within_trans; [|exact Hv].
      eapply WMember; [|constructor]. eapply Permutation_in; [apply Permutation_sym; exact P|exact Hx]. }
    clear E P Hv. induction F as [|x d l ls Hx F IH]; [apply R_refl|]. cbn [concat flat_map]. apply R_app.
    + apply go; [apply Hl; left; reflexivity|exact Hx].
    + apply IH. intros y Hy. apply Hl. right. exact Hy.
  - destruct v; try discriminate; apply R_refl.
Qed.

Lemma gathers_found : forall (pick : val -> list val -> Prop) f cands l, (forall v l, inside v -> pick v l -> R l (f v)) ->
  Forall inside cands -> gathers pick cands l -> R l (flat_map f cands).
Proof.
  intros pick f cands l H Hc (ls & F & ->). induction F as [|v x cands ls Hx F IH]; [apply R_refl|]. inversion Hc; subst.
  cbn [concat flat_map]. apply R_app; auto.
Qed.

Lemma picked_inside : forall o no args cands l, nested o no -> Forall literal_key args -> Forall inside cands -> gathers (picked o args) cands l -> Forall inside l.
Proof.
  intros o no args cands l N Ha Hc (ls & F & ->). induction F as [|v x cands ls Hx F IH]; [constructor|]. inversion Hc as [|? ? Hv Hcs]; subst.
  cbn [concat]. apply Forall_app. split; [|auto].
  destruct (picked_keys _ _ _ _ _ N Ha (inside_doc _ Hv) Hx) as (ks & [K _] & _). clear - K Hv.
  induction K as [|k y ks x Hk K IH]; constructor; auto. unfold inside. eapply within_trans; [eapply AddressProofs.value_at_within; exact Hk|exact Hv].
Qed.
Lemma walks_inside : forall cands l, Forall inside cands -> gathers walks cands l -> Forall inside l.
Proof.
  intros cands l Hc (ls & F & ->). induction F as [|v x cands ls Hx F IH]; [constructor|]. inversion Hc as [|? ? Hv Hcs]; subst.
  cbn [concat]. apply Forall_app. split; [|auto]. destruct (walks_visits v (inside_doc _ Hv) x Hx) as (rs & _ & V & _). clear - V Hv.
  induction V as [|k y ks x [Hk _] K IH]; constructor; auto. unfold inside. eapply within_trans; [eapply AddressProofs.value_at_within; exact Hk|exact Hv].
Qed.

Lemma flat_flat : forall (f g : val -> list val) l, flat_map f (flat_map g l) = flat_map (fun v => flat_map f (g v)) l.
Proof. intros f g l. induction l as [|x l IH]; [reflexivity|]. cbn. rewrite flat_map_app, IH. reflexivity. Qed.
Lemma flat_ext : forall (f g : val -> list val) l, (forall v, f v = g v) -> flat_map f l = flat_map g l.
Proof. intros f g l H. induction l as [|x l IH]; [reflexivity|]. cbn. rewrite H, IH. reflexivity. Qed.

Lemma path_found : forall W ss cands r, wf_path ss -> Forall (fun s => Forall literal_key (st_args s)) ss ->
  Forall inside cands -> path_means W root ss cands r -> exists l, r = OK l /\ R l (flat_map (find_path ss) cands).
Proof.
  intros W ss. induction ss as [|s ss IH]; intros cands r Hw Hl HC H.
  - inversion H; subst. exists cands. split; [reflexivity|]. clear - R_refl. replace (flat_map (find_path []) cands) with cands; [apply R_refl|].
    induction cands as [|x l IH]; [reflexivity|]. cbn in *. f_equal. exact IH.
  - inversion Hw as [|? ? Hw1 Hw2]; subst. inversion Hl as [|? ? Hl1 Hl2]; subst.
    assert (Step : forall r1, step_means W root s cands r1 -> exists l1, r1 = OK l1 /\ Forall inside l1 /\
      R l1 (flat_map (find_step s) (flat_map (fun v => if is_nest (st_op s) then containers v else [v]) cands))).
    { intros r1 S. destruct (literal_cases _ _ _ _ _ Hl1 S) as (o & no & N & E). destruct (nested_nest _ _ N) as [No Nn].
      destruct E as [E|E]; rewrite E in S; rewrite E; cbn [st_op st_args].
      - destruct (UnfoldProofs.plain_step _ _ _ _ _ _ _ N Hl1 S) as (l1 & -> & G). exists l1. split; [reflexivity|].
        split; [eapply picked_inside; eauto|]. rewrite No.
        replace (flat_map (fun v => [v]) cands) with cands by (clear; induction cands as [|x l IH]; [reflexivity|]; cbn; f_equal; exact IH).
        eapply gathers_found; [|exact HC|exact G]. intros v l Hv Hp. apply (picked_found _ _ _ _ _ N Hl1 Hv Hp).
      - destruct (UnfoldProofs.nest_step _ _ _ _ _ _ _ N Hl1 S) as (D & l1 & -> & Rd & G).
        destruct (fair_rounds _ _ _ _ (picked_fair _ _ _ N Hl1) Rd G) as (D' & GD & G').
        pose proof (walks_inside _ _ HC GD) as HD. exists l1. split; [reflexivity|]. split; [eapply picked_inside; eauto|]. rewrite Nn.
        apply R_trans with (flat_map (find_step (mkStep no (st_args s))) D').
        + eapply gathers_found; [|exact HD|exact G']. intros v l Hv Hp. destruct (picked_found _ _ _ _ _ N Hl1 Hv Hp) as [A ->]. exact A.
        + apply R_flat. eapply gathers_found; [|exact HC|exact GD]. intros v l Hv Hp. apply walks_found; assumption. }
    inversion H as [|? ? ? x ? S P|? ? ? err S|? ? ? S]; subst; destruct (Step _ S) as (l1 & E & A1 & A2); try discriminate E. injection E as ->.
    destruct (IH _ _ Hw2 Hl2 A1 P) as (l & -> & B). exists l. split; [reflexivity|]. eapply R_trans; [exact B|].
    rewrite (flat_ext (find_path (s :: ss)) (fun v => flat_map (find_path ss) (flat_map (find_step s) (if is_nest (st_op s) then containers v else [v]))))
      by reflexivity.
    rewrite <- flat_flat with (g := fun v => flat_map (find_step s) (if is_nest (st_op s) then containers v else [v])).
    rewrite <- flat_flat. apply R_flat. exact A2.
Qed.
End found.

Lemma text_found : forall TX s ss jp W t root r, accepted TX s ss jp -> fits jp -> orders_ok W -> doc root ->
  Forall (fun s => Forall literal_key (st_args s)) ss -> JP_Eval W t jp root r ->
  exists l, r = OK l /\ Permutation l (find_path ss root) /\ (lone_members root -> l = find_path ss root).
Proof.
  intros TX s ss jp W t root r Ha Hf HW Hd Hl H. pose proof (text_means _ _ _ _ _ _ _ _ Ha Hf HW Hd H) as Hm.
  assert (I : Forall (inside root) [root]) by (constructor; [constructor|constructor]).
  destruct (path_found root Hd (@Permutation val) (@Permutation_refl val) (@Permutation_trans val)) with (W := W) (ss := ss) (cands := [root]) (r := r)
    as (l & -> & P); auto.
  { intros. apply Permutation_app; assumption. }
  { intros. apply Permutation_flat_map. assumption. }
  { intros m m' _ P. apply Permutation_map. apply Permutation_sym. exact P. }
  { eapply text_wf; eauto. }
  cbn [flat_map] in P. rewrite app_nil_r in P. exists l. split; [reflexivity|]. split; [exact P|]. intro L.
  destruct (path_found root Hd eq (@eq_refl (list val)) (@eq_trans (list val))) with (W := W) (ss := ss) (cands := [root]) (r := OK l : M (list val))
    as (l' & E & P'); auto.
  { intros. congruence. }
  { intros. congruence. }
  { intros m m' K Q. apply L in K. destruct m as [|x [|y m]]; [apply Permutation_nil in Q; subst; reflexivity| |cbn in K; lia].
    apply Permutation_length_1_inv in Q. subst. reflexivity. }
  { eapply text_wf; eauto. }
  injection E as ->. cbn [flat_map] in P'. rewrite app_nil_r in P'. exact P'.
Qed.
