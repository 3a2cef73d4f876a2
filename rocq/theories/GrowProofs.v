(** What is selected from a document that grows. *)
From Coq Require Import Permutation.
From Verif Require Import Syntax SpecSyntax Value Machine Coder SpecDoc SpecSelect SpecRun SpecCode SpecSem SpecText Api
  DocProofs SelectProofs WalkProofs OrderProofs SemFinal UniquePath SpecLaws UnfoldProofs SpecGrow Examples.
Local Open Scope Z_scope.

Section Grow.
Variable more : bool.
Notation gr := (grows more).
Notation inc := (includes more).

Lemma inc_nil : forall l, inc [] l.
Proof. intro l. exists [], l. split; [constructor|apply Permutation_refl]. Qed.
Lemma inc_one : forall v v', gr v v' -> inc [v] [v'].
Proof. intros v v' H. exists [v'], []. split; [repeat constructor; exact H|apply Permutation_refl]. Qed.
Lemma inc_app : forall a b a' b', inc a a' -> inc b b' -> inc (a ++ b) (a' ++ b').
Proof.
  intros a b a' b' (x & r & F & P) (y & q & G & Q). exists (x ++ y), (r ++ q). split; [apply Forall2_app; assumption|].
  eapply Permutation_trans; [apply Permutation_app; eassumption|]. rewrite <- !app_assoc. apply Permutation_app_head.
  rewrite !app_assoc. apply Permutation_app_tail. apply Permutation_app_comm.
Qed.
Lemma inc_more : forall a a' b, inc a a' -> inc a (a' ++ b).
Proof. intros a a' b H. rewrite <- (app_nil_r a). apply inc_app; [exact H|apply inc_nil]. Qed.
Lemma inc_perm_r : forall a b c, inc a b -> Permutation b c -> inc a c.
Proof. intros a b c (x & r & F & P) Q. exists x, r. split; [exact F|]. eapply Permutation_trans; [apply Permutation_sym; exact Q|exact P]. Qed.
Lemma inc_perm_l : forall a b c, inc a b -> Permutation a c -> inc c b.
Proof.
  intros a b c (x & r & F & P) Q. destruct (F2_perm _ _ _ _ _ _ Q F) as (y & Hy & G). exists y, r. split; [exact G|].
  eapply Permutation_trans; [exact P|]. apply Permutation_app_tail. exact Hy.
Qed.

(** picks that give more from what has grown *)
Definition mono (P : val -> list val -> Prop) : Prop :=
  forall v v' x x', gr v v' -> doc v -> doc v' -> P v x -> P v' x' -> inc x x'.
Lemma mono_F2 : forall (P : val -> list val -> Prop) c c1, Forall2 gr c c1 ->
  (forall v v' x x', In v c -> In v' c1 -> gr v v' -> P v x -> P v' x' -> inc x x') ->
  forall x x', gathers P c x -> gathers P c1 x' -> inc x x'.
Proof.
  intros P c c1 F. induction F as [|v v' c c1 Hv F IH]; intros H x x' G G'.
  - destruct G as (ls & G & ->). inversion G; subst. apply inc_nil.
  - apply gathers_cons in G as (a & b & Ha & G & ->). apply gathers_cons in G' as (a' & b' & Ha' & G' & ->).
    apply inc_app; [apply (H v v'); auto using in_eq|apply IH; auto]. intros; eapply H; eauto using in_cons.
Qed.
Lemma mono_gathers : forall (P : val -> list val -> Prop) c c', inc c c' ->
  (forall v v' x x', In v c -> In v' c' -> gr v v' -> P v x -> P v' x' -> inc x x') ->
  forall x x', gathers P c x -> gathers P c' x' -> inc x x'.
Proof.
  intros P c c' (c1 & rest & F & Hp) H x x' G (ls & G' & ->). destruct (F2_perm _ _ _ _ _ _ Hp G') as (ls2 & Hq & G2).
  apply inc_perm_r with (b := concat ls2); [|apply concat_perm, Permutation_sym; exact Hq].
  apply Forall2_app_inv_l in G2 as (a & b & Ga & Gb & ->). rewrite concat_app. apply inc_more.
  eapply (mono_F2 P c c1); eauto; [|exists a; auto]. intros v v' y y' Hv Hv'. apply H; [exact Hv|].
  apply (Permutation_in _ (Permutation_sym Hp)). apply in_or_app. auto.
Qed.
Lemma mono_docs : forall P c c' x x', mono P -> inc c c' -> Forall doc c -> Forall doc c' -> gathers P c x -> gathers P c' x' -> inc x x'.
Proof.
  intros P c c' x x' M I D D' G G'. rewrite Forall_forall in D, D'. eapply mono_gathers; [exact I| |exact G|exact G'].
  intros v v' y y' Hv Hv' Hg. apply M; auto.
Qed.

Lemma grown_members : forall m m1, Forall2 (fun x y : bytes * val => fst x = fst y /\ gr (snd x) (snd y)) m m1 -> Forall2 gr (map snd m) (map snd m1).
Proof. intros m m1 F. induction F as [|x y m m1 [_ H] F IH]; constructor; assumption. Qed.
Lemma grown_children : forall v v' x x', gr v v' -> children_in_order v x -> children_in_order v' x' -> inc x x'.
Proof.
  intros v v' x x' H Hx Hx'. inversion H as [u Hu|l l1 new F Hn|m m1 new m' F Hp]; subst.
  - inversion Hx; subst; try discriminate Hu. apply inc_nil.
  - inversion Hx; subst; [|discriminate]. inversion Hx'; subst; [|discriminate]. exists l1, new. split; [exact F|apply Permutation_refl].
  - inversion Hx as [|? m2 P2|]; subst; [|discriminate]. inversion Hx' as [|? m3 P3|]; subst; [|discriminate].
    apply inc_perm_l with (a := map snd m); [|apply Permutation_map; exact P2].
    exists (map snd m1), (map snd new). split; [apply grown_members; exact F|]. rewrite <- map_app. apply Permutation_map.
    eapply Permutation_trans; [apply Permutation_sym; exact P3|exact Hp].
Qed.
Lemma children_mono : mono children_in_order.
Proof. intros v v' x x' H _ _. apply grown_children. exact H. Qed.

Lemma grown_flat : forall v v', gr v v' -> IsStructure v = IsStructure v' /\ IsArray v = IsArray v' /\ IsObject v = IsObject v'.
Proof. intros v v' H. destruct H; auto. Qed.
Lemma grown_walks : forall v v' x x', gr v v' -> walks v x -> walks v' x' -> inc x x'.
Proof.
  intro v. induction v as [|x0|x0|x0|x0|s0|s0|l0 IH|m IH|s0|s0|s0|k0] using val_tree_ind; intros v' x x' H Hx Hx';
    try (inversion Hx as [| |? Hs]; subst; apply inc_nil).
  - inversion H as [u Hu|l l1 new F Hn|]; subst; [discriminate Hu|]. inversion Hx as [? ls G| |]; subst; [|discriminate]. inversion Hx' as [? ls' G'| |]; subst; [|discriminate].
    apply (inc_app [_] _ [_]); [apply inc_one; exact H|]. rewrite Forall_forall in IH.
    apply (mono_gathers walks l0 (l1 ++ new)); [|intros; eapply IH; eauto|exists ls; auto|exists ls'; auto].
    exists l1, new. split; [exact F|apply Permutation_refl].
  - inversion H as [u Hu| |? m1 new m' F Hp]; subst; [discriminate Hu|]. inversion Hx as [|? m2 ls P2 G|]; subst; [|discriminate]. inversion Hx' as [|? m3 ls' P3 G'|]; subst; [|discriminate].
    apply (inc_app [_] _ [_]); [apply inc_one; exact H|]. rewrite Forall_forall in IH.
    apply (mono_gathers walks (map snd m2) (map snd m3)); [|intros v v' y y' Hv _|exists ls; auto|exists ls'; auto].
    + apply grown_children with (v := VObj m) (v' := VObj m'); [exact H|constructor; exact P2|constructor; exact P3].
    + apply in_map_iff in Hv as ([k e] & <- & He). apply (Permutation_in _ (Permutation_sym P2)) in He. apply (IH (k, e) He).
Qed.

Lemma grown_in : forall m m1 k x, Forall2 (fun x y : bytes * val => fst x = fst y /\ gr (snd x) (snd y)) m m1 -> In (k, x) m -> exists x', In (k, x') m1 /\ gr x x'.
Proof.
  intros m m1 k x F H. induction F as [|[k0 x0] [k' x'] m m1 [E Hg] F IH]; [destruct H|]. cbn [fst snd] in *.
  destruct H as [[= -> ->]|H]; [subst; eauto using in_eq|]. destruct (IH H) as (y & Hy & G). eauto using in_cons.
Qed.
Lemma grown_name : forall k v v' x x', gr v v' -> json_node v' -> picks_name k v x -> picks_name k v' x' -> inc x x'.
Proof.
  intros k v v' x x' H Hd Hx Hx'. destruct Hx as [m e He|m Hm|v Hv]; try apply inc_nil.
  inversion H as [u Hu| |? m1 new m' F Hp]; subst; [discriminate Hu|]. destruct (grown_in _ _ _ _ F He) as (e' & He' & Hg).
  assert (Hi : In (k, e') m') by (apply (Permutation_in _ (Permutation_sym Hp)); apply in_or_app; auto).
  rewrite (picks_name_fun k (VObj m') x' [e'] Hd Hx' (PnMember k m' e' Hi)). apply inc_one. exact Hg.
Qed.
Definition steady (s : sel) : Prop := match s with SName _ => True | SIndex _ n => more = true -> 0 <= n | SSlice _ _ _ => False end.
Lemma F2_length_eq : forall l l1, Forall2 gr l l1 -> length l = length l1.
Proof. intros l l1 F. induction F; cbn [length]; congruence. Qed.
Lemma F2_nth_l : forall l l1 i x, Forall2 gr l l1 -> nth_error l i = Some x -> exists x', nth_error l1 i = Some x' /\ gr x x'.
Proof.
  intros l l1 i x F. revert i. induction F as [|a b l l1 Hab F IH]; intros [|i] H; try discriminate; cbn [nth_error] in *; [injection H as ->; eauto|auto].
Qed.
Lemma grown_picks : forall s v v' x x', steady s -> gr v v' -> json_node v' -> picks s v x -> picks s v' x' -> inc x x'.
Proof.
  intros s v v' x x' Hs H Hd Hx Hx'. destruct Hx as [k v x Hx|back n i l x Hi He|back n l Hr|back n v x Ha Hx|a b c l ps xs Hp Hf|a b c v Ha]; try apply inc_nil; try exact (False_ind _ Hs).
  - inversion Hx'; subst. eapply grown_name; eauto.
  - inversion H as [u Hu|? l1 new F Hn|]; subst; [discriminate Hu|]. destruct He as [H0 He]. destruct (F2_nth_l _ _ _ _ F He) as (e' & He' & Hg).
    assert (Hl : picks (SIndex back n) (VArr (l1 ++ new)) [e']).
    { apply PkElem with (i := i).
      - destruct Hi as [Hi|(Hb & H1 & Hi)]; [auto|right]. destruct Hn as [Hn| ->]; [exfalso; specialize (Hs Hn); lia|].
        rewrite app_nil_r, <- (F2_length_eq _ _ F). auto.
      - split; [exact H0|]. rewrite nth_error_app1; [exact He'|]. apply nth_error_Some. congruence. }
    rewrite (picks_fun _ _ _ _ Hd Hx' Hl). apply inc_one. exact Hg.
  - destruct (grown_flat _ _ H) as (_ & E & _). rewrite Ha in E. inversion Hx'; subst; try discriminate E. eapply grown_name; eauto.
Qed.
Lemma picks_all_mono : forall sels, Forall steady sels -> mono (picks_all sels).
Proof.
  intros sels Hs v v' x x' H _ Hd (ls & F & ->) (ls' & F' & ->). revert ls' F'. induction F as [|s l sels ls Hl F IH]; intros ls' F'; [apply inc_nil|].
  inversion F' as [|? l' ? ls2 Hl' F2]; subst. inversion Hs; subst. cbn [concat]. apply inc_app; [|apply IH; assumption].
  eapply grown_picks; eauto. apply Hd. constructor.
Qed.
Lemma stays_literal : forall args, Forall (stays more) args -> Forall literal_key args.
Proof. intros args H. eapply Forall_impl; [|exact H]. intros a Ha. destruct a; cbn in *; auto. Qed.
Lemma stays_steady : forall back args, Forall (stays more) args -> Forall steady (map (sel_of back) args).
Proof. intros back args H. apply Forall_map. eapply Forall_impl; [|exact H]. intros a Ha. destruct a; cbn in *; auto; destruct Ha. Qed.
Lemma picked_mono : forall o no args, nested o no -> Forall (stays more) args -> mono (picked o args).
Proof. intros o no args N H. destruct N; try (apply picks_all_mono; apply stays_steady; exact H). apply children_mono. Qed.

(** the steps with such arguments: those with selectors, with and without .. *)
Lemma steps_cases : forall W root s cands r, Forall (stays more) (st_args s) -> step_means W root s cands r ->
  exists o no, nested o no /\ (s = mkStep o (st_args s) \/ s = mkStep no (st_args s)).
Proof.
  intros W root [o args] cands r Hs H. cbn [st_args] in *.
  assert (E : is_select o = true \/ is_nest_select o = true \/ o = OpWild \/ o = OpNestWild).
  { inversion H; cbn [st_op st_args] in *; auto; subst; apply Forall_inv in Hs; destruct Hs. }
  destruct E as [E|[E|[E|E]]]; destruct o; try discriminate E;
    first [exists OpMember, OpNestMember; split; [constructor|auto; fail] | exists OpSelect, OpNestSelect; split; [constructor|auto; fail] |
      exists OpUnion, OpNestUnion; split; [constructor|auto; fail] | exists OpWild, OpNestWild; split; [constructor|auto; fail]].
Qed.
Lemma picked_docs : forall o args cands l, Forall doc cands -> gathers (picked o args) cands l -> Forall doc l.
Proof.
  intros o args cands l Hd (ls & F & ->). induction F as [|v x cands ls Hx F IH]; [constructor|]. inversion Hd; subst.
  cbn [concat]. apply Forall_app. split; [|auto]. unfold picked in Hx. destruct (op_num o =? op_num OpWild).
  - apply children_docs with (cands := [v]); [repeat constructor; assumption|]. exists [x]. split; [repeat constructor; exact Hx|symmetry; apply app_nil_r].
  - destruct Hx as (ys & G & ->). apply Forall_forall. intros e He. apply in_concat in He as (y & Hy & He).
    destruct (Forall2_in_r _ _ _ _ _ _ G Hy) as (s & _ & Hs). eapply doc_within; [eassumption|]. eapply picks_within; eauto.
Qed.
Lemma step_grows : forall W W' root root' s cands cands' r r', Forall (stays more) (st_args s) -> inc cands cands' -> Forall doc cands -> Forall doc cands' ->
  step_means W root s cands r -> step_means W' root' s cands' r' ->
  exists l l', r = OK l /\ r' = OK l' /\ inc l l' /\ Forall doc l /\ Forall doc l'.
Proof.
  intros W W' root root' s cands cands' r r' Hs I D D' H H'. destruct (steps_cases _ _ _ _ _ Hs H) as (o & no & N & E).
  pose proof (stays_literal _ Hs) as Hl. pose proof (picked_mono _ _ _ N Hs) as M. pose proof (picked_fair _ _ _ N Hl) as Hf. destruct E as [E|E]; rewrite E in H, H'.
  - destruct (plain_step _ _ _ _ _ _ _ N Hl H) as (l & -> & G). destruct (plain_step _ _ _ _ _ _ _ N Hl H') as (l' & -> & G').
    exists l, l'. repeat split; eauto using picked_docs. eapply mono_docs; eauto.
  - destruct (nest_step _ _ _ _ _ _ _ N Hl H) as (d & l & -> & R & G). destruct (nest_step _ _ _ _ _ _ _ N Hl H') as (d' & l' & -> & R' & G').
    destruct (fair_rounds _ _ _ _ Hf R G) as (e & K & L). destruct (fair_rounds _ _ _ _ Hf R' G') as (e' & K' & L').
    pose proof (gathered_docs _ _ D K). pose proof (gathered_docs _ _ D' K').
    exists l, l'. repeat split; eauto using picked_docs. apply (mono_docs _ e e' l l' M); auto.
    eapply mono_gathers; [exact I| |exact K|exact K']. intros v v' x x' _ _. apply grown_walks.
Qed.
Lemma path_grows : forall W W' root root' ss cands cands' r r', Forall (fun s => Forall (stays more) (st_args s)) ss -> inc cands cands' -> Forall doc cands -> Forall doc cands' ->
  path_means W root ss cands r -> path_means W' root' ss cands' r' ->
  exists l l', r = OK l /\ r' = OK l' /\ inc l l'.
Proof.
  intros W W' root root' ss. induction ss as [|s ss IH]; intros cands cands' r r' Hs I D D' H H'.
  - inversion H; inversion H'; subst. eauto.
  - inversion Hs as [|? ? H1 H2]; subst.
    inversion H as [|? ? ? x ? S P|? ? ? err S|? ? ? S]; inversion H' as [|? ? ? x' ? S' P'|? ? ? err' S'|? ? ? S']; subst;
      destruct (step_grows _ _ _ _ _ _ _ _ _ H1 I D D' S S') as (l & l' & E & E' & J & K & K'); try discriminate E; try discriminate E'.
    injection E as ->. injection E' as ->. eapply IH; eauto.
Qed.
End Grow.

Lemma eval_grows : forall TX more s ss jp W W' t t' root root' r r', accepted TX s ss jp -> fits jp ->
  Forall (fun st => Forall (stays more) (st_args st)) ss -> orders_ok W -> orders_ok W' -> doc root -> doc root' -> grows more root root' ->
  JP_Eval W t jp root r -> JP_Eval W' t' jp root' r' -> exists l l', r = OK l /\ r' = OK l' /\ includes more l l'.
Proof.
  intros TX more s ss jp W W' t t' root root' r r' A F Hs O O' D D' G E E'.
  eapply (path_grows more W W' root root' ss [root] [root']); auto using inc_one.
  - exact (text_means TX s ss jp W t root r A F O D E).
  - exact (text_means TX s ss jp W' t' root' r' A F O' D' E').
Qed.

Ltac counterexample := repeat match goal with
  | |- _ /\ _ => split
  | |- accepted _ _ _ _ => apply acceptedb_ok; vm_compute; reflexivity
  | |- fits _ => vm_compute; reflexivity
  | |- doc _ => apply docb_doc; vm_compute; reflexivity
  | |- orders_ok _ => exact x_world_ok
  | |- JP_Eval _ _ _ _ _ => split; [discriminate|]; exists 400%nat; vm_compute; reflexivity
  end.
Lemma includes_one : forall more v l, includes more [v] l -> exists v', In v' l /\ grows more v v'.
Proof.
  intros more v l (l1 & rest & F & P). inversion F as [|? v' ? y H N]; subst. exists v'. split; [|exact H].
  apply (Permutation_in _ (Permutation_sym P)). apply in_eq.
Qed.
Lemma grows_slice : exists s ss jp W t root root' l l', accepted x_text s ss jp /\ fits jp /\
  (forall st, In st ss -> Forall (fun a => match a with PSlice _ => True | a => stays false a end) (st_args st)) /\
  orders_ok W /\ doc root /\ doc root' /\ grows false root root' /\
  JP_Eval W t jp root (OK l) /\ JP_Eval W t jp root' (OK l') /\ ~ includes false l l'.
Proof.
  set (s := b_of "$.*[0:1]"). exists s, (steps_of s), (jp_of s), x_world, 0%nat,
    (VObj [(b_of "a", VArr [VInt64 1])]), (VObj [(b_of "a", VArr [VInt64 1]); (b_of "b", VInt64 2)]), [VInt64 1], [].
  counterexample.
  - intros st Hs. vm_compute in Hs. destruct Hs as [<-|[<-|[]]]; repeat constructor.
  - eapply GrObj with (m1 := [_]) (new := [_]); [|apply Permutation_refl]. constructor; [split; [reflexivity|]|constructor]. cbn [snd].
    apply (GrArr false [_] [_] []); [repeat constructor|auto].
  - intro H. apply includes_one in H as (v & [] & _).
Qed.
Lemma grows_negative : exists s ss jp W t root root' l l', accepted x_text s ss jp /\ fits jp /\
  (forall st, In st ss -> Forall (stays false) (st_args st)) /\
  orders_ok W /\ doc root /\ doc root' /\ grows true root root' /\
  JP_Eval W t jp root (OK l) /\ JP_Eval W t jp root' (OK l') /\ ~ includes true l l'.
Proof.
  set (s := b_of "$[-1]"). exists s, (steps_of s), (jp_of s), x_world, 0%nat, (VArr [VInt64 1]), (VArr [VInt64 1; VInt64 2]), [VInt64 1], [VInt64 2].
  counterexample.
  - intros st Hs. vm_compute in Hs. destruct Hs as [<-|[]]. repeat constructor. discriminate.
  - apply (GrArr true [_] [_] [_]); [repeat constructor|auto].
  - intro H. apply includes_one in H as (v & [<-|[]] & H). inversion H.
Qed.
Lemma grows_filter : exists s ss jp W t root root' l l', accepted x_text s ss jp /\ fits jp /\
  (forall st, In st ss -> Forall (fun a => match a with PExpr _ => True | a => stays false a end) (st_args st)) /\
  orders_ok W /\ doc root /\ doc root' /\ grows false root root' /\
  JP_Eval W t jp root (OK l) /\ JP_Eval W t jp root' (OK l') /\ ~ includes false l l'.
Proof.
  set (s := b_of "$[?(!@.b)]"). exists s, (steps_of s), (jp_of s), x_world, 0%nat, (VArr [VObj []]), (VArr [VObj [(b_of "b", VInt64 2)]]), [VObj []], [].
  counterexample.
  - intros st Hs. vm_compute in Hs. destruct Hs as [<-|[]]. repeat constructor.
  - apply (GrArr false [_] [_] []); [|auto]. constructor; [|constructor]. eapply GrObj with (m1 := []) (new := [_]); [constructor|apply Permutation_refl].
  - intro H. apply includes_one in H as (v & [] & _).
Qed.
