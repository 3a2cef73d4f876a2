(** The values a loop goes through: children of the candidates, or all containers in
    them. *)
From Coq Require Import Permutation.
From Verif Require Import SpecSyntax Machine SpecDoc DocProofs SpecSelect SpecRun.
Local Open Scope Z_scope.

(** ** Orders of map iteration *)
Lemma flat_map_perm : forall A B (f : A -> list B) l l', Permutation l l' ->
  Permutation (flat_map f l) (flat_map f l').
Proof. intros. apply Permutation_flat_map; assumption. Qed.

Lemma flat_map_ext_in : forall A B (f g : A -> list B) l,
  (forall a, In a l -> f a = g a) -> flat_map f l = flat_map g l.
Proof.
  induction l as [|x l IH]; intro H; simpl; auto.
  rewrite (H x) by (left; reflexivity). f_equal. apply IH. intros a Ha. apply H. right. exact Ha.
Qed.

Lemma reorder_seq : forall A (l : list A) k,
  flat_map (fun i => match nth_error l (i - k) with Some x => [x] | None => [] end)
    (seq k (length l)) = l.
Proof.
  induction l as [|x l IH]; intro k; simpl; auto.
  rewrite Nat.sub_diag. simpl. f_equal.
  rewrite <- (IH (S k)) at 2. apply flat_map_ext_in. intros i Hi. apply in_seq in Hi.
  replace (i - k)%nat with (S (i - S k)) by lia. reflexivity.
Qed.

Lemma reorder_perm : forall A (p : list nat) (l : list A),
  Permutation p (seq 0 (length l)) -> Permutation (reorder p l) l.
Proof.
  intros A p l H. unfold reorder. rewrite (flat_map_perm _ _ _ _ _ H).
  replace (flat_map _ (seq 0 (length l))) with l; [reflexivity|].
  rewrite <- (reorder_seq A l 0) at 1. apply flat_map_ext. intro i. rewrite Nat.sub_0_r. reflexivity.
Qed.

Lemma reorder_in : forall A p (l : list A) x, In x (reorder p l) -> In x l.
Proof.
  intros A p l x H. apply in_flat_map in H as (i & _ & H).
  destruct (nth_error l i) eqn:E; simpl in H; [|contradiction].
  destruct H as [<-|[]]. eapply nth_error_In; eauto.
Qed.

Lemma reorder_map : forall A B (f : A -> B) p l, map f (reorder p l) = reorder p (map f l).
Proof.
  intros. unfold reorder. induction p as [|i p IH]; simpl; auto.
  rewrite map_app, IH, nth_error_map. destruct (nth_error l i); reflexivity.
Qed.

Lemma Forall2_nth : forall A B (R : A -> B -> Prop) l l' i, Forall2 R l l' ->
  match nth_error l i, nth_error l' i with
  | Some a, Some b => R a b
  | None, None => True
  | _, _ => False
  end.
Proof.
  intros A B R l l' i H. revert i. induction H; intros [|i]; simpl; auto. apply IHForall2.
Qed.

Lemma Forall2_reorder : forall A B (R : A -> B -> Prop) p l l', Forall2 R l l' ->
  Forall2 R (reorder p l) (reorder p l').
Proof.
  intros A B R p l l' H. unfold reorder. induction p as [|i p IH]; simpl; auto.
  pose proof (Forall2_nth A B R l l' i H) as Hn.
  destruct (nth_error l i), (nth_error l' i); try contradiction; simpl; auto.
Qed.

(** ** Children *)
Lemma g_appends_list : forall l g, g_list (g_appends g l) = g_list g ++ l.
Proof.
  unfold g_appends. induction l as [|v l IH]; intro g; simpl.
  - symmetry. apply app_nil_r.
  - rewrite IH. simpl. rewrite <- app_assoc. reflexivity.
Qed.

Lemma g_appends_some : forall l g, g <> None -> g_appends g l <> None.
Proof.
  unfold g_appends. induction l as [|v l IH]; intros g H; simpl; auto. apply IH. discriminate.
Qed.

Lemma valsWild_list : forall W, orders_ok W -> forall t g v,
  exists l, g_list (fst (valsWild W t g v)) = g_list g ++ l /\ children_in_order v l /\
    (g <> None -> fst (valsWild W t g v) <> None).
Proof.
  intros W Ho t g v. destruct v; simpl;
    try (exists []; rewrite app_nil_r; repeat split; auto; constructor; reflexivity).
  - exists l. rewrite g_appends_list. repeat split; auto; [constructor|apply g_appends_some].
  - exists (map snd (reorder (w_perm W t (length m)) m)). rewrite g_appends_list.
    repeat split; auto; [|apply g_appends_some]. constructor. symmetry. apply reorder_perm. apply Ho.
Qed.

Lemma valsWild_tick : forall W t g v, (t <= snd (valsWild W t g v))%nat.
Proof. intros. destruct v; simpl; lia. Qed.

Lemma gathers_nil : forall pick, gathers pick [] [].
Proof. intro. exists []. split; [constructor|reflexivity]. Qed.

Lemma gathers_cons : forall (pick : val -> list val -> Prop) v cands l r,
  pick v l -> gathers pick cands r -> gathers pick (v :: cands) (l ++ r).
Proof.
  intros pick v cands l r H (ls & Hl & ->). exists (l :: ls). split; [constructor; auto|reflexivity].
Qed.

Lemma stepping_gathers : forall W, orders_ok W -> forall cands t,
  gathers children_in_order cands (fst (stepping W t cands)).
Proof.
  intros W Ho. induction cands as [|v cands IH]; intro t; [apply gathers_nil|].
  cbn [stepping].
  destruct v; try (change (fst (stepping W t cands)) with ([] ++ fst (stepping W t cands));
    apply gathers_cons; [constructor; reflexivity|apply IH]).
  - destruct (stepping W t cands) as [s t'] eqn:E. cbn [fst].
    apply gathers_cons; [constructor|]. specialize (IH t). rewrite E in IH. exact IH.
  - destruct (stepping W (S t) cands) as [s t'] eqn:E. cbn [fst].
    apply gathers_cons; [constructor; symmetry; apply reorder_perm; apply Ho|].
    specialize (IH (S t)). rewrite E in IH. exact IH.
Qed.

(** ** Walks *)
Fixpoint walk_elems (W : world) (t : nat) (l : list val) : list (list val) * nat :=
  match l with
  | [] => ([], t)
  | x :: l' =>
    if IsStructure x then
      let (s, t1) := walkdown W t x in
      let (r, t2) := walk_elems W t1 l' in (s :: r, t2)
    else let (r, t1) := walk_elems W t l' in ([] :: r, t1)
  end.

Lemma walkdown_arr : forall W t l, walkdown W t (VArr l) =
  let (subs, t') := walk_elems W t l in (VArr l :: concat subs, t').
Proof.
  intros W t l. cbn [walkdown].
  match goal with |- (let (s, u) := ?f t l in _) = _ => assert (E : forall l t, f t l = walk_elems W t l) end.
  { clear. induction l as [|x l IH]; intro t; auto. cbn [walk_elems].
    destruct (IsStructure x).
    - destruct (walkdown W t x). rewrite IH. reflexivity.
    - rewrite IH. reflexivity. }
  rewrite E. reflexivity.
Qed.

Lemma walkdown_obj : forall W t m, walkdown W t (VObj m) =
  let (subs, t') := walk_elems W (S t) (map snd m) in
  (VObj m :: concat (reorder (w_perm W t (length m)) subs), t').
Proof.
  intros W t m. cbn [walkdown].
  match goal with |- (let (s, u) := ?f (S t) m in _) = _ =>
    assert (E : forall m t, f t m = walk_elems W t (map snd m)) end.
  { clear. induction m as [|[k x] m IH]; intro t; auto. cbn [map snd walk_elems].
    destruct (IsStructure x).
    - destruct (walkdown W t x). rewrite IH. reflexivity.
    - rewrite IH. reflexivity. }
  rewrite E. reflexivity.
Qed.

Lemma walk_elems_ok : forall W l,
  Forall (fun v => forall t, IsStructure v = true -> walks v (fst (walkdown W t v))) l ->
  forall t, Forall2 walks l (fst (walk_elems W t l)).
Proof.
  intros W l H. induction H as [|v l Hv Hl IH]; intro t; cbn [walk_elems]; [constructor|].
  destruct (IsStructure v) eqn:E.
  - specialize (Hv t eq_refl). destruct (walkdown W t v) as [s t1].
    specialize (IH t1). destruct (walk_elems W t1 l) as [r t2]. constructor; auto.
  - specialize (IH t). destruct (walk_elems W t l) as [r t2]. constructor; auto.
    constructor; auto.
Qed.

Lemma walkdown_walks : forall W, orders_ok W -> forall v t, IsStructure v = true ->
  walks v (fst (walkdown W t v)).
Proof.
  intros W Ho v. induction v using val_tree_ind; intros t Hs; try discriminate Hs.
  - rewrite walkdown_arr. pose proof (walk_elems_ok W l H t) as Hw.
    destruct (walk_elems W t l) as [subs t']. constructor. exact Hw.
  - rewrite walkdown_obj.
    assert (H' : Forall (fun v => forall t, IsStructure v = true -> walks v (fst (walkdown W t v))) (map snd m)).
    { apply Forall_map. exact H. }
    pose proof (walk_elems_ok W _ H' (S t)) as Hw.
    destruct (walk_elems W (S t) (map snd m)) as [subs t']. cbn [fst] in *.
    apply WkObj with (m' := reorder (w_perm W t (length m)) m).
    + symmetry. apply reorder_perm. apply Ho.
    + rewrite reorder_map. apply Forall2_reorder. exact Hw.
Qed.

Lemma walker_gathers : forall W, orders_ok W -> forall cands t,
  gathers walks cands (fst (walker W t cands)).
Proof.
  intros W Ho. induction cands as [|v cands IH]; intro t; [apply gathers_nil|].
  cbn [walker]. destruct (IsStructure v) eqn:E.
  - pose proof (walkdown_walks W Ho v t E) as Hw. destruct (walkdown W t v) as [s t1].
    specialize (IH t1). destruct (walker W t1 cands) as [s' t2]. apply gathers_cons; auto.
  - change (fst (walker W t cands)) with ([] ++ fst (walker W t cands)).
    apply gathers_cons; auto. constructor; auto.
Qed.

(** ** What is visited is within the document *)
Lemma children_within : forall v l x, children_in_order v l -> In x l -> In x (children v).
Proof.
  intros v l x H Hx. destruct H; simpl; auto; [|contradiction].
  apply in_map_iff in Hx as (kv & <- & Hx). apply in_map.
  eapply Permutation_in; [symmetry; exact H|exact Hx].
Qed.

Lemma Forall2_in_r : forall A B (R : A -> B -> Prop) l l' b, Forall2 R l l' -> In b l' ->
  exists a, In a l /\ R a b.
Proof.
  intros A B R l l' b H. induction H; intro Hb; [contradiction|].
  destruct Hb as [<-|Hb]; [exists x; simpl; auto|].
  destruct (IHForall2 Hb) as (a & Ha & Hr). exists a. simpl. auto.
Qed.

Lemma walks_within : forall v l x, walks v l -> In x l -> within x v.
Proof.
  intro v. induction v using val_tree_ind; intros l' x Hw Hx; inversion Hw; subst; simpl in Hx;
    try contradiction; try discriminate.
  - destruct Hx as [<-|Hx]; [constructor|].
    apply in_concat in Hx as (s & Hs & Hx).
    destruct (Forall2_in_r _ _ _ _ _ _ H1 Hs) as (a & Ha & Hr).
    econstructor; [exact Ha|]. rewrite Forall_forall in H. eapply H; eauto.
  - destruct Hx as [<-|Hx]; [constructor|].
    apply in_concat in Hx as (s & Hs & Hx).
    destruct (Forall2_in_r _ _ _ _ _ _ H2 Hs) as (a & Ha & Hr).
    apply in_map_iff in Ha as ([k e] & <- & Ha).
    assert (In (k, e) m) as Hin by (eapply Permutation_in; [symmetry; exact H1|exact Ha]).
    econstructor 3; [exact Hin|]. rewrite Forall_forall in H. apply (H _ Hin s x); auto.
Qed.
