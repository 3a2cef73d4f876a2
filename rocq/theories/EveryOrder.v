(** Every meaning of a path is the outcome of evaluation for some orders of iteration over maps. *)
From Coq Require Import Permutation.
From Verif Require Import SpecSyntax Machine Eval ProgramProofs StackProofs MachineProofs CoderProofs SpecDoc DocProofs SpecSelect
  SpecRun RunProofs SliceProofs SelectProofs WalkProofs ExprProofs StepProofs SpecCode CodeProofs EvalProofs StepExact SpecOp OpProofs SpecExpr LogicProofs ArithProofs FloatProofs
  SaneProofs SpecText SpecSem SemProofs SemFinal UniqueProofs UniquePath TextProofs OrderProofs Api.
Local Open Scope Z_scope.

(** ** Any permutation is a reordering *)
Lemma reorder_any : forall A (l l' : list A), Permutation l l' ->
  exists q, Permutation q (seq 0 (length l)) /\ reorder q l = l'.
Proof.
  intros A l l' H. destruct l as [|d l0] eqn:El.
  { exists []. split; [constructor|]. apply Permutation_nil in H. rewrite H. reflexivity. }
  rewrite <- El in *. clear El.
  assert (Em : map (fun i => nth i l d) (seq 0 (length l)) = l).
  { clear. induction l as [|x l IH]; [reflexivity|]. cbn [length seq map nth]. f_equal.
    rewrite <- seq_shift, map_map. exact IH. }
  assert (H' : Permutation l' (map (fun i => nth i l d) (seq 0 (length l)))) by (rewrite Em; apply Permutation_sym; exact H).
  apply Permutation_map_inv in H' as (q & Eq & Hq). exists q. split; [apply Permutation_sym; exact Hq|].
  rewrite Eq. assert (Hb : Forall (fun i => (i < length l)%nat) q).
  { apply Forall_forall. intros i Hi. apply (Permutation_in _ (Permutation_sym Hq)) in Hi. apply in_seq in Hi. lia. }
  clear - Hb. unfold reorder. induction Hb as [|i q Hi Hb IH]; [reflexivity|]. cbn [flat_map map].
  rewrite (nth_error_nth' l d Hi), IH. reflexivity.
Qed.

Lemma zip_split : forall A B (R : A -> B -> Prop) l bs, Forall2 R l bs ->
  exists z, map fst z = l /\ map snd z = bs /\ Forall (fun x => R (fst x) (snd x)) z.
Proof.
  intros A B R l bs H. induction H as [|a b l bs Hab H (z & <- & <- & Hz)]; [exists []; auto|].
  exists ((a, b) :: z). split; [reflexivity|]. split; [reflexivity|]. constructor; assumption.
Qed.

Lemma zip_join : forall A B (R : A -> B -> Prop) (z : list (A * B)), Forall (fun x => R (fst x) (snd x)) z ->
  Forall2 R (map fst z) (map snd z).
Proof. intros A B R z H. induction H; constructor; assumption. Qed.

(** ** Computations that range over maps *)
Definition strip {A} (r : M (A * nat)) : M A := let! (a, _) := r in OK a.

Section every.
Variable W : world.
Notation R p := (reordered W p).
Definition orders : Type := nat -> nat -> list nat.
Definition valid (p : orders) : Prop := forall t n, Permutation (p t n) (seq 0 n).
Definition comp (A : Type) : Type := orders -> nat -> M (A * nat).

(** the outcome depends on the orders of the ranges it goes through only *)
Definition local {A} (c : comp A) : Prop := forall p t a t', c p t = OK (a, t') -> (t <= t')%nat /\
  forall p', (forall n k, (t <= n < t')%nat -> p' n k = p n k) -> c p' t = OK (a, t').

(** the outcome is possible wherever the computation starts *)
Definition reach {A} (c : comp A) (r : M A) : Prop := forall p0 t, valid p0 ->
  exists p, valid p /\ (forall n k, (n < t)%nat -> p n k = p0 n k) /\ strip (c p t) = r.

Definition bind {A B} (c : comp A) (k : A -> comp B) : comp B := fun p t => let! (a, t1) := c p t in k a p t1.
Definition ret {A} (r : M A) : comp A := fun _ t => let! a := r in OK (a, t).

Lemma local_ext : forall A (c c' : comp A), (forall p t, c p t = c' p t) -> local c' -> local c.
Proof.
  intros A c c' E H p t a t' H1. rewrite E in H1. destruct (H p t a t' H1) as [H2 H3]. split; [exact H2|].
  intros p' Hp. rewrite E. apply H3. exact Hp.
Qed.
Lemma reach_ext : forall A (c c' : comp A) r, (forall p t, c p t = c' p t) -> reach c' r -> reach c r.
Proof.
  intros A c c' r E H p0 t Hp. destruct (H p0 t Hp) as (p & H1 & H2 & H3). exists p. rewrite E. auto.
Qed.

Lemma local_ret : forall A (r : M A), local (ret r).
Proof.
  intros A r p t a t' H. unfold ret in *. destruct r; cbn [obind] in *; try discriminate. injection H as -> ->.
  split; [lia|]. reflexivity.
Qed.
Lemma reach_ret : forall A (r : M A), reach (ret r) r.
Proof.
  intros A r p0 t Hp. exists p0. split; [exact Hp|]. split; [auto|]. unfold ret. destruct r; reflexivity.
Qed.

Lemma local_bind : forall A B (c : comp A) (k : A -> comp B), local c -> (forall a, local (k a)) -> local (bind c k).
Proof.
  intros A B c k Hc Hk p t b t' H. unfold bind in *. destruct (c p t) as [[a t1]| | |] eqn:E; cbn [obind] in H; try discriminate.
  destruct (Hc _ _ _ _ E) as [L1 H1]. destruct (Hk a _ _ _ _ H) as [L2 H2]. split; [lia|]. intros p' Hp.
  rewrite (H1 p') by (intros; apply Hp; lia). cbn [obind]. apply H2. intros. apply Hp. lia.
Qed.
Lemma reach_bind : forall A B (c : comp A) (k : A -> comp B) a r, local c -> reach c (OK a) -> reach (k a) r -> reach (bind c k) r.
Proof.
  intros A B c k a r Hl Hc Hk p0 t Hp. destruct (Hc p0 t Hp) as (p1 & V1 & A1 & E1).
  destruct (c p1 t) as [[a' t1]| | |] eqn:E; cbn [strip obind] in E1; try discriminate. injection E1 as ->.
  destruct (Hl _ _ _ _ E) as [L1 H1]. destruct (Hk p1 t1 V1) as (p2 & V2 & A2 & E2).
  exists p2. split; [exact V2|]. split; [intros n j Hn; rewrite A2 by lia; apply A1; exact Hn|].
  unfold bind. rewrite (H1 p2) by (intros; apply A2; lia). cbn [obind]. exact E2.
Qed.
Lemma reach_fail : forall A B (c : comp A) (k : A -> comp B) e, reach c (Fail e) -> reach (bind c k) (Fail e).
Proof.
  intros A B c k e Hc p0 t Hp. destruct (Hc p0 t Hp) as (p1 & V1 & A1 & E1). exists p1. split; [exact V1|]. split; [exact A1|].
  unfold bind. destruct (c p1 t) as [[a' t1]| | |]; cbn [strip obind] in *; congruence.
Qed.

Lemma reach_panics : forall A B (c : comp A) (k : A -> comp B), reach c Panics -> reach (bind c k) Panics.
Proof.
  intros A B c k Hc p0 t Hp. destruct (Hc p0 t Hp) as (p1 & V1 & A1 & E1). exists p1. split; [exact V1|]. split; [exact A1|].
  unfold bind. destruct (c p1 t) as [[a' t1]| | |]; cbn [strip obind] in *; congruence.
Qed.

(** one range over a map of [n] members *)
Definition range {A} (n : nat) (f : list nat -> A) : comp A := fun p t => OK (f (p t n), S t).
Lemma local_range : forall A n (f : list nat -> A), local (range n f).
Proof.
  intros A n f p t a t' H. unfold range in *. injection H as <- <-. split; [lia|]. intros p' Hp. rewrite Hp by lia. reflexivity.
Qed.
Lemma reach_range : forall A n (f : list nat -> A) q, Permutation q (seq 0 n) -> reach (range n f) (OK (f q)).
Proof.
  intros A n f q Hq p0 t Hp. exists (fun i k => if (i =? t)%nat && (k =? n)%nat then q else p0 i k). split; [|split].
  - intros i k. destruct ((i =? t)%nat && (k =? n)%nat) eqn:E; [|apply Hp].
    apply andb_prop in E as [_ E]. apply Nat.eqb_eq in E as ->. exact Hq.
  - intros i k Hi. replace (i =? t)%nat with false by (symmetry; apply Nat.eqb_neq; lia). reflexivity.
  - unfold range. rewrite !Nat.eqb_refl. reflexivity.
Qed.

(** ** Producers *)
Definition produced {A} (f : world -> nat -> A * nat) : comp A := fun p t => OK (f (R p) t).

Lemma wild_local : forall acc v, local (produced (fun W t => valsWild W t acc v)).
Proof.
  intros acc v. destruct v; try (apply local_ext with (c' := ret (OK acc)); [reflexivity|apply local_ret]).
  - apply local_ext with (c' := ret (OK (g_appends acc l))); [reflexivity|apply local_ret].
  - apply local_ext with (c' := range (length m) (fun q => g_appends acc (map snd (reorder q m)))); [reflexivity|apply local_range].
Qed.

Lemma wild_reach : forall acc v l, children_in_order v l -> reach (produced (fun W t => valsWild W t acc v)) (OK (g_appends acc l)).
Proof.
  intros acc v l H. destruct H as [l|m m' Hm|v Hv].
  - apply reach_ext with (c' := ret (OK (g_appends acc l))); [reflexivity|apply reach_ret].
  - destruct (reorder_any _ _ _ Hm) as (q & Hq & <-).
    apply reach_ext with (c' := range (length m) (fun q => g_appends acc (map snd (reorder q m)))); [reflexivity|].
    exact (reach_range _ (length m) (fun q => g_appends acc (map snd (reorder q m))) q Hq).
  - apply reach_ext with (c' := ret (OK acc)); [|apply reach_ret]. intros p t. destruct v; try reflexivity; discriminate.
Qed.

Lemma stepping_bind : forall v r, exists c : comp (list val),
  (forall p t, produced (fun W t => stepping W t (v :: r)) p t =
    bind c (fun l => bind (produced (fun W t => stepping W t r)) (fun s => ret (OK (l ++ s)))) p t) /\
  local c /\ forall l, children_in_order v l -> reach c (OK l).
Proof.
  intros v r. destruct v; try (exists (ret (OK [])); split; [|split; [apply local_ret|intros l0 Hl; inversion Hl; subst; apply reach_ret]];
    intros p t; unfold produced, bind, ret; cbn [stepping obind]; destruct (stepping (R p) t r); reflexivity).
  - exists (ret (OK l)). split; [|split; [apply local_ret|intros l0 Hl; inversion Hl; subst; [apply reach_ret|discriminate]]].
    intros p t; unfold produced, bind, ret; cbn [stepping obind]; destruct (stepping (R p) t r); reflexivity.
  - exists (range (length m) (fun q => map snd (reorder q m))). split; [|split; [apply local_range|]].
    + intros p t; unfold produced, bind, ret, range; cbn [stepping obind]. destruct (stepping (R p) (S t) r); reflexivity.
    + intros l Hl. inversion Hl as [|m0 m' Hm|]; subst; [|discriminate]. destruct (reorder_any _ _ _ Hm) as (q & Hq & <-).
      exact (reach_range _ (length m) (fun q => map snd (reorder q m)) q Hq).
Qed.

Lemma stepping_local : forall cands, local (produced (fun W t => stepping W t cands)).
Proof.
  induction cands as [|v r IH]; [apply local_ext with (c' := ret (OK [])); [reflexivity|apply local_ret]|].
  destruct (stepping_bind v r) as (c & E & Hl & _). eapply local_ext; [exact E|].
  apply local_bind; [exact Hl|]. intro l. apply local_bind; [exact IH|]. intro s. apply local_ret.
Qed.
Lemma stepping_reach : forall cands l, gathers children_in_order cands l -> reach (produced (fun W t => stepping W t cands)) (OK l).
Proof.
  intros cands l (ls & F & ->). induction F as [|v l0 cands ls Hv F IH].
  - apply reach_ext with (c' := ret (OK [])); [reflexivity|apply reach_ret].
  - destruct (stepping_bind v cands) as (c & E & Hl & Hr). eapply reach_ext; [exact E|].
    apply reach_bind with (a := l0); [exact Hl|apply Hr; exact Hv|].
    apply reach_bind with (a := concat ls); [apply stepping_local|exact IH|apply reach_ret].
Qed.

(** the walk, and those of the members *)
Definition walk_one (v : val) : comp (list val) :=
  if IsStructure v then produced (fun W t => walkdown W t v) else ret (OK []).
Lemma walk_elems_bind : forall x l p t, produced (fun W t => walk_elems W t (x :: l)) p t =
  bind (walk_one x) (fun s => bind (produced (fun W t => walk_elems W t l)) (fun r => ret (OK (s :: r)))) p t.
Proof.
  intros x l p t. unfold walk_one, produced, bind, ret. cbn [walk_elems]. destruct (IsStructure x); cbn [obind].
  - destruct (walkdown (R p) t x) as [s t1]. destruct (walk_elems (R p) t1 l). reflexivity.
  - destruct (walk_elems (R p) t l). reflexivity.
Qed.
Lemma walk_obj_bind : forall m p t, produced (fun W t => walkdown W t (VObj m)) p t =
  bind (range (length m) (fun q => q)) (fun q => bind (produced (fun W t => walk_elems W t (map snd m)))
    (fun subs => ret (OK (VObj m :: concat (reorder q subs))))) p t.
Proof.
  intros m p t. unfold produced, bind, ret, range. rewrite walkdown_obj. cbn [obind].
  destruct (walk_elems (R p) (S t) (map snd m)). reflexivity.
Qed.
Lemma walk_arr_bind : forall l p t, produced (fun W t => walkdown W t (VArr l)) p t =
  bind (produced (fun W t => walk_elems W t l)) (fun subs => ret (OK (VArr l :: concat subs))) p t.
Proof.
  intros l p t. unfold produced, bind, ret. rewrite walkdown_arr. destruct (walk_elems (R p) t l). reflexivity.
Qed.

Lemma elems_local : forall l, Forall (fun v => local (walk_one v)) l -> local (produced (fun W t => walk_elems W t l)).
Proof.
  intros l H. induction H as [|x l Hx H IH]; [apply local_ext with (c' := ret (OK [])); [reflexivity|apply local_ret]|].
  eapply local_ext; [apply walk_elems_bind|]. apply local_bind; [exact Hx|]. intro s. apply local_bind; [exact IH|]. intro. apply local_ret.
Qed.
Lemma elems_reach : forall l ls, Forall (fun v => local (walk_one v)) l -> Forall2 (fun v l => reach (walk_one v) (OK l)) l ls ->
  reach (produced (fun W t => walk_elems W t l)) (OK ls).
Proof.
  intros l ls Hl H. induction H as [|x s l ls Hx H IH]; [apply reach_ext with (c' := ret (OK [])); [reflexivity|apply reach_ret]|].
  apply Forall_cons_iff in Hl as [Hl1 Hl2].
  eapply reach_ext; [apply walk_elems_bind|]. apply reach_bind with (a := s); [exact Hl1|exact Hx|].
  apply reach_bind with (a := ls); [apply elems_local; exact Hl2|auto|]. apply reach_ret.
Qed.

Lemma walk_local : forall v, local (walk_one v).
Proof.
  intro v. induction v as [|x0|x0|x0|x0|s0|s0|l IH|m IH|s0|s0|s0|k0] using val_tree_ind; try apply local_ret; cbn [walk_one IsStructure].
  - unfold walk_one. cbn [IsStructure]. eapply local_ext; [apply walk_arr_bind|]. apply local_bind; [apply elems_local; exact IH|].
    intro. apply local_ret.
  - unfold walk_one. cbn [IsStructure]. eapply local_ext; [apply walk_obj_bind|]. apply local_bind; [apply local_range|]. intro q.
    apply local_bind; [|intro; apply local_ret]. apply elems_local. rewrite Forall_map. exact IH.
Qed.

Lemma walk_reach : forall v l, walks v l -> reach (walk_one v) (OK l).
Proof.
  intro v. induction v as [|x0|x0|x0|x0|s0|s0|l IH|m IH|s0|s0|s0|k0] using val_tree_ind; intros r H;
    try (inversion H; subst; apply reach_ret; fail).
  - unfold walk_one. cbn [IsStructure]. inversion H as [l0 ls F| |]; subst; [|discriminate].
    eapply reach_ext; [apply walk_arr_bind|]. apply reach_bind with (a := ls); [apply elems_local; apply Forall_forall; intros; apply walk_local| |apply reach_ret].
    apply elems_reach; [apply Forall_forall; intros; apply walk_local|]. clear - IH F. induction F; constructor; apply Forall_cons_iff in IH as [? ?]; auto.
  - unfold walk_one. cbn [IsStructure]. inversion H as [|m0 m' ls Hm F|]; subst; [|discriminate].
    assert (F' : Forall2 (fun kv l => walks (snd kv) l) m' ls).
    { clear - F. revert ls F. induction m' as [|kv m' IH]; intros ls F; inversion F; subst; constructor; auto. }
    destruct (zip_split _ _ _ _ _ F') as (z & Ez1 & Ez2 & Hz).
    assert (Hp : Permutation m (map fst z)) by (rewrite Ez1; exact Hm).
    apply Permutation_map_inv in Hp as (z' & Em & Hzz).
    destruct (reorder_any _ _ _ (Permutation_sym Hzz)) as (q & Hq & Eq).
    assert (El : length m = length z') by (rewrite Em; apply map_length).
    eapply reach_ext; [apply walk_obj_bind|]. apply reach_bind with (a := q); [apply local_range| |].
    { rewrite <- El in Hq. exact (reach_range _ (length m) (fun q => q) q Hq). }
    apply reach_bind with (a := map snd z'); [apply elems_local; apply Forall_forall; intros; apply walk_local| |].
    + apply elems_reach; [apply Forall_forall; intros; apply walk_local|].
      assert (Hz' : Forall (fun x => walks (snd (fst x)) (snd x)) z').
      { apply Forall_forall. intros x Hx. rewrite Forall_forall in Hz. apply Hz. apply (Permutation_in _ (Permutation_sym Hzz)). exact Hx. }
      clear - IH Em Hz'. subst m. induction Hz'; cbn [map] in *; [constructor|]. apply Forall_cons_iff in IH as [? ?]. constructor; auto.
    + replace ls with (reorder q (map snd z')); [apply reach_ret|]. rewrite <- reorder_map, Eq. exact Ez2.
Qed.

Lemma walker_bind : forall v r p t, produced (fun W t => walker W t (v :: r)) p t =
  bind (walk_one v) (fun s => bind (produced (fun W t => walker W t r)) (fun s' => ret (OK (s ++ s')))) p t.
Proof.
  intros v r p t. unfold walk_one, produced, bind, ret. cbn [walker]. destruct (IsStructure v); cbn [obind].
  - destruct (walkdown (R p) t v) as [s t1]. destruct (walker (R p) t1 r). reflexivity.
  - destruct (walker (R p) t r). reflexivity.
Qed.
Lemma walker_local : forall cands, local (produced (fun W t => walker W t cands)).
Proof.
  induction cands as [|v r IH]; [apply local_ext with (c' := ret (OK [])); [reflexivity|apply local_ret]|].
  eapply local_ext; [apply walker_bind|].
  apply local_bind; [apply walk_local|]. intro l. apply local_bind; [exact IH|]. intro s. apply local_ret.
Qed.
Lemma walker_reach : forall cands l, gathers walks cands l -> reach (produced (fun W t => walker W t cands)) (OK l).
Proof.
  intros cands l (ls & F & ->). induction F as [|v l0 cands ls Hv F IH].
  - apply reach_ext with (c' := ret (OK [])); [reflexivity|apply reach_ret].
  - eapply reach_ext; [apply walker_bind|].
    apply reach_bind with (a := l0); [apply walk_local|apply walk_reach; exact Hv|].
    apply reach_bind with (a := concat ls); [apply walker_local|exact IH|apply reach_ret].
Qed.

(** ** Operators *)
Lemma call_fixed : forall p p' t t' id args, id <> b_of "keys" ->
  call (R p) t id args = let! v := value_of (call (R p') t' id args) in OK (v, t).
Proof.
  intros p p' t t' id args Hk. unfold call. destruct (lookup id functions) as [fn|] eqn:E; [|reflexivity].
  assert (Hb : fn_body fn (R p) t args = let! v := value_of (fn_body fn (R p') t' args) in OK (v, t)).
  2: { destruct (fn_na fn); [|exact Hb]. destruct (negb _); [reflexivity|exact Hb]. }
  assert (Hin : In (id, fn) functions).
  { clear - E. induction functions as [|[k f] l IH]; simpl in E; [discriminate|].
    destruct (beqb id k) eqn:Ek; [|right; apply IH; exact E].
    injection E as ->. left. f_equal. symmetry. apply beqb_eq. exact Ek. }
  assert (Harg : forall f g : val -> val, (forall x, f x = g x) ->
    with_arg args 0 (fun x => @OK rerr _ (f x, t)) = let! v := value_of (with_arg args 0 (fun x => @OK rerr _ (g x, t'))) in OK (v, t)).
  { intros f g H. unfold with_arg. destruct (arg args 0); [|reflexivity]. simpl. rewrite H. reflexivity. }
  unfold functions in Hin. cbn [In] in Hin.
  repeat (destruct Hin as [Hin|Hin]; [injection Hin as E1 E2; subst fn; cbn [fn_body fn1]|]); try contradiction;
    try reflexivity; try (apply Harg; reflexivity).
  - apply Harg. intro x. destruct x; try reflexivity. unfold fn_avg. rewrite (avg_loop_worlds W p p'). reflexivity.
  - unfold with_arg. destruct (arg args 0) as [a|]; [|reflexivity]. destruct (arg args 1) as [b|]; [|reflexivity].
    cbn [value_of obind]. do 2 f_equal. unfold fn_contains. destruct a; try reflexivity. f_equal.
    clear. induction l as [|x l IH]; [reflexivity|]. cbn [existsb]. rewrite (eqVal_worlds W p p'), IH. reflexivity.
  - congruence.
  - cbn [value_of obind]. do 2 f_equal. unfold fn_minmax. destruct args as [|a [|b args]]; try reflexivity; [|apply minMax_worlds].
    destruct a; try reflexivity. apply minMax_worlds.
  - cbn [value_of obind]. do 2 f_equal. unfold fn_minmax. destruct args as [|a [|b args]]; try reflexivity; [|apply minMax_worlds].
    destruct a; try reflexivity. apply minMax_worlds.
  - apply Harg. intro x. destruct x; try reflexivity. unfold fn_prod, arithArrayOp. destruct l; [reflexivity|]. apply arith_loop_worlds.
  - apply Harg. intro x. destruct x; try reflexivity. unfold fn_sum, arithArrayOp. destruct l; [reflexivity|]. apply arith_loop_worlds.
Qed.

(** an operator does not depend on the orders, or is keys() of an object *)
Definition fixed {A} (c : comp A) : Prop := exists r, forall p t, c p t = ret r p t.
Definition applied (o : op) (vs : list val) : comp val := fun p t => apply_op (R p) t o vs.

Lemma apply_cases : forall o vs, fixed (applied o vs) \/
  exists m : list (bytes * val), forall p t, applied o vs p t = range (length m) (fun q => VArr (map (fun kv => VStr (fst kv)) (reorder q m))) p t.
Proof.
  intros o vs.
  assert (H2 : fixed (fun p t => match vs with
    | [v] => match unop (R p) o v with Some r => OK (r, t) | None => Panics end
    | [a; b] => match binop (R p) o a b with Some r => let! v := r in OK (v, t) | None => Panics end
    | _ => Panics end : M (val * nat))).
  { destruct vs as [|a [|b [|c vs]]]; try (exists Panics; reflexivity).
    - exists (match unop W o a with Some r => OK r | None => Panics end). intros p t. unfold ret.
      destruct o; try reflexivity; cbn [unop]; reflexivity.
    - exists (match binop (R (w_perm W)) o a b with Some r => r | None => Panics end). intros p t. unfold ret.
      rewrite (binop_worlds W p (w_perm W)). destruct (binop _ o a b) as [r|]; reflexivity. }
  unfold applied. destruct o; try (left; exact H2); clear H2; cbn [apply_op].
  - destruct vs as [|x vs]; [left; exists Panics; reflexivity|]. destruct x; try (left; exists Panics; reflexivity).
    destruct (list_eq_dec Z.eq_dec s (b_of "keys")) as [->|Hk].
    + unfold call. change (lookup (b_of "keys") functions) with
        (Some (mkFunc (Some 1) (fun W t args => with_arg args 0 (fun v => OK (fn_keys W t v))))). cbn [fn_na fn_body].
      destruct vs as [|a [|b vs]]; try (left; eexists (Fail _); intros p t; reflexivity).
      * cbn [length]. change (negb (Z.of_nat 1 =? 1)) with false. cbv iota.
        destruct a; try (left; exists (OK (VErr KType)); reflexivity). right. exists m. reflexivity.
      * left. exists (Fail (RArgCount (b_of "keys") 1 (Z.of_nat (length (a :: b :: vs))))). intros p t.
        replace (Z.of_nat (length (a :: b :: vs)) =? 1) with false; [reflexivity|]. symmetry. apply Z.eqb_neq. cbn [length]. lia.
    + left. exists (value_of (call (R (w_perm W)) 0 s vs)). intros p t. apply call_fixed. exact Hk.
  - left. exists (OK (VArr vs)). reflexivity.
Qed.

Lemma apply_local : forall o vs, local (applied o vs).
Proof.
  intros o vs. destruct (apply_cases o vs) as [[r H]|[m H]]; (eapply local_ext; [exact H|]); [apply local_ret|apply local_range].
Qed.

Lemma apply_reach : forall o vs r, inner_ok o (length vs) -> yields W o vs r -> reach (applied o vs) r.
Proof.
  intros o vs r Ho Hy. apply yields_inv in Hy as (p & t & Hp & ->); [|exact Ho].
  destruct (apply_cases o vs) as [[r H]|[m H]]; (eapply reach_ext; [exact H|]).
  - specialize (H p t). unfold applied in H. rewrite H. replace (value_of (ret r p t)) with r; [apply reach_ret|].
    unfold ret. destruct r; reflexivity.
  - specialize (H p t). unfold applied in H. rewrite H.
    exact (reach_range _ (length m) (fun q => VArr (map (fun kv => VStr (fst kv)) (reorder q m))) (p t (length m)) (Hp t (length m))).
Qed.

(** ** Expressions *)
Variable root : val.
Hypothesis Hroot : doc root.
Definition evc (dot : val) (e : expr) : comp val := fun p t => ev (R p) root dot t e.
Definition evsc (dot : val) (es : list expr) : comp (list val) := fun p t => evs (R p) root dot t es.

Lemma evs_bind : forall dot e es p t, evsc dot (e :: es) p t =
  bind (evc dot e) (fun v => bind (evsc dot es) (fun vs => ret (OK (v :: vs)))) p t.
Proof. reflexivity. Qed.
Lemma ev_bind : forall dot o kids p t, evc dot (EInner o kids) p t = bind (evsc dot kids) (applied o) p t.
Proof. intros. unfold evc. rewrite ev_inner. reflexivity. Qed.

Lemma evs_local : forall dot es, Forall (fun e => local (evc dot e)) es -> local (evsc dot es).
Proof.
  intros dot es H. induction H as [|e es He H IH]; [apply local_ext with (c' := ret (OK [])); [reflexivity|apply local_ret]|].
  eapply local_ext; [apply evs_bind|]. apply local_bind; [exact He|]. intro. apply local_bind; [exact IH|]. intro. apply local_ret.
Qed.
Lemma ev_local : forall dot e, local (evc dot e).
Proof.
  intros dot e. induction e using expr_tree_ind;
    try (match goal with |- local (evc dot ?x) => let v := eval cbn in (ev W root dot 0%nat x) in
      match v with OK (?y, _) => apply local_ext with (c' := ret (OK y)); [reflexivity|apply local_ret] end end).
  eapply local_ext; [apply ev_bind|]. apply local_bind; [apply evs_local; assumption|]. intro. apply apply_local.
Qed.

Lemma evs_reach : forall dot es vs, Forall2 (fun e v => reach (evc dot e) (OK v)) es vs -> reach (evsc dot es) (OK vs).
Proof.
  intros dot es vs H. induction H as [|e v es vs He H IH]; [apply reach_ext with (c' := ret (OK [])); [reflexivity|apply reach_ret]|].
  eapply reach_ext; [apply evs_bind|]. apply reach_bind with (a := v); [apply ev_local|exact He|].
  apply reach_bind with (a := vs); [apply evs_local, Forall_forall; intros; apply ev_local|exact IH|apply reach_ret].
Qed.
Lemma evs_reach_fail : forall dot pre e post vs err, Forall2 (fun e v => reach (evc dot e) (OK v)) pre vs ->
  reach (evc dot e) (Fail err) -> reach (evsc dot (pre ++ e :: post)) (Fail err).
Proof.
  intros dot pre e post vs err H He. induction H as [|e' v es vs He' H IH]; cbn [app].
  - eapply reach_ext; [apply evs_bind|]. apply reach_fail. exact He.
  - eapply reach_ext; [apply evs_bind|]. apply reach_bind with (a := v); [apply ev_local|exact He'|]. apply reach_fail. exact IH.
Qed.

Lemma ev_reach : forall e, wf_expr e -> forall dot r, means W root dot e r -> reach (evc dot e) r.
Proof.
  induction e using expr_tree_ind; intros Hw dot r Hm;
    try (inversion Hm as [? ? Hl| |]; subst; inversion Hl; subst;
      (eapply reach_ext; [|apply reach_ret]); reflexivity).
  pose proof (wf_inner _ _ Hw) as (Hk & _ & Ho). eapply reach_ext; [apply ev_bind|].
  assert (HF : forall es vs, incl es kids -> Forall2 (fun e v => means W root dot e (OK v)) es vs ->
    Forall2 (fun e v => reach (evc dot e) (OK v)) es vs).
  { intros es vs Hi F. induction F as [|e v es vs He F IHF]; constructor.
    - rewrite Forall_forall in H, Hk. apply H; [apply Hi; left; reflexivity|apply Hk, Hi; left; reflexivity|exact He].
    - apply IHF. intros x Hx. apply Hi. right. exact Hx. }
  inversion Hm as [? ? Hl|? ? vs ? F Y|? pre e post vs err F E]; subst; [inversion Hl| |].
  - apply reach_bind with (a := vs); [apply evs_local, Forall_forall; intros; apply ev_local| |].
    + apply evs_reach, HF; [apply incl_refl|exact F].
    + apply apply_reach; [|exact Y]. rewrite <- (F2_length _ _ _ _ _ F). exact Ho.
  - apply reach_fail. eapply evs_reach_fail.
    + apply HF; [|exact F]. intros x Hx. apply in_or_app. left. exact Hx.
    + rewrite Forall_forall in H, Hk. assert (In e (pre ++ e :: post)) by (apply in_or_app; right; left; reflexivity). auto.
Qed.

(** ** Arguments of steps *)
Lemma tame_any : forall v, sane False (few False) v -> sane False any v.
Proof. intros v H x Hx. specialize (H x Hx). destruct x; try exact H; exact I. Qed.

Definition argc (dot : val) (a : pval) : comp val := fun p t => ev_arg (R p) root dot t a.
Definition argsc (dot : val) (l : list pval) : comp (list val) := fun p t => ev_args (R p) root dot t l.
Lemma args_bind : forall dot a l p t, argsc dot (a :: l) p t =
  bind (argc dot a) (fun v => bind (argsc dot l) (fun vs => ret (OK (v :: vs)))) p t.
Proof. reflexivity. Qed.
Lemma arg_local : forall dot a, local (argc dot a).
Proof.
  intros dot a. destruct a;
    try (match goal with |- local (argc dot ?x) => let v := eval cbn in (ev_arg W root dot 0%nat x) in
      match v with OK (?y, _) => apply local_ext with (c' := ret (OK y)); [reflexivity|apply local_ret] end end).
  exact (ev_local dot e).
Qed.
Lemma args_local : forall dot l, local (argsc dot l).
Proof.
  intros dot l. induction l as [|a l IH]; [apply local_ext with (c' := ret (OK [])); [reflexivity|apply local_ret]|].
  eapply local_ext; [apply args_bind|]. apply local_bind; [apply arg_local|]. intro. apply local_bind; [exact IH|]. intro. apply local_ret.
Qed.

Lemma arg_reach : forall dot back a r, doc dot -> arg_ok a -> arg_means W root dot back a r ->
  match r with
  | OK o => exists v, keysel W back v o /\ reach (argc dot a) (OK v)
  | Fail err => reach (argc dot a) (Fail err)
  | _ => False
  end.
Proof.
  intros dot back a r Hd [Hi Hx] H. destruct H.
  - exists (VName k). split; [split; [reflexivity|apply (KKey W back (VName k)); reflexivity]|].
    eapply reach_ext; [|apply reach_ret]; reflexivity.
  - exists (VStr k). split; [split; [reflexivity|apply (KKey W back (VStr k)); reflexivity]|].
    eapply reach_ext; [|apply reach_ret]; reflexivity.
  - exists (VInt64 n). split; [split; [reflexivity|constructor; unfold ints_ok, in_int64 in Hi; lia]|].
    eapply reach_ext; [|apply reach_ret]; reflexivity.
  - exists (VSlice sl). split; [split; [reflexivity|]|eapply reach_ext; [|apply reach_ret]; reflexivity].
    destruct Hi as (H1 & H2 & H3). rewrite !written_bound_int. constructor; auto.
  - destruct Hx as [Hw _]. exists v.
    pose proof (means_tame W False root (doc_tame root Hroot) e Hw dot v (doc_tame dot Hd) H) as Ht.
    destruct (value_acts W back v (tame_any v Ht)) as (o' & Ho & Hk). rewrite (acts_fun W back v o o' H0 Ho).
    split; [exact Hk|]. exact (ev_reach e Hw dot _ H).
  - destruct Hx as [Hw _]. exact (ev_reach e Hw dot _ H).
Qed.

Lemma args_reach_ok : forall dot back args os, doc dot -> Forall arg_ok args ->
  Forall2 (fun a o => arg_means W root dot back a (OK o)) args os ->
  exists vs, Forall2 (keysel W back) vs os /\ reach (argsc dot args) (OK vs).
Proof.
  intros dot back args os Hd Ha F. revert Ha. induction F as [|a o args os H F IH]; intro Ha.
  - exists []. split; [constructor|]. eapply reach_ext; [|apply reach_ret]; reflexivity.
  - apply Forall_cons_iff in Ha as [Ha1 Ha2]. destruct (arg_reach dot back a _ Hd Ha1 H) as (v & Hk & Hv).
    destruct (IH Ha2) as (vs & Hks & Hvs). exists (v :: vs). split; [constructor; assumption|].
    eapply reach_ext; [apply args_bind|]. apply reach_bind with (a := v); [apply arg_local|exact Hv|].
    apply reach_bind with (a := vs); [apply args_local|exact Hvs|apply reach_ret].
Qed.

Lemma args_reach : forall dot back args r, doc dot -> Forall arg_ok args -> args_mean W root dot back args r ->
  match r with
  | OK sels => exists vs, Forall2 (key_is W back) (live vs) sels /\ reach (argsc dot args) (OK vs)
  | Fail err => reach (argsc dot args) (Fail err)
  | _ => False
  end.
Proof.
  intros dot back args r Hd Ha H. destruct H as [args os F|pre a post os err F E].
  - destruct (args_reach_ok dot back args os Hd Ha F) as (vs & Hk & Hv). exists vs. split; [apply live_sels; exact Hk|exact Hv].
  - apply Forall_app in Ha as [Hpre Ha]. apply Forall_cons_iff in Ha as [Ha _].
    pose proof (arg_reach dot back a _ Hd Ha E) as He. cbn beta iota in He. revert Hpre.
    induction F as [|a' o pre os Ha' F IH]; intro Hpre; cbn [app].
    + eapply reach_ext; [apply args_bind|]. apply reach_fail. exact He.
    + apply Forall_cons_iff in Hpre as [H1 H2]. destruct (arg_reach dot back a' _ Hd H1 Ha') as (v & _ & Hv).
      eapply reach_ext; [apply args_bind|]. apply reach_bind with (a := v); [apply arg_local|exact Hv|]. apply reach_fail. auto.
Qed.

(** ** Selections *)
Lemma valsByKey_worlds : forall p acc v k neg, valsByKey (R p) acc v k neg = valsByKey W acc v k neg.
Proof. intros. destruct k, v; reflexivity. Qed.
Lemma keyed_worlds : forall p neg kvs acc, keyed (R p) neg acc kvs = keyed W neg acc kvs.
Proof.
  intros p neg. induction kvs as [|[k v] kvs IH]; intro acc; cbn [keyed]; [reflexivity|]. rewrite valsByKey_worlds.
  destruct (valsByKey W acc v k neg); cbn [obind]; auto.
Qed.

Definition stepc (s : pstep) (out : gslice) : comp gslice := fun p t => ev_step (R p) root s out t.
Definition loopc (s : pstep) (dots : list val) (out : gslice) : comp gslice := fun p t => ev_loop (R p) root s dots out t.
Definition bodyc (s : pstep) (dot : val) (out : gslice) : comp gslice := fun p t => ev_body (R p) root s dot out t.

Definition selects (s : pstep) (out : gslice) (cands : list val) (vs : list val) : comp gslice :=
  ret (keyed W (counts_back (st_op s)) out (pairs (live vs) cands)).

Lemma select_bind : forall s out p t, wf_step s -> is_select (st_op s) = true ->
  stepc s out p t = bind (argsc VNil (st_args s)) (selects s (Some []) (g_list out)) p t.
Proof.
  intros s out p t Hw Hs. unfold stepc. rewrite step_keyed by assumption. unfold bind, argsc, selects, ret.
  destruct (ev_args (R p) root VNil t (st_args s)) as [[vs t1]| | |]; cbn [obind]; try reflexivity.
  rewrite keyed_worlds. reflexivity.
Qed.
Lemma body_bind : forall s dot out p t, wf_step s -> is_nest_select (st_op s) = true ->
  bodyc s dot out p t = bind (argsc dot (st_args s)) (selects s out [dot]) p t.
Proof.
  intros s dot out p t Hw Hs. unfold bodyc. rewrite body_keyed by assumption. unfold bind, argsc, selects, ret.
  destruct (ev_args (R p) root dot t (st_args s)) as [[vs t1]| | |]; cbn [obind]; try reflexivity.
  rewrite keyed_worlds. reflexivity.
Qed.
Lemma filter_bind : forall s e dot out p t, is_filter (st_op s) = true -> st_args s = [PExpr e] ->
  bodyc s dot out p t = bind (evc dot e) (fun v => ret (OK (if negb (isNothing v) && cvb W v then g_append out dot else out))) p t.
Proof.
  intros s e dot out p t Hf Ha. unfold bodyc, ev_body, bind, evc, ret. rewrite Ha. cbn [ev_args ev_arg].
  destruct (ev (R p) root dot t e) as [[v t1]| | |]; cbn [obind]; auto.
  destruct (st_op s); try discriminate Hf; reflexivity.
Qed.
Lemma wildbody_bind : forall dot out p t, bodyc (mkStep OpNestWild []) dot out p t = produced (fun W t => valsWild W t out dot) p t.
Proof. reflexivity. Qed.
Lemma loop_bind : forall s d dots out p t, loopc s (d :: dots) out p t = bind (bodyc s d out) (loopc s dots) p t.
Proof. reflexivity. Qed.

(** a step's body is local *)
Definition good_body (s : pstep) : Prop := forall d out, local (bodyc s d out).
Lemma nest_body : forall s, wf_step s -> is_nest_select (st_op s) = true -> good_body s.
Proof.
  intros s Hw Hs d out. eapply local_ext; [intros; apply body_bind; assumption|].
  apply local_bind; [apply args_local|]. intro. apply local_ret.
Qed.
Lemma filter_body : forall s e, is_filter (st_op s) = true -> st_args s = [PExpr e] -> good_body s.
Proof.
  intros s e Hf Ha d out. eapply local_ext; [intros; apply filter_bind; eassumption|].
  apply local_bind; [apply ev_local|]. intro. apply local_ret.
Qed.
Lemma wild_body : good_body (mkStep OpNestWild []).
Proof. intros d out. eapply local_ext; [intros; apply wildbody_bind|]. apply wild_local. Qed.
Lemma loop_local : forall s, good_body s -> forall dots out, local (loopc s dots out).
Proof.
  intros s Hb. induction dots as [|d dots IH]; intro out.
  - apply local_ext with (c' := ret (OK out)); [reflexivity|apply local_ret].
  - eapply local_ext; [apply loop_bind|]. apply local_bind; [apply Hb|]. intro. apply IH.
Qed.

(** [r'] is [r] with what it selects after [out] *)
Definition after (out : gslice) (r : M (list val)) (r' : M gslice) : Prop :=
  match r with
  | OK l => exists g, r' = OK g /\ g_list g = g_list out ++ l
  | Fail err => r' = Fail err
  | Panics => r' = Panics
  | OutOfFuel => False
  end.

Lemma keeps_reach : forall s e, is_filter (st_op s) = true -> st_args s = [PExpr e] -> wf_expr e ->
  forall dots r, keeps W root e dots r -> forall out, exists r', after out r r' /\ reach (loopc s dots out) r'.
Proof.
  intros s e Hf Ha Hw dots r H. induction H as [|d v dots r Hm Hv H IH|d v dots r Hm Hv H IH|d err dots Hm]; intro out.
  - exists (OK out). split; [exists out; rewrite app_nil_r; auto|]. eapply reach_ext; [|apply reach_ret]; reflexivity.
  - destruct (IH (g_append out d)) as (r' & Hr & Hl). exists r'. split.
    + destruct r as [l|err| |]; cbn [obind after] in *; try assumption. destruct Hr as (g & -> & Eg). exists g.
      split; [reflexivity|]. rewrite Eg. unfold g_append. cbn [g_list]. rewrite <- app_assoc. reflexivity.
    + eapply reach_ext; [apply loop_bind|]. apply reach_bind with (a := g_append out d); [apply (filter_body s e); assumption| |exact Hl].
      eapply reach_ext; [intros; apply filter_bind; eassumption|]. apply reach_bind with (a := v); [apply ev_local|exact (ev_reach e Hw d _ Hm)|].
      replace (negb (isNothing v) && cvb W v) with true; [apply reach_ret|].
      apply not_falsy_cvb in Hv. destruct v; try discriminate Hv; cbn [isNothing negb andb]; auto.
  - destruct (IH out) as (r' & Hr & Hl). exists r'. split; [exact Hr|].
    eapply reach_ext; [apply loop_bind|]. apply reach_bind with (a := out); [apply (filter_body s e); assumption| |exact Hl].
    eapply reach_ext; [intros; apply filter_bind; eassumption|]. apply reach_bind with (a := v); [apply ev_local|exact (ev_reach e Hw d _ Hm)|].
    apply falsy_cvb in Hv. rewrite Hv, andb_false_r. apply reach_ret.
  - exists (Fail err). split; [reflexivity|].
    eapply reach_ext; [apply loop_bind|]. apply reach_fail.
    eapply reach_ext; [intros; apply filter_bind; eassumption|]. apply reach_fail. exact (ev_reach e Hw d _ Hm).
Qed.

Lemma loop_wild_reach : forall dots l, gathers children_in_order dots l -> forall out,
  exists g, g_list g = g_list out ++ l /\ reach (loopc (mkStep OpNestWild []) dots out) (OK g).
Proof.
  intros dots l (ls & F & ->). induction F as [|d l0 dots ls Hd F IH]; intro out.
  - exists out. split; [rewrite app_nil_r; reflexivity|]. eapply reach_ext; [|apply reach_ret]; reflexivity.
  - destruct (IH (g_appends out l0)) as (g & Eg & Hg). exists g. split.
    + rewrite Eg, g_appends_list. cbn [concat]. rewrite app_assoc. reflexivity.
    + eapply reach_ext; [apply loop_bind|]. apply reach_bind with (a := g_appends out l0); [apply wild_body| |exact Hg].
      eapply reach_ext; [intros; apply wildbody_bind|]. apply wild_reach. exact Hd.
Qed.

Lemma sweeps_reach : forall s, wf_step s -> is_nest_select (st_op s) = true -> Forall arg_ok (st_args s) ->
  forall dots r, sweeps W root (counts_back (st_op s)) (st_args s) dots r -> Forall doc dots -> forall out,
  match r with
  | OK apps => exists kvs g, keyed W (counts_back (st_op s)) out kvs = OK g /\
      Forall2 (fun kv a => key_is W (counts_back (st_op s)) (fst kv) (fst a) /\ snd kv = snd a /\ json_node (snd a)) kvs apps /\
      reach (loopc s dots out) (OK g)
  | Fail err => reach (loopc s dots out) (Fail err)
  | Panics => reach (loopc s dots out) Panics
  | OutOfFuel => False
  end.
Proof.
  intros s Hw Hs Ha. set (back := counts_back (st_op s)). intros dots r H.
  induction H as [|d dots sels r Hm Ho H IH|d dots sels Hm Ho|d dots err Hm]; intros Hd out.
  - exists [], out. split; [reflexivity|]. split; [constructor|]. eapply reach_ext; [|apply reach_ret]; reflexivity.
  - apply Forall_cons_iff in Hd as [Hd1 Hd2].
    destruct (args_reach d back _ _ Hd1 Ha Hm) as (vs & Hk & Hv).
    assert (Hkv := keys_apps W _ _ _ [d] Hk (nodes_of [d] (Forall_cons d Hd1 (Forall_nil _)))).
    destruct (keyed_collects W back _ _ out Hkv) as [(g & E & _ & _)|[E Hx]]; [|exfalso; exact (none_some _ _ _ Ho Hx)].
    assert (Hb : reach (bodyc s d out) (OK g)).
    { eapply reach_ext; [intros; apply body_bind; assumption|]. apply reach_bind with (a := vs); [apply args_local|exact Hv|].
      unfold selects. fold back. rewrite E. apply reach_ret. }
    specialize (IH Hd2 g). destruct r as [apps|err| |]; cbn [obind] in *.
    + destruct IH as (kvs & g' & E' & F & Hl). exists (pairs (live vs) [d] ++ kvs), g'.
      split; [rewrite keyed_app, E; exact E'|]. split; [apply Forall2_app; assumption|].
      eapply reach_ext; [apply loop_bind|]. apply reach_bind with (a := g); [apply nest_body; assumption|exact Hb|exact Hl].
    + eapply reach_ext; [apply loop_bind|]. apply reach_bind with (a := g); [apply nest_body; assumption|exact Hb|exact IH].
    + eapply reach_ext; [apply loop_bind|]. apply reach_bind with (a := g); [apply nest_body; assumption|exact Hb|exact IH].
    + exact IH.
  - apply Forall_cons_iff in Hd as [Hd1 Hd2].
    destruct (args_reach d back _ _ Hd1 Ha Hm) as (vs & Hk & Hv).
    assert (Hkv := keys_apps W _ _ _ [d] Hk (nodes_of [d] (Forall_cons d Hd1 (Forall_nil _)))).
    destruct (keyed_collects W back _ _ out Hkv) as [(g & _ & _ & Hx)|[E _]]; [exfalso; exact (none_some _ _ _ Hx Ho)|].
    assert (Hb : reach (bodyc s d out) Panics).
    { eapply reach_ext; [intros; apply body_bind; assumption|]. apply reach_bind with (a := vs); [apply args_local|exact Hv|].
      unfold selects. fold back. rewrite E. apply reach_ret. }
    eapply reach_ext; [apply loop_bind|]. apply reach_panics. exact Hb.
  - apply Forall_cons_iff in Hd as [Hd1 Hd2]. pose proof (args_reach d back _ _ Hd1 Ha Hm) as Hv. cbn beta iota in Hv.
    eapply reach_ext; [apply loop_bind|]. apply reach_fail.
    eapply reach_ext; [intros; apply body_bind; assumption|]. apply reach_fail. exact Hv.
Qed.

(** ** Steps *)
Definition wildc (cands : list val) (acc : gslice) : comp gslice :=
  fun p t => applySelection_loop (fun t v acc => OK (valsWild (R p) t acc v)) t cands acc.
Lemma wildc_bind : forall v cands acc p t, wildc (v :: cands) acc p t = bind (produced (fun W t => valsWild W t acc v)) (wildc cands) p t.
Proof. reflexivity. Qed.
Lemma wildc_local : forall cands acc, local (wildc cands acc).
Proof.
  induction cands as [|v cands IH]; intro acc.
  - apply local_ext with (c' := ret (OK acc)); [reflexivity|apply local_ret].
  - eapply local_ext; [apply wildc_bind|]. apply local_bind; [apply wild_local|]. intro. apply IH.
Qed.
Lemma wildc_reach : forall cands l, gathers children_in_order cands l -> forall acc,
  exists g, g_list g = g_list acc ++ l /\ reach (wildc cands acc) (OK g).
Proof.
  intros dots l (ls & F & ->). induction F as [|d l0 dots ls Hd F IH]; intro out.
  - exists out. split; [rewrite app_nil_r; reflexivity|]. eapply reach_ext; [|apply reach_ret]; reflexivity.
  - destruct (IH (g_appends out l0)) as (g & Eg & Hg). exists g. split.
    + rewrite Eg, g_appends_list. cbn [concat]. rewrite app_assoc. reflexivity.
    + eapply reach_ext; [apply wildc_bind|]. apply reach_bind with (a := g_appends out l0); [apply wild_local| |exact Hg].
      apply wild_reach. exact Hd.
Qed.

Definition loopstepc (prod : world -> nat -> list val -> list val * nat) (s : pstep) (out : gslice) : comp gslice :=
  match g_list out with
  | [] => ret (OK out)
  | l => bind (produced (fun W t => prod W t l)) (fun vs => loopc s (loop_dots vs) (Some []))
  end.
Lemma loopstep_bind : forall prod s out p t, ev_loop_step (R p) root (prod (R p)) s out t = loopstepc prod s out p t.
Proof.
  intros prod s out p t. unfold ev_loop_step, loopstepc. destruct (g_list out) as [|c l]; [reflexivity|].
  unfold bind, produced. cbn [obind]. destruct (prod (R p) t (c :: l)). reflexivity.
Qed.
Lemma loopstep_local : forall prod s out, (forall cands, local (produced (fun W t => prod W t cands))) -> good_body s ->
  local (loopstepc prod s out).
Proof.
  intros prod s out Hp Hb. unfold loopstepc. destruct (g_list out); [apply local_ret|].
  apply local_bind; [apply Hp|]. intro. apply loop_local. exact Hb.
Qed.

(** what the rounds over [cands] do is possible for the step *)
Lemma rounds_reach : forall prod pick s out dots r, (forall cands, local (produced (fun W t => prod W t cands))) ->
  (forall cands l, gathers pick cands l -> reach (produced (fun W t => prod W t cands)) (OK l)) ->
  rounds pick (g_list out) dots -> reach (loopc s dots (Some [])) r ->
  (g_list out = [] /\ dots = [] /\ reach (loopstepc prod s out) (OK out)) \/ reach (loopstepc prod s out) r.
Proof.
  intros prod pick s out dots r Hp Hg Hr Hl. unfold loopstepc. destruct Hr as [|cands Hc G|cands ds Hd G].
  - left. split; [reflexivity|]. split; [reflexivity|apply reach_ret].
  - right. destruct cands as [|c l]; [congruence|]. apply reach_bind with (a := []); [apply Hp|apply Hg; exact G|exact Hl].
  - right. destruct cands as [|c l].
    + destruct G as (ls & F & ->). inversion F; subst. exfalso; apply Hd; reflexivity.
    + apply reach_bind with (a := ds); [apply Hp|apply Hg; exact G|]. destruct ds; [congruence|exact Hl].
Qed.

Lemma step_local : forall s out, wf_step s -> local (stepc s out).
Proof.
  intros s out Hw. destruct (is_select (st_op s)) eqn:Es.
  { eapply local_ext; [intros; apply select_bind; assumption|]. apply local_bind; [apply args_local|]. intro. apply local_ret. }
  inversion Hw; subst; cbn [st_op st_args] in *; try discriminate Es;
    try (eapply local_ext; [intros p t; unfold stepc, ev_step; cbn [st_op]; apply loopstep_bind|];
      apply loopstep_local; [apply walker_local|apply nest_body; [assumption|reflexivity]]).
  - exact (wildc_local (g_list out) (Some [])).
  - eapply local_ext; [intros p t; unfold stepc, ev_step; cbn [st_op]; apply loopstep_bind|].
    apply loopstep_local; [apply stepping_local|]. eapply filter_body; reflexivity.
  - eapply local_ext; [intros p t; unfold stepc, ev_step; cbn [st_op]; apply loopstep_bind|].
    apply loopstep_local; [apply walker_local|]. apply wild_body.
  - eapply local_ext; [intros p t; unfold stepc, ev_step; cbn [st_op]; apply loopstep_bind|].
    apply loopstep_local; [apply walker_local|]. eapply filter_body; reflexivity.
Qed.

Lemma step_reach : forall s out r, wf_step s -> Forall arg_ok (st_args s) -> Forall doc (g_list out) ->
  step_means W root s (g_list out) r -> exists r', after (Some []) r r' /\ reach (stepc s out) r'.
Proof.
  intros s out r Hw Ha Hc H.
  assert (Hkeep : forall prod pick e dots r, st_args s = [PExpr e] -> is_filter (st_op s) = true ->
    (forall p t, stepc s out p t = loopstepc prod s out p t) ->
    (forall cands, local (produced (fun W t => prod W t cands))) ->
    (forall cands l, gathers pick cands l -> reach (produced (fun W t => prod W t cands)) (OK l)) ->
    rounds pick (g_list out) dots -> keeps W root e dots r -> exists r', after (Some []) r r' /\ reach (stepc s out) r').
  { intros prod pick e dots r0 Ea Ef Es Hp Hg Hr Hk. rewrite Ea in Ha. apply Forall_inv in Ha as [_ [He _]].
    destruct (keeps_reach s e Ef Ea He dots r0 Hk (Some [])) as (r' & Hr' & Hl).
    destruct (rounds_reach prod pick s out dots r' Hp Hg Hr Hl) as [(E1 & E2 & H1)|H1].
    - exists (OK out). split; [|eapply reach_ext; [exact Es|exact H1]]. subst dots. inversion Hk; subst.
      exists out. rewrite E1. auto.
    - exists r'. split; [exact Hr'|]. eapply reach_ext; [exact Es|exact H1]. }
  assert (Hnest : is_nest_select (st_op s) = true -> forall p t, stepc s out p t = loopstepc walker s out p t).
  { intros Hn p t. unfold stepc, ev_step. rewrite <- loopstep_bind. destruct (st_op s); try discriminate Hn; reflexivity. }
  assert (Hdots : forall dots, rounds walks (g_list out) dots -> Forall doc dots).
  { intros dots Hr. inversion Hr; subst; [constructor|constructor; [apply doc_nil|constructor]|].
    eapply gathers_doc; [exact walks_within|exact Hc|eassumption]. }
  inversion H; subst.
  - destruct s as [o args]. cbn [st_op] in *. subst o. inversion Hw; subst.
    destruct (wildc_reach _ _ H1 (Some [])) as (g & Eg & Hg). exists (OK g). split; [exists g; auto|exact Hg].
  - destruct (args_reach VNil _ _ _ doc_nil Ha H1) as (vs & Hk & Hv).
    destruct (keyed_collects W (counts_back (st_op s)) _ _ (Some [])
      (keys_apps W _ _ _ (g_list out) Hk (nodes_of _ Hc))) as [(g & E & Hg & _)|[E Hx]]; [|exfalso; exact (none_some _ _ _ H2 Hx)].
    apply collects_nil in Hg. exists (OK g). split.
    + exists g. split; [reflexivity|]. cbn [g_list app]. eapply collects_fun; [|exact Hg|exact H3].
      apply applications_nodes. apply nodes_of. exact Hc.
    + eapply reach_ext; [intros; apply select_bind; assumption|]. apply reach_bind with (a := vs); [apply args_local|exact Hv|].
      unfold selects. rewrite E. apply reach_ret.
  - destruct (args_reach VNil _ _ _ doc_nil Ha H1) as (vs & Hk & Hv).
    destruct (keyed_collects W (counts_back (st_op s)) _ _ (Some [])
      (keys_apps W _ _ _ (g_list out) Hk (nodes_of _ Hc))) as [(g & _ & _ & Hx)|[E _]]; [exfalso; exact (none_some _ _ _ Hx H2)|].
    exists Panics. split; [reflexivity|].
    eapply reach_ext; [intros; apply select_bind; assumption|]. apply reach_bind with (a := vs); [apply args_local|exact Hv|].
    unfold selects. rewrite E. apply reach_ret.
  - pose proof (args_reach VNil _ _ _ doc_nil Ha H1) as Hv. cbn beta iota in Hv. exists (Fail err). split; [reflexivity|].
    eapply reach_ext; [intros; apply select_bind; assumption|]. apply reach_fail. exact Hv.
  - eapply (Hkeep stepping children_in_order); eauto using stepping_local, stepping_reach.
    + rewrite H0. reflexivity.
    + intros p t. unfold stepc, ev_step. rewrite H0. apply loopstep_bind.
  - destruct s as [o args]. cbn [st_op] in *. subst o. inversion Hw; subst.
    destruct (loop_wild_reach _ _ H2 (Some [])) as (g & Eg & Hg).
    destruct (rounds_reach walker walks _ out dots _ walker_local walker_reach H1 Hg) as [(E1 & E2 & H3)|H3].
    + exists (OK out). split; [|eapply reach_ext; [intros; apply loopstep_bind|exact H3]]. subst dots.
      destruct H2 as (ls & F & ->). inversion F; subst. exists out. rewrite E1. auto.
    + exists (OK g). split; [exists g; auto|]. eapply reach_ext; [intros; apply loopstep_bind|exact H3].
  - eapply (Hkeep walker walks); eauto using walker_local, walker_reach.
    + rewrite H0. reflexivity.
    + intros p t. unfold stepc, ev_step. rewrite H0. apply loopstep_bind.
  - pose proof (sweeps_reach s Hw H0 Ha dots _ H2 (Hdots dots H1) (Some [])) as (kvs & g & E & F & Hl).
    destruct (rounds_reach walker walks _ out dots _ walker_local walker_reach H1 Hl) as [(E1 & E2 & H4)|H4].
    + exists (OK out). split; [|eapply reach_ext; [apply Hnest; exact H0|exact H4]]. subst dots. inversion H2; subst.
      exists out. rewrite E1. split; [reflexivity|]. eapply collects_fun; [constructor|exact collects_empty|exact H3].
    + exists (OK g). split; [|eapply reach_ext; [apply Hnest; exact H0|exact H4]]. exists g. split; [reflexivity|].
      destruct (keyed_collects W _ _ _ (Some []) F) as [(g' & E' & Hg' & _)|[E' _]]; [|congruence].
      rewrite E in E'. injection E' as <-. apply collects_nil in Hg'. cbn [g_list app]. eapply collects_fun; [|exact Hg'|exact H3].
      clear - F. induction F as [|x y l l' (_ & _ & Hj) F IH]; constructor; assumption.
  - pose proof (sweeps_reach s Hw H0 Ha dots _ H2 (Hdots dots H1) (Some [])) as Hl. cbn beta iota in Hl. exists (Fail err). split; [reflexivity|].
    destruct (rounds_reach walker walks _ out dots _ walker_local walker_reach H1 Hl) as [(E1 & E2 & H4)|H4].
    + subst dots. inversion H2.
    + eapply reach_ext; [apply Hnest; exact H0|exact H4].
  - pose proof (sweeps_reach s Hw H0 Ha dots _ H2 (Hdots dots H1) (Some [])) as Hl. cbn beta iota in Hl. exists Panics. split; [reflexivity|].
    destruct (rounds_reach walker walks _ out dots _ walker_local walker_reach H1 Hl) as [(E1 & E2 & H4)|H4].
    + subst dots. inversion H2.
    + eapply reach_ext; [apply Hnest; exact H0|exact H4].
Qed.

Definition pathc (ss : path) (out : gslice) : comp gslice := fun p t => ev_path (R p) root ss out t.
Lemma path_bind : forall s ss out p t, pathc (s :: ss) out p t = bind (stepc s out) (pathc ss) p t.
Proof. reflexivity. Qed.

Lemma path_reach : forall ss, wf_path ss -> Forall (fun s => Forall arg_ok (st_args s)) ss ->
  forall cands r, path_means W root ss cands r -> forall out, g_list out = cands -> Forall doc cands ->
  exists r', after (Some []) r r' /\ reach (pathc ss out) r'.
Proof.
  intros ss Hw Ha cands r H. induction H as [cands|s ss cands l r Hs H IH|s ss cands err Hs|s ss cands Hs]; intros out Eo Hc.
  - exists (OK out). split; [exists out; auto|]. eapply reach_ext; [|apply reach_ret]; reflexivity.
  - apply Forall_cons_iff in Hw as [Hw1 Hw2]. apply Forall_cons_iff in Ha as [Ha1 Ha2]. subst cands.
    destruct (step_reach s out _ Hw1 Ha1 Hc Hs) as (r1 & (g & -> & Eg) & Hr1). cbn [g_list app] in Eg.
    assert (Hl : Forall doc l).
    { exact (step_closed doc doc_nil (fun x v Hv Hx => doc_within x v Hv Hx) W root s _ l Hc Hs). }
    destruct (IH Hw2 Ha2 g Eg Hl) as (r2 & Hr2 & Hp). exists r2. split; [exact Hr2|].
    eapply reach_ext; [apply path_bind|]. apply reach_bind with (a := g); [apply step_local; exact Hw1|exact Hr1|exact Hp].
  - apply Forall_inv in Hw. apply Forall_inv in Ha. subst cands.
    destruct (step_reach s out _ Hw Ha Hc Hs) as (r1 & E & Hr1). cbn [after] in E. subst r1. exists (Fail err). split; [reflexivity|].
    eapply reach_ext; [apply path_bind|]. apply reach_fail. exact Hr1.
  - apply Forall_inv in Hw. apply Forall_inv in Ha. subst cands.
    destruct (step_reach s out _ Hw Ha Hc Hs) as (r1 & E & Hr1). cbn [after] in E. subst r1. exists Panics. split; [reflexivity|].
    eapply reach_ext; [apply path_bind|]. apply reach_panics. exact Hr1.
Qed.
End every.

(** ** Texts, and steps on any selection *)
Lemma path_every : forall W root ss cands r t, orders_ok W -> doc root -> Forall doc cands -> wf_path ss -> small ss ->
  path_means W root ss cands r -> exists perm, orders_ok (reordered W perm) /\
    r = selected (let! (out, t') := ev_path (reordered W perm) root ss (Some cands) t in OK (g_list out, t')).
Proof.
  intros W root ss cands r t HW Hr Hc Hwf Hs H.
  destruct (path_reach W root Hr ss Hwf (small_args ss Hwf Hs) cands r H (Some cands) eq_refl Hc) as (r' & Ha & Hp).
  destruct (Hp (w_perm W) t HW) as (p & Vp & _ & E). exists p. split; [exact Vp|].
  unfold pathc in E. subst r'. destruct (ev_path (reordered W p) root ss (Some cands) t) as [[g t1]|err| |]; cbn [strip obind selected] in *;
    destruct r as [l|e| |]; cbn [after g_list app] in Ha; try discriminate Ha; try contradiction;
    try (destruct Ha as (g' & E' & Eg); try discriminate E'); try congruence.
Qed.

Lemma steps_every : forall W root t cands ss r, orders_ok W -> doc root -> Forall doc cands -> wf_path ss -> small ss ->
  (path_means W root ss cands r <->
   exists perm r', orders_ok (reordered W perm) /\ runs (reordered W perm) root t cands ss r' /\ r = selected r').
Proof.
  intros W root t cands ss r HW Hr Hc Hwf Hs. split.
  - intro H. destruct (path_every W root ss cands r t HW Hr Hc Hwf Hs H) as (p & Hp & E).
    eexists p, _. split; [exact Hp|]. split; [|exact E]. apply (runs_exact _ root t cands ss _ Hp Hr Hc Hwf Hs). reflexivity.
  - intros (p & r' & Hp & H & ->). apply (path_reordered W p). eapply runs_means; eassumption.
Qed.

Lemma text_every : forall TX s ss jp W t root r, accepted TX s ss jp -> fits jp -> orders_ok W -> doc root ->
  (path_means W root ss [root] r <-> exists perm, orders_ok (reordered W perm) /\ JP_Eval (reordered W perm) t jp root r).
Proof.
  intros TX s ss jp W t root r Ha Hf HW Hr. split.
  - intro H. pose proof (text_wf _ _ _ _ Ha) as Hwf.
    destruct (path_every W root ss [root] r t HW Hr (Forall_cons root Hr (Forall_nil _)) Hwf (text_small _ _ _ _ Ha Hf) H) as (p & Hp & E).
    exists p. split; [exact Hp|]. apply (text_eval TX s ss jp Ha Hf _ t root r Hp Hr). rewrite E. unfold ev_run.
    destruct (ev_path (reordered W p) root ss (Some [root]) t) as [[g t1]|err| |]; reflexivity.
  - intros (p & Hp & H). apply (path_reordered W p). eapply text_means; eassumption.
Qed.
