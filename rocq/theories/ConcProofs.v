(** Proofs about the machine and its goroutines. *)
From Coq Require Import Permutation.
From Verif Require Import SpecDoc DocProofs SpecRun SpecText WalkProofs StackProofs MachineProofs EvalProofs TextProofs Api SpecSelect Conc SpecConc Examples.
Local Open Scope Z_scope.

(** ** What a producer has still to send *)
Definition rest_each (W : world) (r : list (nat * val)) : list val :=
  concat (map (fun tv => if IsStructure (snd tv) then fst (walkdown W (fst tv) (snd tv)) else []) r).
Definition rest (W : world) (f : frame) : list val :=
  match f with
  | FEach r => rest_each W r
  | FBody t v => tl (fst (walkdown W t v))
  | FStep t r => fst (stepping W t r)
  | FSend r => r
  end.
Definition rests (W : world) (k : list frame) : list val := concat (map (rest W) k).
Definition left (W : world) (q : producer) : list val :=
  match q with
  | PRun k => rests W k
  | PSend v k => v :: rests W k
  | PClosed => []
  end.

Lemma walk_elems_snd : forall W l, Forall (fun v => forall t, snd (walkdown W t v) = (t + walk_ranges v)%nat) l ->
  forall t, snd (walk_elems W t l) = (t + list_sum (map walk_ranges l))%nat.
Proof.
  intros W l H. induction H as [|x l Hx H IH]; intro t; [cbn; lia|]. cbn [walk_elems map list_sum fold_right].
  fold (list_sum (map walk_ranges l)).
  destruct (IsStructure x) eqn:E.
  - specialize (Hx t). destruct (walkdown W t x) as [s t1]. cbn [snd] in Hx. subst t1.
    specialize (IH (t + walk_ranges x)%nat). destruct (walk_elems W (t + walk_ranges x) l) as [r t2]. cbn [snd] in *. lia.
  - specialize (IH t). destruct (walk_elems W t l) as [r t2]. cbn [snd] in *. destruct x; try discriminate; cbn [walk_ranges]; lia.
Qed.

Lemma walkdown_snd : forall W v t, snd (walkdown W t v) = (t + walk_ranges v)%nat.
Proof.
  intros W v. induction v as [| | | | | | |l H|m H| | | |] using val_tree_ind; intro t; try (cbn; lia).
  - rewrite walkdown_arr. pose proof (walk_elems_snd W l H t) as E. destruct (walk_elems W t l). exact E.
  - rewrite walkdown_obj. pose proof (walk_elems_snd W (map snd m)) as E.
    assert (Hm : Forall (fun v => forall t, snd (walkdown W t v) = (t + walk_ranges v)%nat) (map snd m)).
    { clear - H. induction H; cbn; constructor; auto. }
    specialize (E Hm (S t)). destruct (walk_elems W (S t) (map snd m)). cbn [snd walk_ranges] in *. rewrite E, map_map. lia.
Qed.

Lemma walk_elems_numbered : forall W l t,
  fst (walk_elems W t l) = map (fun tv => if IsStructure (snd tv) then fst (walkdown W (fst tv) (snd tv)) else []) (numbered t l).
Proof.
  intros W l. induction l as [|x l IH]; intro t; [reflexivity|]. cbn [walk_elems numbered map fst snd].
  destruct (IsStructure x) eqn:E.
  - pose proof (walkdown_snd W x t) as Hx. destruct (walkdown W t x) as [s t1]. cbn [snd] in Hx. subst t1.
    specialize (IH (t + walk_ranges x)%nat). destruct (walk_elems W (t + walk_ranges x) l). cbn [fst] in *. rewrite IH. reflexivity.
  - replace (t + walk_ranges x)%nat with t by (destruct x; try discriminate; cbn; lia).
    specialize (IH t). destruct (walk_elems W t l). cbn [fst] in *. rewrite IH. reflexivity.
Qed.

Lemma walker_numbered : forall W l t, fst (walker W t l) = rest_each W (numbered t l).
Proof.
  intros W l. induction l as [|x l IH]; intro t; [reflexivity|]. unfold rest_each. cbn [walker numbered map fst snd concat].
  destruct (IsStructure x) eqn:E.
  - pose proof (walkdown_snd W x t) as Hx. destruct (walkdown W t x) as [s t1]. cbn [snd] in Hx. subst t1.
    specialize (IH (t + walk_ranges x)%nat). destruct (walker W (t + walk_ranges x) l). cbn [fst] in *. rewrite IH. reflexivity.
  - replace (t + walk_ranges x)%nat with t by (destruct x; try discriminate; cbn; lia). apply IH.
Qed.

Lemma walker_snd : forall W l t, snd (walker W t l) = (t + list_sum (map walk_ranges l))%nat.
Proof.
  intros W l. induction l as [|x l IH]; intro t; [cbn; lia|]. cbn [walker map list_sum fold_right]. fold (list_sum (map walk_ranges l)).
  destruct (IsStructure x) eqn:E.
  - pose proof (walkdown_snd W x t) as Hx. destruct (walkdown W t x) as [s t1]. cbn [snd] in Hx. subst t1.
    specialize (IH (t + walk_ranges x)%nat). destruct (walker W (t + walk_ranges x) l). cbn [snd] in *. lia.
  - rewrite IH. destruct x; try discriminate; cbn [walk_ranges]; lia.
Qed.

Lemma stepping_snd : forall W l t, snd (stepping W t l) = (t + step_ranges l)%nat.
Proof.
  unfold step_ranges. intros W l. induction l as [|x l IH]; intro t; [cbn; lia|]. cbn [stepping map list_sum fold_right].
  destruct x; try (rewrite IH; cbn [list_sum fold_right]; lia);
    match goal with |- context [stepping W ?n l] => specialize (IH n); destruct (stepping W n l) end; cbn [snd] in *; rewrite IH; unfold list_sum; lia.
Qed.

Lemma start_left : forall W o t vals q t', start o t vals = (q, t') ->
  (left W q, t') = match o with OpFor => stepping W t vals | _ => walker W t vals end.
Proof.
  intros W o t vals q t' H.
  assert (Hs : start o t vals = (PRun [FStep t vals], (t + step_ranges vals)%nat) /\ o = OpFor \/
               start o t vals = (PRun [FEach (numbered t vals)], (t + list_sum (map walk_ranges vals))%nat) /\ o <> OpFor).
  { destruct o; try (right; split; [reflexivity|discriminate]). left. auto. }
  destruct Hs as [[E Ho]|[E Ho]]; rewrite E in H; injection H as <- <-.
  - subst o. cbn [left rests map concat rest]. rewrite app_nil_r. pose proof (stepping_snd W vals t). destruct (stepping W t vals). cbn [fst snd] in *. congruence.
  - assert (G : match o with OpFor => stepping W t vals | _ => walker W t vals end = walker W t vals) by (destruct o; try reflexivity; contradiction).
    rewrite G. cbn [left rests map concat rest]. rewrite app_nil_r, <- walker_numbered. pose proof (walker_snd W vals t).
    destruct (walker W t vals). cbn [fst snd] in *. congruence.
Qed.

(** a producer's own steps do not change what it will send *)
Lemma prod_step_left : forall W q q', prod_step W q = Some q' -> left W q' = left W q.
Proof.
  intros W [k|v k|] q' H; try discriminate. cbn [prod_step] in H.
  apply (f_equal (fun o => match o with Some x => left W x | None => [] end)) in H. cbn [left] in *. rewrite <- H. clear H q'.
  destruct k as [|[[|[t v] r]|t v|t [|v r]|[|v r]] k]; try reflexivity.
  - unfold rests. cbn [map concat rest]. unfold rest_each. cbn [map concat fst snd].
    destruct (IsStructure v) eqn:E; [|reflexivity]. cbn [left rests map concat rest]. unfold rests. cbn [map concat rest].
    assert (Hv : v :: tl (fst (walkdown W t v)) = fst (walkdown W t v)).
    { destruct v; try discriminate; [rewrite walkdown_arr|rewrite walkdown_obj]; destruct (walk_elems _ _ _); reflexivity. }
    rewrite app_comm_cons, Hv, <- !app_assoc. reflexivity.
  - unfold rests. destruct v; try reflexivity.
    + cbn [left rests map concat rest]. unfold rests. cbn [map concat rest]. rewrite walkdown_arr. pose proof (walk_elems_numbered W l t) as E.
      destruct (walk_elems W t l). cbn [fst tl] in *. rewrite E. reflexivity.
    + cbn [left rests map concat rest]. unfold rests. cbn [map concat rest]. rewrite walkdown_obj. pose proof (walk_elems_numbered W (map snd m) (S t)) as E.
      destruct (walk_elems W (S t) (map snd m)). cbn [fst tl] in *. rewrite E. unfold rest_each. rewrite reorder_map. reflexivity.
  - unfold rests. destruct v; try reflexivity; cbn [left rests map concat rest stepping]; unfold rests; cbn [map concat rest].
    + destruct (stepping W t r). cbn [fst]. rewrite app_assoc. reflexivity.
    + destruct (stepping W (S t) r). cbn [fst]. rewrite app_assoc. reflexivity.
Qed.

(** ** A producer ends *)
Fixpoint wcost (v : val) : nat :=
  match v with
  | VArr l => (4 + list_sum (map wcost l))%nat
  | VObj m => (4 + list_sum (map (fun kv => wcost (snd kv)) m))%nat
  | _ => 4%nat
  end.
Definition scost (v : val) : nat :=
  match v with
  | VArr l => (2 + 2 * length l)%nat
  | VObj m => (2 + 2 * length m)%nat
  | _ => 1%nat
  end.
Definition fcost (f : frame) : nat :=
  match f with
  | FEach r => S (list_sum (map (fun tv => wcost (snd tv)) r))
  | FBody t v => (wcost v - 2)%nat
  | FStep t r => S (list_sum (map scost r))
  | FSend r => S (2 * length r)
  end.
Definition kcost (k : list frame) : nat := list_sum (map fcost k).
Definition cost (q : producer) : nat :=
  match q with
  | PRun k => S (kcost k)
  | PSend v k => S (S (kcost k))
  | PClosed => 0%nat
  end.

Lemma numbered_cost : forall l t, map (fun tv => wcost (snd tv)) (numbered t l) = map wcost l.
Proof. induction l as [|x l IH]; intro t; [reflexivity|]. cbn [numbered map snd]. rewrite IH. reflexivity. Qed.

Lemma numbered_length : forall l t, length (numbered t l) = length l.
Proof. induction l as [|x l IH]; intro t; [reflexivity|]. cbn [numbered length]. rewrite IH. reflexivity. Qed.

Lemma list_sum_perm : forall l l', Permutation l l' -> list_sum l = list_sum l'.
Proof. intros l l' H. induction H; cbn [list_sum fold_right] in *; unfold list_sum in *; lia. Qed.

Lemma wcost_pos : forall v, (4 <= wcost v)%nat.
Proof. destruct v; cbn; lia. Qed.

Lemma prod_step_cost : forall W q q', orders_ok W -> prod_step W q = Some q' -> (cost q' < cost q)%nat.
Proof.
  intros W [k|v k|] q' HW H; try discriminate. cbn [prod_step] in H.
  apply (f_equal (fun o => match o with Some x => cost x | None => O end)) in H. rewrite <- H. clear H q'.
  destruct k as [|[[|[t v] r]|t v|t [|v r]|[|v r]] k]; unfold kcost; cbn [cost]; unfold kcost; cbn [map list_sum fold_right fcost length snd]; unfold list_sum; cbn [fold_right]; try lia.
  - pose proof (wcost_pos v). destruct (IsStructure v); cbn [cost]; unfold kcost; cbn [map list_sum fold_right fcost length snd]; unfold list_sum; cbn [fold_right]; lia.
  - destruct v; cbn [cost]; unfold kcost; cbn [map list_sum fold_right fcost length snd wcost]; unfold list_sum; cbn [fold_right]; try lia.
    + rewrite numbered_cost. lia.
    + assert (E : fold_right Nat.add 0%nat (map (fun tv => wcost (snd tv)) (reorder (w_perm W t (length m)) (numbered (S t) (map snd m)))) =
                  fold_right Nat.add 0%nat (map (fun kv => wcost (snd kv)) m)); [|rewrite E; lia].
      rewrite <- (map_map snd wcost m), <- (numbered_cost (map snd m) (S t)). apply list_sum_perm, Permutation_map, reorder_perm.
      rewrite numbered_length, map_length. apply HW.
  - destruct v; cbn [cost]; unfold kcost; cbn [map list_sum fold_right fcost length snd scost]; unfold list_sum; cbn [fold_right]; try lia.
    rewrite map_length, (Permutation_length (reorder_perm _ _ m (HW t (length m)))). lia.
Qed.

Lemma sends_left : forall W q l q2, sends W q l q2 -> left W q = l ++ left W q2.
Proof.
  intros W q l q2 H. induction H as [q|q q1 l q2 Hs H IH|v k l q2 H IH]; [reflexivity| |].
  - rewrite <- (prod_step_left _ _ _ Hs). exact IH.
  - cbn [left app] in *. rewrite IH. reflexivity.
Qed.

Lemma sends_ends : forall W q, orders_ok W -> exists l, sends W q l PClosed.
Proof.
  intros W q HW. remember (cost q) as n eqn:E. revert q E. induction n as [n IH] using lt_wf_ind. intros q ->.
  destruct (prod_step W q) as [q1|] eqn:Es.
  - destruct (IH (cost q1) (prod_step_cost _ _ _ HW Es) q1 eq_refl) as [l H]. exists l. eapply SnOwn; eauto.
  - destruct q as [k|v k|]; try discriminate.
    + destruct (IH (cost (PRun k))) with (q := PRun k) as [l H]; [cbn; lia|reflexivity|]. exists (v :: l). apply SnValue. exact H.
    + exists []. constructor.
Qed.

(** ** The machine's own orders do not depend on the channels *)
Definition lift {A} (vs : list (list val)) (r : M (A * mstate)) : M (A * mstate) := let! (a, m) := r in OK (a, set_values m vs).
Definition liftm (vs : list (list val)) (r : M mstate) : M mstate := let! m := r in OK (set_values m vs).

Lemma push_values : forall v m vs, push v (set_values m vs) = set_values (push v m) vs.
Proof. intros v m vs. unfold push. cbn [set_values m_stack m_sp]. destruct (length (m_stack m) <=? m_sp m)%nat; reflexivity. Qed.
Lemma pop_values : forall m vs, pop (set_values m vs) = lift vs (pop m).
Proof.
  intros m vs. unfold pop. cbn [set_values m_stack m_sp]. destruct (m_sp m) as [|sp]; [reflexivity|]. destruct (nth_error (m_stack m) sp); reflexivity.
Qed.
Lemma popN_values : forall n m vs, popN n (set_values m vs) = lift vs (popN n m).
Proof.
  intros n m vs. unfold popN. cbn [set_values m_stack m_sp]. destruct (Z.of_nat (m_sp m) <? n); [reflexivity|]. destruct (n <? 0); reflexivity.
Qed.

Definition looping (o : op) : bool := match o with OpFor | OpNest | OpRep => true | _ => false end.

Lemma bind_eq : forall A B E (r r' : outcome E A) (k k' : A -> outcome E B), r = r' -> (forall a, k a = k' a) -> obind r k = obind r' k'.
Proof. intros A B E r r' k k' -> H. destruct r'; cbn; auto. Qed.

Lemma exec_values : forall W p root ord m vs, match op_of_num (order_op ord) with Some o => looping o = false | None => True end ->
  exec W p root ord (set_values m vs) = liftm vs (exec W p root ord m).
Proof.
  intros W p root ord m vs H. unfold exec. destruct (op_of_num (order_op ord)) as [o|]; [|reflexivity].
  assert (P0 : forall v m', OK (E := rerr) (push v (set_values m' vs)) = liftm vs (OK (push v m'))) by (intros; unfold liftm; cbn [obind]; rewrite push_values; reflexivity).
  assert (P1 : forall (k : val * mstate -> M mstate), (forall v m', k (v, set_values m' vs) = liftm vs (k (v, m'))) ->
    obind (pop (set_values m vs)) k = liftm vs (obind (pop m) k)).
  { intros k Hk. rewrite pop_values. destruct (pop m) as [[v m']| | |]; cbn [lift obind]; auto. }
  assert (P2 : forall n (k : list val * mstate -> M mstate), (forall v m', k (v, set_values m' vs) = liftm vs (k (v, m'))) ->
    obind (popN n (set_values m vs)) k = liftm vs (obind (popN n m) k)).
  { intros n k Hk. rewrite popN_values. destruct (popN n m) as [[v m']| | |]; cbn [lift obind]; auto. }
  destruct o; try discriminate H; try reflexivity; cbn [m_tick m_out m_dot set_values];
    try (apply P0); try (apply P1; intros v m'); try (apply P2; intros v m'); cbn [m_tick m_out m_dot set_values].
  all: try (destruct (unop _ _ _); [apply P0|reflexivity]).
  all: try (destruct (const_of p ord); cbn [obind]; try reflexivity; apply P0).
  all: try (rewrite pop_values; destruct (pop m') as [[a m2]| | |]; cbn [lift obind]; try reflexivity;
            match goal with |- match ?b with _ => _ end = _ => destruct b as [r|]; [destruct r; cbn [obind]; try reflexivity; apply P0|reflexivity] end).
  all: try (destruct (order_is_small ord); [apply P0|]; try reflexivity; destruct (const_of p ord); cbn [obind]; try reflexivity; apply P0).
  all: try (destruct (negb (isNothing v) && cvb W v); reflexivity).
  all: try (destruct (isNothing v); [reflexivity|]).
  all: try (match goal with |- context [obind ?r _] => destruct r as [[? ?]| | |]; reflexivity end).
  all: try (match goal with |- context [obind ?r _] => destruct r as [?| | |]; reflexivity end).
  - destruct (valsWild W (m_tick m) (m_out m) (m_dot m)). reflexivity.
  - destruct v as [|[] rest0]; try reflexivity. destruct (call W (m_tick m') s rest0) as [[r t]| | |]; cbn [obind]; try reflexivity.
    unfold liftm. cbn [obind]. rewrite <- push_values. reflexivity.
Qed.

(** ** The sequential machine behind a state *)
Definition chan_left (W : world) (c : cstate) (i : nat) : list val :=
  match nth_error (c_prods c) i with Some q => left W q | None => [] end.

Definition view (W : world) (c : cstate) : mstate :=
  let m := c_m c in
  match c_mode c with
  | CFirst =>
    match c_chans c with
    | i :: r => let '(v, _, vs) := recv (chan_left W c i) in set_dot (set_values m (vs :: map (chan_left W c) r)) v
    | [] => m
    end
  | CRep _ => set_pc (set_values m (map (chan_left W c) (c_chans c))) (m_pc m - 1)
  | _ => set_values m (map (chan_left W c) (c_chans c))
  end.

Definition mode_ok (p : program) (c : cstate) : Prop :=
  match c_mode c with
  | CFirst => c_chans c <> []
  | CRep ord => c_chans c <> [] /\ m_pc (c_m c) - 1 < prog_size p /\ index_Z (p_orders p) (m_pc (c_m c) - 1) = Some ord /\
      op_of_num (order_op ord) = Some OpRep
  | _ => True
  end.

Record wfc (p : program) (c : cstate) : Prop := {
  wf_distinct : NoDup (c_chans c);
  wf_known : forall i, In i (c_chans c) -> (i < length (c_prods c))%nat;
  wf_closed : forall i q, nth_error (c_prods c) i = Some q -> In i (c_chans c) \/ q = PClosed;
  wf_mode : mode_ok p c
}.

(** what the sequential machine does in one step *)
Definition stop (W : world) (p : program) (root : val) (m : mstate) (r : outcome rerr (list val)) : Prop :=
  (prog_size p <= m_pc m /\ r = OK (match m_out m with None => [] | Some l => l end)) \/
  (m_pc m < prog_size p /\
   ((index_Z (p_orders p) (m_pc m) = None /\ r = Panics) \/
    exists ord, index_Z (p_orders p) (m_pc m) = Some ord /\
      match exec W p root ord (set_pc m (m_pc m + 1)) with
      | OK _ => False | Fail e => r = Fail e | Panics => r = Panics | OutOfFuel => r = OutOfFuel end)).
Definition goes_to (W : world) (p : program) (root : val) (m m' : mstate) : Prop :=
  m_pc m < prog_size p /\ exists ord, index_Z (p_orders p) (m_pc m) = Some ord /\ exec W p root ord (set_pc m (m_pc m + 1)) = OK m'.

Lemma nth_error_set_nth : forall A (l : list A) i j x, nth_error (set_nth i x l) j =
  if (i =? j)%nat then match nth_error l j with Some _ => Some x | None => None end else nth_error l j.
Proof.
  intros A l. induction l as [|y l IH]; intros i j x.
  - destruct i, j; cbn; try reflexivity. destruct (i =? j)%nat; reflexivity.
  - destruct i, j; cbn [set_nth nth_error Nat.eqb]; try reflexivity. apply IH.
Qed.

Lemma length_set_nth : forall A (l : list A) i x, length (set_nth i x l) = length l.
Proof. intros A l. induction l as [|y l IH]; intros [|i] x; cbn; try reflexivity. rewrite IH. reflexivity. Qed.

Lemma chan_same : forall W c c' i q q', nth_error (c_prods c) i = Some q -> c_prods c' = set_nth i q' (c_prods c) -> left W q' = left W q ->
  forall j, chan_left W c' j = chan_left W c j.
Proof.
  intros W c c' i q q' Hi Hc Hl j. unfold chan_left. rewrite Hc, nth_error_set_nth. destruct (Nat.eqb_spec i j); [|reflexivity].
  subst j. rewrite Hi. exact Hl.
Qed.

Lemma chan_other : forall W c c' i q', c_prods c' = set_nth i q' (c_prods c) -> forall j, j <> i -> chan_left W c' j = chan_left W c j.
Proof.
  intros W c c' i q' Hc j Hj. unfold chan_left. rewrite Hc, nth_error_set_nth. destruct (Nat.eqb_spec i j); [|reflexivity]. congruence.
Qed.

Lemma view_prod : forall W c i q q', nth_error (c_prods c) i = Some q -> left W q' = left W q ->
  view W (mkC (c_m c) (c_chans c) (c_mode c) (set_nth i q' (c_prods c))) = view W c.
Proof.
  intros W c i q q' Hi Hl. set (c' := mkC _ _ _ _).
  assert (E : forall j, chan_left W c' j = chan_left W c j) by (eapply chan_same; [exact Hi|reflexivity|exact Hl]).
  unfold view. cbn [c_m c_chans c_mode c']. destruct (c_mode c).
  - rewrite (map_ext _ _ E). reflexivity.
  - destruct (c_chans c) as [|j r]; [reflexivity|]. rewrite E, (map_ext _ _ E). reflexivity.
  - rewrite (map_ext _ _ E). reflexivity.
  - rewrite (map_ext _ _ E). reflexivity.
Qed.

Lemma map_other : forall W c c' i r q', c_prods c' = set_nth i q' (c_prods c) -> ~ In i r -> map (chan_left W c') r = map (chan_left W c) r.
Proof.
  intros W c c' i r q' Hc Hi. apply map_ext_in. intros j Hj. eapply chan_other; [exact Hc|]. intros ->. contradiction.
Qed.

Lemma closed_set : forall c i q k (l : list nat), nth_error (c_prods c) i = Some q -> In i l ->
  (forall j q, nth_error (c_prods c) j = Some q -> In j l \/ q = PClosed) ->
  forall j q, nth_error (set_nth i k (c_prods c)) j = Some q -> In j l \/ q = PClosed.
Proof.
  intros c i q k l Hi Hin H j q' Hj. rewrite nth_error_set_nth in Hj. destruct (Nat.eqb_spec i j) as [<-|Hn]; [left; exact Hin|]. eauto.
Qed.

Lemma sim_prod : forall W p c i q q', wfc p c -> nth_error (c_prods c) i = Some q -> prod_step W q = Some q' ->
  let c' := mkC (c_m c) (c_chans c) (c_mode c) (set_nth i q' (c_prods c)) in wfc p c' /\ view W c' = view W c.
Proof.
  intros W p c i q q' Hw Hi Hs c'. split; [|eapply view_prod; eauto using prod_step_left]. destruct Hw as [H1 H2 H3 H4].
  assert (Hin : In i (c_chans c)). { destruct (H3 _ _ Hi) as [?| ->]; [assumption|discriminate]. }
  constructor; cbn [c_chans c_prods c'].
  - exact H1.
  - intros j Hj. rewrite length_set_nth. auto.
  - eapply closed_set; eauto.
  - exact H4.
Qed.

Definition total (c : cstate) : nat := list_sum (map cost (c_prods c)).
Definition rank (c : cstate) : nat := match c_mode c with CFirst => 3 | CRun => 2 | CRep _ => 1 | CDone _ => 0 end.
Definition weight (c : cstate) : nat := (4 * total c + rank c)%nat.

Definition step_result (W : world) (p : program) (root : val) (c c' : cstate) : Prop :=
  match c_mode c' with
  | CDone r => stop W p root (view W c) r /\ (weight c' < weight c)%nat /\ (r = Panics \/ map (chan_left W c') (c_chans c') = m_values (view W c)) /\
      length (c_chans c') = length (m_values (view W c))
  | _ => (view W c' = view W c /\ (weight c' < weight c)%nat) \/ goes_to W p root (view W c) (view W c')
  end.

Lemma sum_set_nth : forall l i q q', nth_error l i = Some q -> (list_sum (map cost (set_nth i q' l)) + cost q = list_sum (map cost l) + cost q')%nat.
Proof.
  induction l as [|x l IH]; intros [|i] q q' H; try discriminate.
  - injection H as ->. cbn. lia.
  - cbn [nth_error] in H. specialize (IH _ _ q' H). cbn [set_nth map]. unfold list_sum in *. cbn [fold_right] in *. lia.
Qed.

Lemma after_ok : forall p c r, wfc p c -> wfc p (after c r).
Proof. intros p c r [H1 H2 H3 H4]. destruct r; constructor; cbn [c_chans c_prods after done] in *; auto; exact I. Qed.

Lemma branch_values : forall p pc m vs, branch p pc (set_values m vs) = liftm vs (branch p pc m).
Proof. intros p pc m vs. unfold branch. destruct ((pc <=? 0) || (pc >? prog_size p)); reflexivity. Qed.

Lemma run_ended : forall W c c' (r : outcome rerr (list val)) r', c_mode c = CRun -> c_mode c' = CDone r' -> c_prods c' = c_prods c -> c_chans c' = c_chans c ->
  (weight c' < weight c)%nat /\ (r = Panics \/ map (chan_left W c') (c_chans c') = m_values (view W c)) /\
  length (c_chans c') = length (m_values (view W c)).
Proof.
  intros W c c' r r' Em Em' Ep Ec. unfold weight, rank, total, view. rewrite Em, Em', Ep, Ec. split; [lia|]. cbn [set_values m_values].
  split; [right|rewrite map_length; reflexivity]. apply map_ext. intro i. unfold chan_left. rewrite Ep. reflexivity.
Qed.

Lemma sim_main : forall W p root c c', wfc p c -> main_step W p root c = Some c' -> wfc p c' /\ step_result W p root c c'.
Proof.
  intros W p root c c' Hw H. unfold main_step in H. destruct (c_mode c) as [| |ord|r] eqn:Em.
  - injection H as <-. set (vs := map (chan_left W c) (c_chans c)). assert (Ev : view W c = set_values (c_m c) vs) by (unfold view; rewrite Em; reflexivity).
    assert (Epc : m_pc (view W c) = m_pc (c_m c)) by (rewrite Ev; reflexivity).
    assert (Hrun : wfc p (mkC (set_pc (c_m c) (m_pc (c_m c) + 1)) (c_chans c) CRun (c_prods c))).
    { destruct Hw as [H1 H2 H3 H4]. constructor; cbn [c_chans c_prods]; auto. exact I. }
    destruct (Z.ltb_spec (m_pc (c_m c)) (prog_size p)) as [Hpc|Hpc].
    + destruct (index_Z (p_orders p) (m_pc (c_m c))) as [ord|] eqn:Eo.
      * unfold c_exec.
        assert (Hplain : match op_of_num (order_op ord) with Some o => looping o = false | None => True end ->
          forall c', c' = after (mkC (set_pc (c_m c) (m_pc (c_m c) + 1)) (c_chans c) CRun (c_prods c)) (exec W p root ord (set_pc (c_m c) (m_pc (c_m c) + 1))) ->
          wfc p c' /\ step_result W p root c c').
        { intros Hl c' ->. split; [apply after_ok; exact Hrun|]. unfold step_result.
          pose proof (exec_values W p root ord (set_pc (c_m c) (m_pc (c_m c) + 1)) vs Hl) as Hx.
          destruct (exec W p root ord (set_pc (c_m c) (m_pc (c_m c) + 1))) as [m'|e| |] eqn:Ex; cbn [after done c_mode c_m].
          - right. split; [lia|]. exists ord. rewrite Epc. split; [exact Eo|]. rewrite Ev. exact Hx.
          - split; [|eapply run_ended; [exact Em|reflexivity|reflexivity|reflexivity]]. right. split; [lia|]. right. exists ord. rewrite Epc. split; [exact Eo|]. rewrite Ev.
            change (set_pc (set_values (c_m c) vs) (m_pc (c_m c) + 1)) with (set_values (set_pc (c_m c) (m_pc (c_m c) + 1)) vs). rewrite Hx. reflexivity.
          - split; [|eapply run_ended; [exact Em|reflexivity|reflexivity|reflexivity]]. right. split; [lia|]. right. exists ord. rewrite Epc. split; [exact Eo|]. rewrite Ev.
            change (set_pc (set_values (c_m c) vs) (m_pc (c_m c) + 1)) with (set_values (set_pc (c_m c) (m_pc (c_m c) + 1)) vs). rewrite Hx. reflexivity.
          - split; [|eapply run_ended; [exact Em|reflexivity|reflexivity|reflexivity]]. right. split; [lia|]. right. exists ord. rewrite Epc. split; [exact Eo|]. rewrite Ev.
            change (set_pc (set_values (c_m c) vs) (m_pc (c_m c) + 1)) with (set_values (set_pc (c_m c) (m_pc (c_m c) + 1)) vs). rewrite Hx. reflexivity. }
        assert (Hpanic : exec W p root ord (set_pc (view W c) (m_pc (view W c) + 1)) = Panics ->
          wfc p (done (mkC (set_pc (c_m c) (m_pc (c_m c) + 1)) (c_chans c) CRun (c_prods c)) Panics) /\
          step_result W p root c (done (mkC (set_pc (c_m c) (m_pc (c_m c) + 1)) (c_chans c) CRun (c_prods c)) Panics)).
        { intro Hx. split; [apply (after_ok p _ Panics); exact Hrun|]. unfold step_result. cbn [done c_mode].
          split; [|eapply run_ended; [exact Em|reflexivity|reflexivity|reflexivity]]. right. split; [lia|]. right. exists ord.
          rewrite Epc in *. split; [exact Eo|]. rewrite Hx. reflexivity. }
        assert (Hloop : forall o, (o = OpFor \/ o = OpNest) -> op_of_num (order_op ord) = Some o ->
          forall c', c' = match order_pc ord with
            | Some epc => c_looptop p o epc (mkC (set_pc (c_m c) (m_pc (c_m c) + 1)) (c_chans c) CRun (c_prods c))
            | None => done (mkC (set_pc (c_m c) (m_pc (c_m c) + 1)) (c_chans c) CRun (c_prods c)) Panics end ->
          wfc p c' /\ step_result W p root c c').
        { intros o Ho Eop c' ->.
          assert (Hx : forall m, exec W p root ord m = match order_pc ord with
            | Some epc => looptop p (match o with OpFor => stepping W | _ => walker W end) epc m | None => Panics end).
          { intro m. unfold exec. rewrite Eop. destruct Ho as [-> | ->]; reflexivity. }
          destruct (order_pc ord) as [epc|]; [|apply Hpanic; apply Hx].
          unfold c_looptop. cbn [c_m m_out set_pc c_chans c_prods m_tick].
          destruct (g_list (m_out (c_m c))) as [|x out] eqn:Eg.
          - split; [apply after_ok; exact Hrun|]. unfold step_result.
            pose proof (branch_values p epc (set_pc (c_m c) (m_pc (c_m c) + 1)) vs) as Hb.
            assert (Hx' : exec W p root ord (set_pc (view W c) (m_pc (view W c) + 1)) = liftm vs (branch p epc (set_pc (c_m c) (m_pc (c_m c) + 1)))).
            { rewrite Hx, Epc, Ev. unfold looptop. cbn [m_out set_pc set_values]. rewrite Eg. exact Hb. }
            destruct (branch p epc (set_pc (c_m c) (m_pc (c_m c) + 1))) as [m'|e| |]; cbn [after done c_mode c_m].
            + right. split; [lia|]. exists ord. rewrite <- Epc in Eo. split; [exact Eo|]. exact Hx'.
            + split; [|eapply run_ended; [exact Em|reflexivity|reflexivity|reflexivity]]. right. split; [lia|]. right. exists ord. rewrite <- Epc in Eo. split; [exact Eo|]. rewrite Hx'. reflexivity.
            + split; [|eapply run_ended; [exact Em|reflexivity|reflexivity|reflexivity]]. right. split; [lia|]. right. exists ord. rewrite <- Epc in Eo. split; [exact Eo|]. rewrite Hx'. reflexivity.
            + split; [|eapply run_ended; [exact Em|reflexivity|reflexivity|reflexivity]]. right. split; [lia|]. right. exists ord. rewrite <- Epc in Eo. split; [exact Eo|]. rewrite Hx'. reflexivity.
          - destruct (start o (m_tick (c_m c)) (x :: out)) as [q t'] eqn:Es. pose proof (start_left W _ _ _ _ _ Es) as Hq.
            destruct Hw as [H1 H2 H3 H4]. split.
            + constructor; cbn [c_chans c_prods].
              * constructor; [|exact H1]. intro Hin. apply H2 in Hin. lia.
              * intros i [<-|Hi]; rewrite app_length; cbn [length]; [lia|]. apply H2 in Hi. lia.
              * intros i q' Hi. destruct (Nat.lt_ge_cases i (length (c_prods c))) as [Hlt|Hge].
                -- rewrite nth_error_app1 in Hi by exact Hlt. destruct (H3 _ _ Hi); auto. left. right. assumption.
                -- rewrite nth_error_app2 in Hi by exact Hge. destruct (i - length (c_prods c))%nat as [|d] eqn:Ed; [left; left; lia|]. destruct d; discriminate.
              * unfold mode_ok. cbn [c_mode]. discriminate.
            + unfold step_result. cbn [c_mode]. right. split; [lia|]. exists ord. split; [rewrite Epc; exact Eo|]. rewrite Hx, Epc, Ev.
              unfold looptop. cbn [m_out set_pc set_values m_tick m_stack m_sp m_pc m_values]. rewrite Eg.
              assert (Eprod : (match o with OpFor => stepping W | _ => walker W end) (m_tick (c_m c)) (x :: out) = (left W q, t')).
              { rewrite Hq. destruct Ho as [-> | ->]; reflexivity. }
              rewrite Eprod. unfold view. cbn [c_mode c_chans c_m c_prods].
              match goal with |- context [chan_left W ?c0] => set (c1 := c0) end.
              assert (E0 : chan_left W c1 (length (c_prods c)) = left W q).
              { unfold chan_left. cbn [c1 c_prods]. rewrite nth_error_app2, Nat.sub_diag by lia. reflexivity. }
              assert (E1 : map (chan_left W c1) (c_chans c) = vs).
              { apply map_ext_in. intros i Hi. unfold chan_left. cbn [c1 c_prods]. rewrite nth_error_app1 by (apply H2; exact Hi). reflexivity. }
              rewrite E0, E1. destruct (recv (left W q)) as [[v b] vs']. reflexivity. }
        destruct (op_of_num (order_op ord)) as [o|] eqn:Eop; [|apply Hplain; [exact I|reflexivity]].
        destruct o; try (apply Hplain; reflexivity).
        -- (* OpFor *) eapply Hloop; [left; reflexivity|reflexivity|reflexivity].
        -- (* OpNest *) eapply Hloop; [right; reflexivity|reflexivity|reflexivity].
        -- (* OpRep *) cbn [c_chans c_m c_prods]. destruct (c_chans c) as [|i r] eqn:Ec.
           ++ apply Hpanic. unfold exec. rewrite Eop. unfold rep. rewrite Ev. unfold vs. reflexivity.
           ++ destruct Hw as [H1 H2 H3 H4]. rewrite Ec in *. split.
              ** constructor; cbn [c_chans c_prods]; auto. unfold mode_ok. cbn [c_mode c_chans c_m set_pc m_pc].
                 replace (m_pc (c_m c) + 1 - 1) with (m_pc (c_m c)) by lia. repeat split; auto; discriminate.
              ** unfold step_result. cbn [c_mode]. left. split; [|unfold weight, rank, total; rewrite Em; cbn [c_mode c_prods]; lia].
                 rewrite Ev. unfold view. cbn [c_mode c_m c_chans set_values set_pc m_pc m_out m_dot m_stack m_sp m_tick].
                 replace (m_pc (c_m c) + 1 - 1) with (m_pc (c_m c)) by lia. unfold vs. reflexivity.
      * split; [apply (after_ok p c Panics); exact Hw|]. unfold step_result. cbn [done c_mode].
        split; [|eapply run_ended; [exact Em|reflexivity|reflexivity|reflexivity]]. right. rewrite Epc. split; [lia|]. left. auto.
    + split; [apply (after_ok p c Panics) in Hw; destruct Hw; constructor; auto|]. unfold step_result. cbn [done c_mode].
      split; [|eapply run_ended; [exact Em|reflexivity|reflexivity|reflexivity]]. left. rewrite Epc. split; [lia|]. rewrite Ev. reflexivity.
  - destruct (c_chans c) as [|i r] eqn:Ec; [discriminate|]. pose proof Hw as [H1 H2 H3 H4]. rewrite Ec in *. apply NoDup_cons_iff in H1 as [Hni H1].
    destruct (nth_error (c_prods c) i) as [[k|v k|]|] eqn:Ei; try discriminate; injection H as <-.
    + split.
      * constructor; cbn [c_chans c_prods].
        -- constructor; assumption.
        -- intros j Hj. rewrite length_set_nth. auto.
        -- eapply closed_set; eauto. left. reflexivity.
        -- exact I.
      * unfold step_result. cbn [c_mode]. left. split.
        2:{ unfold weight, rank, total. rewrite Em. cbn [c_mode c_prods]. pose proof (sum_set_nth _ _ _ (PRun k) Ei) as Hs. cbn [cost] in Hs. lia. }
        unfold view. rewrite Em, Ec. cbn [c_mode c_chans c_m map].
        match goal with |- context [chan_left W ?c0] => lazymatch c0 with c => fail | _ => set (c1 := c0) end end.
        assert (E0 : chan_left W c1 i = rests W k). { unfold chan_left. cbn [c1 c_prods]. rewrite nth_error_set_nth, Nat.eqb_refl, Ei. reflexivity. }
        assert (E1 : map (chan_left W c1) r = map (chan_left W c) r) by (eapply map_other; [reflexivity|exact Hni]).
        rewrite E0, E1. unfold chan_left at 2. rewrite Ei. reflexivity.
    + split.
      * constructor; cbn [c_chans c_prods]; auto. constructor; assumption. exact I.
      * unfold step_result. cbn [c_mode]. left. split; [|unfold weight, rank, total; rewrite Em; cbn [c_mode c_prods]; lia].
        unfold view. rewrite Em, Ec. cbn [c_mode c_chans c_m map].
        unfold chan_left. cbn [c_prods]. rewrite Ei. reflexivity.
  - destruct (c_chans c) as [|i r] eqn:Ec; [discriminate|]. pose proof Hw as [H1 H2 H3 H4]. unfold mode_ok in H4. rewrite Em in H4. rewrite Ec in *.
    destruct H4 as (_ & Hpc & Eo & Eop). apply NoDup_cons_iff in H1 as [Hni H1].
    assert (Ev : view W c = set_pc (set_values (c_m c) (chan_left W c i :: map (chan_left W c) r)) (m_pc (c_m c) - 1)).
    { unfold view. rewrite Em, Ec. reflexivity. }
    assert (Epc : m_pc (view W c) = m_pc (c_m c) - 1) by (rewrite Ev; reflexivity).
    assert (Hx : exec W p root ord (set_pc (view W c) (m_pc (view W c) + 1)) =
      rep p (order_pc ord) (set_values (c_m c) (chan_left W c i :: map (chan_left W c) r))).
    { unfold exec. rewrite Eop, Epc, Ev. replace (m_pc (c_m c) - 1 + 1) with (m_pc (c_m c)) by lia. destruct (c_m c); reflexivity. }
    destruct (nth_error (c_prods c) i) as [[k|v k|]|] eqn:Ei; try discriminate; injection H as <-.
    + unfold rep in Hx. cbn [set_values m_values] in Hx. unfold chan_left in Hx at 1. rewrite Ei in Hx. cbn [left recv negb] in Hx.
      set (c1 := mkC (set_dot (c_m c) v) (i :: r) CRun (set_nth i (PRun k) (c_prods c))).
      assert (Hc1 : wfc p c1).
      { constructor; cbn [c_chans c_prods c1].
        - constructor; assumption.
        - intros j Hj. rewrite length_set_nth. auto.
        - eapply closed_set; eauto. left. reflexivity.
        - exact I. }
      assert (E0 : chan_left W c1 i = rests W k). { unfold chan_left. cbn [c1 c_prods]. rewrite nth_error_set_nth, Nat.eqb_refl, Ei. reflexivity. }
      assert (E1 : map (chan_left W c1) r = map (chan_left W c) r) by (eapply map_other; [reflexivity|exact Hni]).
      destruct (order_pc ord) as [pc|].
      * split; [apply after_ok; exact Hc1|]. unfold step_result.
        assert (Hb : exec W p root ord (set_pc (view W c) (m_pc (view W c) + 1)) = liftm (rests W k :: map (chan_left W c) r) (branch p pc (c_m c1))).
        { rewrite Hx, <- branch_values. reflexivity. }
        assert (Hend : forall r, (weight (done c1 r) < weight c)%nat).
        { intro r0. unfold weight, rank, total. rewrite Em. cbn [c_mode c_prods done c1]. pose proof (sum_set_nth _ _ _ (PRun k) Ei) as Hs. cbn [cost] in Hs. lia. }
        assert (Hlen : length (i :: r) = length (m_values (view W c))) by (rewrite Ev; cbn; rewrite map_length; reflexivity).
        assert (Hpb : forall x, branch p pc x = Panics \/ exists x', branch p pc x = OK x').
        { intro x. unfold branch. destruct ((pc <=? 0) || (pc >? prog_size p)); eauto. }
        cbn [c1 c_m] in *. fold c1.
        destruct (branch p pc (set_dot (c_m c) v)) as [m'|e| |] eqn:Eb; cbn [after done c_mode].
        -- right. split; [lia|]. exists ord. rewrite <- Epc in Eo. split; [exact Eo|]. rewrite Hb. unfold view. cbn [after c_mode c_m c_chans liftm obind]. fold c1.
           assert (E0' : map (chan_left W (mkC m' (c_chans c1) CRun (c_prods c1))) (i :: r) = rests W k :: map (chan_left W c) r).
           { rewrite <- E0, <- E1. reflexivity. }
           symmetry. unfold liftm. cbn [obind]. f_equal. f_equal. exact E0'.
        -- exfalso. destruct (Hpb (set_dot (c_m c) v)) as [?|[? ?]]; congruence.
        -- split; [|split; [apply Hend|split; [left; reflexivity|exact Hlen]]].
           right. split; [lia|]. right. exists ord. rewrite <- Epc in Eo. split; [exact Eo|]. rewrite Hb. reflexivity.
        -- exfalso. destruct (Hpb (set_dot (c_m c) v)) as [?|[? ?]]; congruence.
      * split; [apply (after_ok p c1 Panics); exact Hc1|]. unfold step_result. cbn [done c_mode].
        split; [|split; [|split; [left; reflexivity|]]].
        -- right. split; [lia|]. right. exists ord. rewrite <- Epc in Eo. split; [exact Eo|]. rewrite Hx. reflexivity.
        -- unfold weight, rank, total. rewrite Em. cbn [c_mode c_prods done c1]. pose proof (sum_set_nth _ _ _ (PRun k) Ei) as Hs. cbn [cost] in Hs. lia.
        -- rewrite Ev. cbn. rewrite map_length. reflexivity.
    + unfold rep in Hx. cbn [set_values m_values] in Hx. unfold chan_left in Hx at 1. rewrite Ei in Hx. cbn [left recv negb] in Hx. split.
      * constructor; cbn [c_chans c_prods]; auto.
        -- intros j Hj. apply H2. right. exact Hj.
        -- intros j q Hj. destruct (H3 _ _ Hj) as [[<-|Hin]|Hq]; auto. right. congruence.
        -- exact I.
      * unfold step_result. cbn [c_mode]. right. split; [lia|]. exists ord. rewrite <- Epc in Eo. split; [exact Eo|]. rewrite Hx. reflexivity.
  - discriminate.
Qed.

(** ** Every schedule is an evaluation *)
Definition at_steps (W : world) (p : program) (root : val) (t n : nat) (c : cstate) : Prop :=
  wfc p c /\
  match c_mode c with
  | CDone r => exists m, steps W p root n (m_start t [root]) m /\ stop W p root m r /\
      (r = Panics \/ map (chan_left W c) (c_chans c) = m_values m) /\ length (c_chans c) = length (m_values m)
  | _ => steps W p root n (m_start t [root]) (view W c)
  end.

Lemma steps_more : forall W p root n m m1 m2, steps W p root n m m1 -> goes_to W p root m1 m2 -> steps W p root (S n) m m2.
Proof.
  intros W p root n m m1 m2 H (Hpc & ord & Ho & Hx). induction H as [m|n m ord' m' m'' Hpc' Ho' Hx' H IH].
  - econstructor; eauto. constructor.
  - econstructor; eauto.
Qed.

Lemma at_init : forall W p root t, at_steps W p root t 0 (c_init t root).
Proof.
  intros W p root t. split; [|apply StNone].
  constructor; cbn; try tauto; [constructor|]. intros [|i] q H; discriminate.
Qed.

Lemma at_step : forall W p root t n c c', orders_ok W -> at_steps W p root t n c -> cstep W p root c c' ->
  (at_steps W p root t n c' /\ (weight c' < weight c)%nat) \/ at_steps W p root t (S n) c'.
Proof.
  intros W p root t n c c' HW [Hw Hn] Hs. destruct Hs as [c c' Hs|c i q q' Hi Hs].
  - destruct (sim_main _ _ _ _ _ Hw Hs) as [Hw' Hr]. unfold step_result in Hr.
    assert (Hn' : steps W p root n (m_start t [root]) (view W c)).
    { unfold main_step in Hs. destruct (c_mode c); try exact Hn. discriminate. }
    destruct (c_mode c') as [| |o|r] eqn:Em.
    4:{ destruct Hr as (H1 & H2 & H3 & H4). left. split; [|exact H2]. split; [exact Hw'|]. rewrite Em. exists (view W c). auto. }
    all: destruct Hr as [[H1 H2]|H1]; [left; split; [|exact H2]|right]; (split; [exact Hw'|]); rewrite Em;
      [rewrite H1; exact Hn'|eapply steps_more; eassumption].
  - destruct (sim_prod _ _ _ _ _ _ Hw Hi Hs) as [Hw' Hv]. left. split.
    + split; [exact Hw'|]. cbn [c_mode c_chans]. destruct (c_mode c) eqn:Em; try (rewrite Hv; exact Hn).
      assert (E : forall l, map (chan_left W (mkC (c_m c) (c_chans c) (CDone r) (set_nth i q' (c_prods c)))) l = map (chan_left W c) l).
      { intro l. apply map_ext. eapply chan_same; [exact Hi|reflexivity|]. eapply prod_step_left; eassumption. }
      rewrite E. exact Hn.
    + unfold weight, rank, total. cbn [c_mode c_prods]. pose proof (sum_set_nth _ _ _ q' Hi). pose proof (prod_step_cost _ _ _ HW Hs). lia.
Qed.

Lemma at_scheduled : forall W p root t c, orders_ok W -> scheduled W p root t c -> exists n, at_steps W p root t n c.
Proof.
  intros W p root t c HW H. induction H as [|c c' H [n IH] Hs]; [exists 0%nat; apply at_init|].
  destruct (at_step _ _ _ _ _ _ _ HW IH Hs) as [[? ?]|?]; eauto.
Qed.

Lemma steps_run : forall W p root n m m', steps W p root n m m' -> forall k, run_loop (n + k) W p root m = run_loop k W p root m'.
Proof.
  intros W p root n m m' H k. induction H as [m|n m ord m' m'' Hpc Ho Hx H IH]; [reflexivity|].
  change (S n + k)%nat with (S (n + k)). cbn [run_loop]. apply Z.ltb_lt in Hpc. rewrite Hpc, Ho, Hx. exact IH.
Qed.

Lemma stop_run : forall W p root m r, stop W p root m r ->
  (let! m' := run_loop 1 W p root m in OK (match m_out m' with None => [] | Some l => l end)) = r.
Proof.
  intros W p root m r [[H ->]|[Hpc [[Ho ->]|(ord & Ho & H)]]].
  - cbn [run_loop]. destruct (Z.ltb_spec (m_pc m) (prog_size p)); [lia|]. reflexivity.
  - apply Z.ltb_lt in Hpc. cbn [run_loop]. rewrite Hpc, Ho. reflexivity.
  - apply Z.ltb_lt in Hpc. cbn [run_loop]. rewrite Hpc, Ho. destruct (exec _ _ _ _ _); [contradiction| | |]; subst r; reflexivity.
Qed.

Lemma at_done : forall W jp root t n c r, at_steps W (jp_prog jp) root t n c -> c_mode c = CDone r -> r <> OutOfFuel -> JP_Eval W t jp root r.
Proof.
  intros W jp root t n c r [_ H] Em Hr. rewrite Em in H. destruct H as (m & Hn & Hs & _). split; [exact Hr|]. exists (n + 1)%nat.
  unfold Run. change (m_init t root) with (m_start t [root]). rewrite (steps_run _ _ _ _ _ _ Hn). apply stop_run. exact Hs.
Qed.

Lemma sched_result : forall W jp root t c r, orders_ok W -> scheduled W (jp_prog jp) root t c -> c_mode c = CDone r -> r <> OutOfFuel ->
  JP_Eval W t jp root r.
Proof. intros W jp root t c r HW H Em Hr. destruct (at_scheduled _ _ _ _ _ HW H) as [n Hn]. eapply at_done; eauto. Qed.

Lemma wfc_progress : forall W p root c, wfc p c -> (forall r, c_mode c <> CDone r) -> exists c', cstep W p root c c'.
Proof.
  intros W p root c [H1 H2 H3 H4] Hm. unfold mode_ok in H4.
  assert (Hwait : forall i r, c_chans c = i :: r -> (c_mode c = CFirst \/ exists o, c_mode c = CRep o) -> exists c', cstep W p root c c').
  { intros i r Ec Hc. destruct (nth_error (c_prods c) i) as [[k|v k|]|] eqn:Ei.
    - eexists. eapply CProd; [exact Ei|reflexivity].
    - destruct Hc as [Em|[o Em]]; eexists; apply CMain; unfold main_step; rewrite Em, Ec, Ei; reflexivity.
    - destruct Hc as [Em|[o Em]]; eexists; apply CMain; unfold main_step; rewrite Em, Ec, Ei; reflexivity.
    - exfalso. apply nth_error_None in Ei. specialize (H2 i). rewrite Ec in H2. specialize (H2 (or_introl eq_refl)). lia. }
  destruct (c_mode c) as [| |o|r] eqn:Em.
  - eexists. apply CMain. unfold main_step. rewrite Em. reflexivity.
  - destruct (c_chans c) as [|i r] eqn:Ec; [contradiction|]. eapply Hwait; [reflexivity|auto].
  - destruct (c_chans c) as [|i r] eqn:Ec; [destruct H4; contradiction|]. eapply Hwait; [reflexivity|eauto].
  - exfalso. eapply Hm. reflexivity.
Qed.

Lemma sched_progress : forall W p root t c, orders_ok W -> scheduled W p root t c -> (forall r, c_mode c <> CDone r) -> exists c', cstep W p root c c'.
Proof. intros W p root t c HW H Hm. destruct (at_scheduled _ _ _ _ _ HW H) as [n [Hw _]]. eapply wfc_progress; eauto. Qed.

Lemma at_acc : forall W p root t B, orders_ok W -> (forall n m, steps W p root n (m_start t [root]) m -> (n <= B)%nat) ->
  forall d n, (B - n = d)%nat -> forall w c, weight c = w -> at_steps W p root t n c -> Acc (fun c' c => cstep W p root c c') c.
Proof.
  intros W p root t B HW HB d. induction d as [d IHd] using lt_wf_ind. intros n Hd w. induction w as [w IHw] using lt_wf_ind. intros c Ec Hc.
  constructor. intros c' Hs. destruct (at_step _ _ _ _ _ _ _ HW Hc Hs) as [[H1 H2]|H1].
  - eapply (IHw (weight c')); [lia|reflexivity|exact H1].
  - assert (Hle : (S n <= B)%nat). { destruct H1 as [_ H1]. destruct (c_mode c'); try (eapply HB; eassumption). destruct H1 as (m & H1 & _). eapply HB; eassumption. }
    eapply (IHd (B - S n)%nat); [lia|reflexivity|reflexivity|exact H1].
Qed.

Lemma sched_ends : forall TX s ss jp, accepted TX s ss jp -> fits jp -> forall W t root, orders_ok W -> doc root ->
  forall c, scheduled W (jp_prog jp) root t c -> Acc (fun c' c => cstep W (jp_prog jp) root c c') c.
Proof.
  intros TX s ss jp Ha Hf W t root HW Hd c Hc. destruct (at_scheduled _ _ _ _ _ HW Hc) as [n Hn].
  eapply at_acc; [exact HW| |reflexivity|reflexivity|exact Hn]. intros k m Hk. eapply (text_visits TX s ss jp Ha Hf); eassumption.
Qed.

Lemma sched_some_end : forall TX s ss jp, accepted TX s ss jp -> fits jp -> forall W t root, orders_ok W -> doc root ->
  forall c, scheduled W (jp_prog jp) root t c -> exists c' r, leads W (jp_prog jp) root c c' /\ c_mode c' = CDone r.
Proof.
  intros TX s ss jp Ha Hf W t root HW Hd c Hc. pose proof (sched_ends _ _ _ _ Ha Hf _ _ _ HW Hd _ Hc) as Hacc. revert Hc.
  induction Hacc as [c _ IH]. intro Hc.
  assert (D : (exists r, c_mode c = CDone r) \/ forall r, c_mode c <> CDone r) by (destruct (c_mode c); eauto; right; congruence).
  destruct D as [[r Er]|Hn]; [exists c, r; split; [constructor|exact Er]|].
  destruct (sched_progress _ _ _ _ _ HW Hc Hn) as [c1 Hs]. destruct (IH _ Hs) as (c' & r & Hl & Er); [econstructor; eauto|].
  exists c', r. split; [econstructor; eauto|exact Er].
Qed.

Lemma text_sched_result : forall TX s ss jp, accepted TX s ss jp -> fits jp -> forall W t root, orders_ok W -> doc root ->
  forall c r, scheduled W (jp_prog jp) root t c -> c_mode c = CDone r -> JP_Eval W t jp root r.
Proof.
  intros TX s ss jp Ha Hf W t root HW Hd c r Hc Em. apply (sched_result W jp root t c r HW Hc Em). intros ->.
  destruct (text_ends TX s ss jp Ha Hf W t root HW Hd) as [r' [Hr' [f Hrun]]].
  destruct (at_scheduled _ _ _ _ _ HW Hc) as [n [_ Hn]]. rewrite Em in Hn. destruct Hn as (m & Hn & Hs & _).
  pose proof (stop_run _ _ _ _ _ Hs) as H1. rewrite <- (steps_run _ _ _ _ _ _ Hn) in H1. unfold Run in Hrun. change (m_init t root) with (m_start t [root]) in Hrun.
  destruct (run_loop f W (jp_prog jp) root (m_start t [root])) as [x|x| |] eqn:Ef; cbn [obind] in Hrun; try congruence.
  all: assert (Hne : run_loop f W (jp_prog jp) root (m_start t [root]) <> OutOfFuel) by congruence;
    pose proof (run_loop_more W (jp_prog jp) root f (n + 1) (m_start t [root]) _ eq_refl Hne) as H2;
    destruct (run_loop (n + 1) W (jp_prog jp) root (m_start t [root])) as [y|y| |] eqn:Ey; cbn [obind] in H1; try discriminate;
    replace (f + (n + 1))%nat with (n + (1 + f))%nat in H2 by lia; rewrite (steps_run _ _ _ _ _ _ Hn) in H2;
    rewrite (steps_run _ _ _ _ _ _ Hn) in Ey.
  all: destruct Hs as [[H3 H4]|[Hpc [[Ho H4]|(ord & Ho & H4)]]]; try discriminate;
    cbn [run_loop Nat.add] in H2; apply Z.ltb_lt in Hpc; rewrite Hpc, Ho in H2; destruct (exec _ _ _ _ _); try contradiction; try discriminate; cbn [obind] in H2; congruence.
Qed.

(** ** What the machine receives *)
Lemma sends_own : forall W q l q1 q2, sends W q l q1 -> prod_step W q1 = Some q2 -> sends W q l q2.
Proof.
  intros W q l q1 q2 H Hs. induction H as [q|q q' l q1 Hs' H IH|v k l q1 H IH].
  - eapply SnOwn; [exact Hs|constructor].
  - eapply SnOwn; [exact Hs'|auto].
  - apply SnValue. auto.
Qed.

Lemma sends_value : forall W q l v k, sends W q l (PSend v k) -> sends W q (l ++ [v]) (PRun k).
Proof.
  intros W q l v k H. remember (PSend v k) as q1 eqn:E. induction H as [q|q q' l q1 Hs' H IH|v' k' l q1 H IH]; subst.
  - apply SnValue. constructor.
  - eapply SnOwn; [exact Hs'|auto].
  - apply SnValue. auto.
Qed.

Lemma sends_app : forall W q l q1 l' q2, sends W q l q1 -> sends W q1 l' q2 -> sends W q (l ++ l') q2.
Proof.
  intros W q l q1 l' q2 H H2. induction H as [q|q q' l q1 Hs' H IH|v' k' l q1 H IH].
  - exact H2.
  - eapply SnOwn; [exact Hs'|auto].
  - apply SnValue. auto.
Qed.

Lemma start_sends : forall W o t vals, orders_ok W -> (o = OpFor \/ o = OpNest) ->
  (forall l q, sends W (fst (start o t vals)) l q -> exists l', sends W (fst (start o t vals)) (l ++ l') PClosed) /\
  (forall l l', sends W (fst (start o t vals)) l PClosed -> sends W (fst (start o t vals)) l' PClosed -> l = l') /\
  (forall l, sends W (fst (start o t vals)) l PClosed -> gathers (iterates_over o) vals l).
Proof.
  intros W o t vals HW Ho. repeat split.
  - intros l q H. destruct (sends_ends W q HW) as [l' H']. exists l'. eapply sends_app; eauto.
  - intros l l' H H'. apply sends_left in H. apply sends_left in H'. cbn [left] in *. rewrite app_nil_r in *. congruence.
  - intros l H. apply sends_left in H. cbn [left] in H. rewrite app_nil_r in H. subst l.
    destruct (start o t vals) as [q t'] eqn:Es. pose proof (start_left W _ _ _ _ _ Es) as Hq. cbn [fst].
    destruct Ho as [-> | ->]; cbn [iterates_over].
    + pose proof (stepping_gathers W HW vals t) as G. rewrite <- Hq in G. exact G.
    + pose proof (walker_gathers W HW vals t) as G. rewrite <- Hq in G. exact G.
Qed.

Definition one_chan (W : world) (q : producer) (es : list (option val)) : Prop :=
  exists o t vals vs k, (o = OpFor \/ o = OpNest) /\ sends W (fst (start o t vals)) vs q /\
    es = map Some vs ++ repeat None k /\ (k <> 0%nat -> q = PClosed).

Lemma main_prods : forall W p root c c', c_mode c = CRun -> main_step W p root c = Some c' ->
  c_prods c' = c_prods c \/ exists o t vals, (o = OpFor \/ o = OpNest) /\ c_prods c' = c_prods c ++ [fst (start o t vals)].
Proof.
  intros W p root c c' Em H. unfold main_step in H. rewrite Em in H. injection H as <-.
  destruct (m_pc (c_m c) <? prog_size p); [|left; reflexivity].
  destruct (index_Z (p_orders p) (m_pc (c_m c))) as [ord|]; [|left; reflexivity].
  assert (Ha : forall c r, c_prods (after c r) = c_prods c) by (intros ? [| | |]; reflexivity).
  assert (Hl : forall o epc c, (o = OpFor \/ o = OpNest) -> c_prods (c_looptop p o epc c) = c_prods c \/
    exists o' t vals, (o' = OpFor \/ o' = OpNest) /\ c_prods (c_looptop p o epc c) = c_prods c ++ [fst (start o' t vals)]).
  { intros o epc c0 Ho. unfold c_looptop. destruct (g_list (m_out (c_m c0))) as [|x out] eqn:Eg; [left; apply Ha|].
    right. exists o, (m_tick (c_m c0)), (x :: out). split; [exact Ho|]. destruct (start o (m_tick (c_m c0)) (x :: out)). reflexivity. }
  assert (Hd : forall c0 o, (o = OpFor \/ o = OpNest) -> c_prods (match order_pc ord with Some epc => c_looptop p o epc c0 | None => done c0 Panics end) = c_prods c0 \/
    exists o' t vals, (o' = OpFor \/ o' = OpNest) /\ c_prods (match order_pc ord with Some epc => c_looptop p o epc c0 | None => done c0 Panics end) = c_prods c0 ++ [fst (start o' t vals)]).
  { intros c0 o Ho. destruct (order_pc ord); [|left; reflexivity]. destruct (Hl o z c0 Ho) as [?|(o' & t & vals & ? & ?)]; [left; assumption|right; eauto]. }
  unfold c_exec. destruct (op_of_num (order_op ord)) as [o|]; [|left; rewrite Ha; reflexivity].
  destruct o; try (left; rewrite Ha; reflexivity).
  - apply (Hd (mkC (set_pc (c_m c) (m_pc (c_m c) + 1)) (c_chans c) CRun (c_prods c)) OpFor). auto.
  - apply (Hd (mkC (set_pc (c_m c) (m_pc (c_m c) + 1)) (c_chans c) CRun (c_prods c)) OpNest). auto.
  - cbn [c_chans]. destruct (c_chans c); left; reflexivity.
Qed.

Lemma from_app : forall i a b, from i (a ++ b) = from i a ++ from i b.
Proof. intros i a b. unfold from. rewrite filter_app, map_app. reflexivity. Qed.

Lemma observed_chan : forall W p root t c log, observed W p root t c log ->
  (forall i q, nth_error (c_prods c) i = Some q -> one_chan W q (from i log)) /\
  (forall i, (length (c_prods c) <= i)%nat -> from i log = []).
Proof.
  intros W p root t c log H. induction H as [|c log i q q' H [IH1 IH2] Hi Hs|c log c' H [IH1 IH2] Hs].
  - split; [intros [|i] q Hi; discriminate|]. reflexivity.
  - split; cbn [c_prods].
    + intros j q0 Hj. rewrite nth_error_set_nth in Hj. destruct (Nat.eqb_spec i j) as [<-|]; [|auto]. rewrite Hi in Hj. injection Hj as <-.
      destruct (IH1 _ _ Hi) as (o & t' & vals & vs & k & Ho & Hq & He & Hk). exists o, t', vals, vs, k. split; [exact Ho|]. split; [eapply sends_own; eauto|].
      split; [exact He|]. intro Hk0. rewrite (Hk Hk0) in Hs. discriminate.
    + intros j Hj. rewrite length_set_nth in Hj. auto.
  - assert (Same : c_prods c' = c_prods c -> received_now c = [] -> (forall i q, nth_error (c_prods c') i = Some q -> one_chan W q (from i (log ++ received_now c))) /\
      (forall i, (length (c_prods c') <= i)%nat -> from i (log ++ received_now c) = [])).
    { intros -> ->. rewrite app_nil_r. auto. }
    assert (Wait : forall i r, c_chans c = i :: r -> ((c_mode c = CFirst) \/ exists o, c_mode c = CRep o) ->
      (forall i q, nth_error (c_prods c') i = Some q -> one_chan W q (from i (log ++ received_now c))) /\
      (forall i, (length (c_prods c') <= i)%nat -> from i (log ++ received_now c) = [])).
    { intros i r Ec Hm.
      assert (Er : received_now c = match nth_error (c_prods c) i with Some (PSend v _) => [(i, Some v)] | Some PClosed => [(i, None)] | _ => [] end).
      { unfold received_now. destruct Hm as [->|[o ->]]; rewrite Ec; reflexivity. }
      destruct (nth_error (c_prods c) i) as [q|] eqn:Ei.
      2:{ exfalso. unfold main_step in Hs. destruct Hm as [E|[o E]]; rewrite E, Ec, Ei in Hs; discriminate. }
      assert (Hlt : (i < length (c_prods c))%nat) by (apply nth_error_Some; congruence).
      assert (Ep : c_prods c' = match q with PSend v k => set_nth i (PRun k) (c_prods c) | _ => c_prods c end).
      { unfold main_step in Hs. destruct Hm as [E|[o E]]; rewrite E, Ec, Ei in Hs; destruct q; try discriminate; injection Hs as <-; try reflexivity.
        destruct (order_pc o); [|reflexivity]. cbn [c_m]. destruct (branch _ _ _); reflexivity. }
      rewrite Er. split.
      - intros j q0 Hj. destruct q as [k|v k|].
        + unfold main_step in Hs. destruct Hm as [E|[o E]]; rewrite E, Ec, Ei in Hs; discriminate.
        + rewrite from_app, Ep in *. rewrite nth_error_set_nth in Hj. unfold from at 2. cbn [filter fst map snd]. destruct (Nat.eqb_spec i j) as [<-|Hn].
          * rewrite Ei in Hj. injection Hj as <-. destruct (IH1 _ _ Ei) as (o & t' & vals & vs & n & Ho & Hq & He & Hk).
            destruct n as [|n]; [|discriminate (Hk (Nat.neq_succ_0 n))].
            exists o, t', vals, (vs ++ [v]), 0%nat. split; [exact Ho|]. split; [apply sends_value; exact Hq|].
            split; [|congruence]. rewrite He. cbn [repeat]. rewrite !app_nil_r, map_app. reflexivity.
          * cbn [map]. rewrite app_nil_r. auto.
        + rewrite from_app, Ep in *. unfold from at 2. cbn [filter fst map snd]. destruct (Nat.eqb_spec i j) as [<-|Hn].
          * rewrite Ei in Hj. injection Hj as <-. destruct (IH1 _ _ Ei) as (o & t' & vals & vs & n & Ho & Hq & He & Hk).
            exists o, t', vals, vs, (S n). split; [exact Ho|]. split; [exact Hq|]. split; [|reflexivity]. rewrite He, <- app_assoc. f_equal.
            cbn [map snd]. rewrite <- (repeat_cons n). reflexivity.
          * cbn [map]. rewrite app_nil_r. auto.
      - intros j Hj. rewrite Ep in Hj. assert (Hj' : (length (c_prods c) <= j)%nat) by (destruct q; [|rewrite length_set_nth in Hj|]; exact Hj).
        rewrite from_app, IH2 by exact Hj'. unfold from. destruct q; [reflexivity| |]; cbn [filter fst]; destruct (Nat.eqb_spec i j); try reflexivity; lia. }
    destruct (c_mode c) as [| |o|r] eqn:Em.
    + assert (Er : received_now c = []) by (unfold received_now; rewrite Em; reflexivity).
      destruct (main_prods _ _ _ _ _ Em Hs) as [Ep|(o & t' & vals & Ho & Ep)]; [auto|]. rewrite Er, app_nil_r, Ep. split.
      * intros i q Hi. destruct (Nat.lt_ge_cases i (length (c_prods c))) as [Hlt|Hge].
        -- rewrite nth_error_app1 in Hi by exact Hlt. auto.
        -- rewrite nth_error_app2 in Hi by exact Hge. destruct (i - length (c_prods c))%nat as [|d] eqn:Ed; [|destruct d; discriminate].
           injection Hi as <-. exists o, t', vals, [], 0%nat. split; [exact Ho|]. split; [constructor|]. split; [apply IH2; exact Hge|congruence].
      * intros i Hi. rewrite app_length in Hi. cbn [length] in Hi. apply IH2. lia.
    + destruct (c_chans c) as [|i r] eqn:Ec; [unfold main_step in Hs; rewrite Em, Ec in Hs; discriminate|]. eapply Wait; [reflexivity|auto].
    + destruct (c_chans c) as [|i r] eqn:Ec; [unfold main_step in Hs; rewrite Em, Ec in Hs; discriminate|]. eapply Wait; [reflexivity|eauto].
    + unfold main_step in Hs. rewrite Em in Hs. discriminate.
Qed.

Lemma observed_scheduled : forall W p root t c, scheduled W p root t c <-> exists log, observed W p root t c log.
Proof.
  intros W p root t c. split.
  - intro H. induction H as [|c c' H [log IH] Hs]; [exists []; constructor|]. destruct Hs as [c c' Hs|c i q q' Hi Hs].
    + eexists. eapply ObMain; eauto.
    + eexists. eapply ObProd; eauto.
  - intros [log H]. induction H as [|c log i q q' H IH Hi Hs|c log c' H IH Hs].
    + constructor.
    + eapply SdStep; [exact IH|]. eapply CProd; eauto.
    + eapply SdStep; [exact IH|]. apply CMain. exact Hs.
Qed.

(** ** Goroutines left over *)
Lemma sched_closed : forall TX s ss jp, accepted TX s ss jp -> fits jp -> forall W t root, orders_ok W ->
  forall c l, scheduled W (jp_prog jp) root t c -> c_mode c = CDone (OK l) -> forall i, (i < length (c_prods c))%nat -> ended c i.
Proof.
  intros TX s ss jp Ha Hf W t root HW c l Hc Em i Hi. destruct (at_scheduled _ _ _ _ _ HW Hc) as [n [[H1 H2 H3 H4] Hn]]. rewrite Em in Hn.
  destruct Hn as (m & Hn & Hs & _ & Hl). destruct Hs as [[Hpc Hr]|[Hpc [[Ho Hr]|(ord & Ho & Hr)]]]; try discriminate.
  2:{ destruct (exec _ _ _ _ _); [contradiction|discriminate|discriminate|discriminate]. }
  destruct (text_final TX s ss jp Ha Hf _ _ _ _ _ Hn Hpc) as (_ & Hv & _). rewrite Hv in Hl. cbn in Hl.
  destruct (nth_error (c_prods c) i) as [q|] eqn:Ei; [|apply nth_error_None in Ei; lia].
  destruct (H3 _ _ Ei) as [Hin| ->]; [|exact Ei]. destruct (c_chans c); [contradiction|discriminate].
Qed.

Lemma sched_one : forall TX s ss jp, accepted TX s ss jp -> fits jp -> forall W t root, orders_ok W ->
  forall c r, scheduled W (jp_prog jp) root t c -> c_mode c = CDone r -> forall i j, (i < length (c_prods c))%nat -> (j < length (c_prods c))%nat ->
  ~ ended c i -> ~ ended c j -> i = j.
Proof.
  intros TX s ss jp Ha Hf W t root HW c r Hc Em i j Hi Hj Hei Hej. destruct (at_scheduled _ _ _ _ _ HW Hc) as [n [[H1 H2 H3 H4] Hn]]. rewrite Em in Hn.
  destruct Hn as (m & Hn & Hs & _ & Hl).
  assert (Hle : (length (m_values m) <= 1)%nat).
  { destruct Hs as [[Hpc Hr]|[Hpc [[Ho Hr]|(ord & Ho & Hr)]]].
    - destruct (text_final TX s ss jp Ha Hf _ _ _ _ _ Hn Hpc) as (_ & Hv & _). rewrite Hv. cbn. lia.
    - exfalso. destruct (text_height TX s ss jp Ha Hf _ _ _ _ _ Hn) as (_ & k & Ek & _). unfold index_Z in Ho. destruct (Z.ltb_spec (m_pc m) 0); [lia|].
      apply nth_error_None in Ho. unfold prog_size in Hpc. lia.
    - destruct (text_no_underflow TX s ss jp Ha Hf _ _ _ _ _ _ Hn Ho) as (x & _ & _ & Hx & _). exact Hx. }
  assert (Hin : forall i, (i < length (c_prods c))%nat -> ~ ended c i -> In i (c_chans c)).
  { intros k Hk Hek. destruct (nth_error (c_prods c) k) as [q|] eqn:Eq; [|apply nth_error_None in Eq; lia]. destruct (H3 _ _ Eq) as [?| ->]; [assumption|contradiction]. }
  apply Hin in Hei; [|exact Hi]. apply Hin in Hej; [|exact Hj]. rewrite <- Hl in Hle. destruct (c_chans c) as [|a [|b r']]; cbn in *; [contradiction| |lia].
  destruct Hei as [<-|[]]. destruct Hej as [<-|[]]. reflexivity.
Qed.

Lemma done_leads : forall W p root c c' r, leads W p root c c' -> c_mode c = CDone r ->
  c_mode c' = CDone r /\ length (c_prods c') = length (c_prods c) /\ forall i, chan_left W c' i = chan_left W c i.
Proof.
  intros W p root c c' r H. induction H as [c|c c1 c2 Hs H IH]; intro Em; [auto|]. destruct Hs as [c c' Hs|c i q q' Hi Hs].
  - unfold main_step in Hs. rewrite Em in Hs. discriminate.
  - destruct (IH Em) as (I1 & I2 & I3). split; [exact I1|]. split; [rewrite I2; apply length_set_nth|]. intro j. rewrite I3.
    eapply chan_same; [exact Hi|reflexivity|]. eapply prod_step_left; eassumption.
Qed.

Lemma sends_leads : forall W p root q q2 i, sends W q [] q2 -> forall c, nth_error (c_prods c) i = Some q ->
  exists c', leads W p root c c' /\ nth_error (c_prods c') i = Some q2.
Proof.
  intros W p root q q2 i H. remember [] as l eqn:El. induction H as [q|q q1 l q2 Hs H IH|v k l q2 H IH]; intros c Hc; subst.
  - exists c. split; [constructor|exact Hc].
  - destruct (IH eq_refl (mkC (c_m c) (c_chans c) (c_mode c) (set_nth i q1 (c_prods c)))) as (c' & Hl & Hc').
    + cbn [c_prods]. rewrite nth_error_set_nth, Nat.eqb_refl, Hc. reflexivity.
    + exists c'. split; [|exact Hc']. econstructor; [|exact Hl]. eapply CProd; eauto.
  - discriminate.
Qed.

Lemma left_over_iff : forall W p root c r i, orders_ok W -> c_mode c = CDone r -> (i < length (c_prods c))%nat ->
  (left_over W p root c i <-> chan_left W c i <> []).
Proof.
  intros W p root c r i HW Em Hi. destruct (nth_error (c_prods c) i) as [q|] eqn:Eq; [|apply nth_error_None in Eq; lia].
  assert (El : chan_left W c i = left W q) by (unfold chan_left; rewrite Eq; reflexivity). split.
  - intros [_ H] E. destruct (sends_ends W q HW) as [l Hl]. pose proof (sends_left _ _ _ _ Hl) as E2. cbn [left] in E2. rewrite app_nil_r in E2.
    rewrite El in E. rewrite E in E2. subst l. destruct (sends_leads W p root _ _ i Hl c Eq) as (c' & Hc & He). apply (H c' Hc). exact He.
  - intro H. split; [exact Hi|]. intros c' Hc He. destruct (done_leads _ _ _ _ _ _ Hc Em) as (_ & _ & E). apply H. rewrite <- E. unfold chan_left. rewrite He. reflexivity.
Qed.

(** when a goroutine is left over *)
Lemma sched_left : forall W jp t root, orders_ok W -> forall c e, scheduled W (jp_prog jp) root t c -> c_mode c = CDone (Fail e) ->
  exists n m ord, steps W (jp_prog jp) root n (m_start t [root]) m /\ index_Z (p_orders (jp_prog jp)) (m_pc m) = Some ord /\
    exec W (jp_prog jp) root ord (set_pc m (m_pc m + 1)) = Fail e /\
    ((exists i, left_over W (jp_prog jp) root c i) <-> exists vs, In vs (m_values m) /\ vs <> []).
Proof.
  intros W jp t root HW c e Hc Em. destruct (at_scheduled _ _ _ _ _ HW Hc) as [n [[H1 H2 H3 H4] Hn]]. rewrite Em in Hn.
  destruct Hn as (m & Hn & Hs & [Hv|Hv] & Hl); [discriminate|]. destruct Hs as [[Hpc Hr]|[Hpc [[Ho Hr]|(ord & Ho & Hr)]]]; try discriminate.
  exists n, m, ord. split; [exact Hn|]. split; [exact Ho|]. split; [destruct (exec _ _ _ _ _); [contradiction|congruence|discriminate|discriminate]|].
  rewrite <- Hv. split.
  - intros [i [Hi Hlo]]. exists (chan_left W c i). assert (Hne : chan_left W c i <> []) by (eapply left_over_iff; eauto; split; eauto).
    split; [|exact Hne]. apply in_map. destruct (nth_error (c_prods c) i) as [q|] eqn:Eq; [|apply nth_error_None in Eq; lia].
    destruct (H3 _ _ Eq) as [?| ->]; [assumption|]. exfalso. apply Hne. unfold chan_left. rewrite Eq. reflexivity.
  - intros (vs & Hin & Hne). apply in_map_iff in Hin as (i & <- & Hi). exists i. eapply left_over_iff; eauto.
Qed.

(** ** A scheduler *)
Fixpoint first_step (W : world) (l : list producer) : option (list producer) :=
  match l with
  | [] => None
  | q :: r => match prod_step W q with Some q' => Some (q' :: r) | None => match first_step W r with Some r' => Some (q :: r') | None => None end end
  end.
Fixpoint schedule (fuel : nat) (W : world) (p : program) (root : val) (c : cstate) : cstate :=
  match fuel with
  | O => c
  | S n =>
    match main_step W p root c with
    | Some c' => schedule n W p root c'
    | None => match first_step W (c_prods c) with Some l => schedule n W p root (mkC (c_m c) (c_chans c) (c_mode c) l) | None => c end
    end
  end.

Lemma first_step_is : forall W l l', first_step W l = Some l' -> exists i q q', nth_error l i = Some q /\ prod_step W q = Some q' /\ l' = set_nth i q' l.
Proof.
  induction l as [|q l IH]; intros l' H; [discriminate|]. cbn [first_step] in H. destruct (prod_step W q) as [q'|] eqn:Eq.
  - injection H as <-. exists 0%nat, q, q'. repeat split; auto.
  - destruct (first_step W l) as [r'|]; [|discriminate]. injection H as <-. destruct (IH _ eq_refl) as (i & q1 & q2 & H1 & H2 & ->). exists (S i), q1, q2. repeat split; auto.
Qed.

Lemma schedule_is : forall n W p root t c, scheduled W p root t c -> scheduled W p root t (schedule n W p root c).
Proof.
  induction n as [|n IH]; intros W p root t c H; [exact H|]. cbn [schedule]. destruct (main_step W p root c) as [c'|] eqn:Em.
  - apply IH. eapply SdStep; [exact H|]. apply CMain. exact Em.
  - destruct (first_step W (c_prods c)) as [l|] eqn:Ef; [|exact H]. apply IH. destruct (first_step_is _ _ _ Ef) as (i & q & q' & Hi & Hs & ->).
    eapply SdStep; [exact H|]. eapply CProd; eauto.
Qed.

Lemma leak : exists s root e, doc root /\ forall TX, exists jp, JP_Compile TX s = OK jp /\ forall W t, orders_ok W ->
  exists c, scheduled W (jp_prog jp) root t c /\ c_mode c = CDone (Fail e) /\ left_over W (jp_prog jp) root c 0.
Proof.
  exists (b_of "$[?(foo(1))]"), (VArr [VInt64 1; VInt64 2]). eexists. split; [apply docb_doc; reflexivity|]. intro TX. eexists. split; [vm_compute; reflexivity|].
  intros W t HW. set (p := jp_prog _). exists (schedule 40 W p (VArr [VInt64 1; VInt64 2]) (c_init t (VArr [VInt64 1; VInt64 2]))).
  split; [apply schedule_is; constructor|].
  assert (E : c_mode (schedule 40 W p (VArr [VInt64 1; VInt64 2]) (c_init t (VArr [VInt64 1; VInt64 2]))) = CDone (Fail _)) by (vm_compute; reflexivity).
  split; [exact E|]. eapply left_over_iff; [exact HW|exact E|vm_compute; lia|]. vm_compute. discriminate.
Qed.
