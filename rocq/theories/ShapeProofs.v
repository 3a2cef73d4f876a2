(** Paths without expressions select by shape alone. *)
From Coq Require Import Permutation.
From Verif Require Import Syntax Machine SpecSyntax Eval SpecDoc SpecRun SpecText DocProofs Api TextProofs SpecShape.
Local Open Scope Z_scope.

Section shape.
Variable W : world.
Variable R : val -> val -> Prop.
Notation sh := (shape R).
Notation shs := (Forall2 sh).
Definition shg (g g' : gslice) : Prop := shs (g_list g) (g_list g').
Definition shm (a b : bytes * val) : Prop := fst a = fst b /\ sh (snd a) (snd b).

Inductive both {A B} (P : A -> B -> Prop) : M A -> M B -> Prop :=
| BoOK : forall a b, P a b -> both P (OK a) (OK b)
| BoPanics : both P Panics Panics
| BoFuel : both P OutOfFuel OutOfFuel.

Lemma both_bind : forall A B C D (P : A -> B -> Prop) (Q : C -> D -> Prop) m m' k k',
  both P m m' -> (forall a b, P a b -> both Q (k a) (k' b)) -> both Q (obind m k) (obind m' k').
Proof. intros A B C D P Q m m' k k' H Hk. destruct H; cbn [obind]; [auto|constructor..]. Qed.

Definition sht (x y : gslice * nat) : Prop := shg (fst x) (fst y) /\ snd x = snd y.
Definition shl (x y : list val * nat) : Prop := shs (fst x) (fst y) /\ snd x = snd y.

Lemma F2_len : forall A B (P : A -> B -> Prop) l l', Forall2 P l l' -> length l = length l'.
Proof. intros A B P l l' H. induction H; simpl; congruence. Qed.
Lemma F2_app : forall A B (P : A -> B -> Prop) a a' b b', Forall2 P a a' -> Forall2 P b b' -> Forall2 P (a ++ b) (a' ++ b').
Proof. intros. apply Forall2_app; assumption. Qed.
Lemma F2_nth : forall A B (P : A -> B -> Prop) l l', Forall2 P l l' -> forall i,
  match nth_error l i, nth_error l' i with Some a, Some b => P a b | None, None => True | _, _ => False end.
Proof. intros A B P l l' H. induction H; intros [|i]; simpl; auto. apply IHForall2. Qed.
Lemma F2_reorder : forall A B (P : A -> B -> Prop) l l' p, Forall2 P l l' -> Forall2 P (reorder p l) (reorder p l').
Proof.
  intros A B P l l' p H. unfold reorder. induction p as [|i p IH]; simpl; [constructor|]. apply F2_app; [|exact IH].
  pose proof (F2_nth _ _ _ _ _ H i) as N. destruct (nth_error l i), (nth_error l' i); try contradiction; auto.
Qed.
Lemma F2_concat : forall A B (P : A -> B -> Prop) l l', Forall2 (Forall2 P) l l' -> Forall2 P (concat l) (concat l').
Proof. intros A B P l l' H. induction H; simpl; [constructor|]. apply F2_app; auto. Qed.
Lemma snd_sh : forall m m', Forall2 shm m m' -> shs (map snd m) (map snd m').
Proof. intros m m' H. induction H as [|x y m m' [_ H] F IH]; simpl; constructor; auto. Qed.

Lemma append_sh : forall g g' v v', shg g g' -> sh v v' -> shg (g_append g v) (g_append g' v').
Proof. intros g g' v v' Hg Hv. unfold shg, g_append. cbn [g_list]. apply F2_app; auto. Qed.
Lemma appends_sh : forall l l', shs l l' -> forall g g', shg g g' -> shg (g_appends g l) (g_appends g' l').
Proof. intros l l' H. induction H; intros g g' Hg; simpl; auto. apply IHForall2. apply append_sh; auto. Qed.
Lemma lookup_sh : forall k m m', Forall2 shm m m' ->
  match lookup k m, lookup k m' with Some a, Some b => sh a b | None, None => True | _, _ => False end.
Proof.
  intros k m m' H. induction H as [|[k1 x] [k2 y] m m' [E H] F IH]; simpl; [exact I|]. cbn [fst snd] in *. subst k2.
  destruct (beqb k k1); auto.
Qed.
Lemma index_sh : forall l l' i, shs l l' ->
  match index_Z l i, index_Z l' i with Some a, Some b => sh a b | None, None => True | _, _ => False end.
Proof. intros l l' i H. unfold index_Z. destruct (i <? 0); [exact I|]. apply F2_nth. exact H. Qed.
Lemma sh_structure : forall v v', sh v v' -> IsStructure v = IsStructure v'.
Proof. intros v v' [? ? A B _|? ? _|? ? _]; [rewrite A, B|..]; reflexivity. Qed.
(** the values of @ *)
Definition dots (v v' : val) : Prop := sh v v' \/ IsStructure v = false /\ IsStructure v' = false.
Lemma dots_flat : forall v v', dots v v' -> (IsStructure v = false /\ IsStructure v' = false) \/
  (exists l l', v = VArr l /\ v' = VArr l' /\ shs l l') \/ (exists m m', v = VObj m /\ v' = VObj m' /\ Forall2 shm m m').
Proof. intros v v' [[? ? A B _|l l' Hl|m m' Hm]|[A B]]; eauto 8. Qed.

Lemma slice_loop_sh : forall n up l l' i e st g g', shs l l' -> shg g g' -> both shg (slice_loop n up l i e st g) (slice_loop n up l' i e st g').
Proof.
  induction n as [|n IH]; intros up l l' i e st g g' Hl Hg; cbn [slice_loop]; destruct (if up then i <? e else i >? e); try (constructor; exact Hg).
  pose proof (index_sh l l' i Hl) as N. destruct (index_Z l i), (index_Z l' i); try contradiction; [|constructor].
  apply IH; [exact Hl|]. apply append_sh; auto.
Qed.

Lemma byKey_sh : forall g g' v v' k n, shg g g' -> dots v v' -> both shg (valsByKey W g v k n) (valsByKey W g' v' k n).
Proof.
  intros g g' v v' k n Hg Hv.
  destruct (dots_flat v v' Hv) as [[A B]|[(l & l' & -> & -> & Hl)|(m & m' & -> & -> & Hm)]].
  - destruct k, v; try discriminate A; destruct v'; try discriminate B; cbn [valsByKey]; constructor; try exact Hg; constructor.
  - assert (Hlen := F2_len _ _ _ _ _ Hl).
    assert (K : forall k, (forall s, k <> VSlice s) -> both shg (valsByKey W g (VArr l) k n) (valsByKey W g' (VArr l') k n)).
    { intros k0 Hk. assert (V : forall l g, valsByKey W g (VArr l) k0 n = if isInt k0 then
        OK (match valByKey W (VArr l) k0 n with Some v => g_append g v | None => g end) else OK g).
      { intros. destruct k0; try reflexivity. destruct (Hk s eq_refl). }
      rewrite !V. destruct (isInt k0); [|constructor; exact Hg]. constructor. cbn [valByKey]. cbv zeta. rewrite <- Hlen.
      match goal with |- context [if ?c then index_Z l ?i else None] => destruct c; [pose proof (index_sh l l' i Hl) as N;
        destruct (index_Z l i), (index_Z l' i)|] end; try contradiction; auto using append_sh. }
    destruct k; try (apply K; intros; discriminate). cbn [valsByKey]. rewrite <- Hlen.
    destruct (sliceEval s (Z.of_nat (length l))) as [[st e] d].
    destruct (d >? 0); [apply slice_loop_sh; auto|]. destruct (d <? 0); [apply slice_loop_sh; auto|constructor; exact Hg].
  - assert (L : forall k, both shg (OK (match lookup k m with Some v => g_append g v | None => g end))
                               (OK (match lookup k m' with Some v => g_append g' v | None => g' end))).
    { intro k0. constructor. pose proof (lookup_sh k0 m m' Hm) as N. destruct (lookup k0 m), (lookup k0 m'); try contradiction; auto using append_sh. }
    destruct k; cbn [valsByKey valByKey]; try apply L. constructor. constructor.
Qed.

Lemma wild_sh : forall t g g' v v', shg g g' -> dots v v' -> sht (valsWild W t g v) (valsWild W t g' v').
Proof.
  intros t g g' v v' Hg Hv. destruct (dots_flat v v' Hv) as [[A B]|[(l & l' & -> & -> & Hl)|(m & m' & -> & -> & Hm)]].
  - destruct v; try discriminate A; destruct v'; try discriminate B; cbn [valsWild]; split; auto.
  - split; [apply appends_sh; auto|reflexivity].
  - split; [|reflexivity]. cbn [valsWild fst]. rewrite (F2_len _ _ _ _ _ Hm). apply appends_sh; [|exact Hg]. apply snd_sh. apply F2_reorder. exact Hm.
Qed.
Lemma union_sh : forall sels g g' v v', shg g g' -> dots v v' -> both shg (unionVals W g v sels) (unionVals W g' v' sels).
Proof.
  induction sels as [|s r IH]; intros g g' v v' Hg Hv; cbn [unionVals]; [constructor; exact Hg|].
  eapply both_bind; [|intros a b H; apply IH; eauto]. destruct (isNothing s); [constructor; exact Hg|apply byKey_sh; auto].
Qed.
Lemma apply_sh : forall f, (forall t v v' g g', shg g g' -> sh v v' -> both sht (f t v g) (f t v' g')) -> forall g g' t, shg g g' ->
  both sht (applySelection t g f) (applySelection t g' f).
Proof.
  intros f Hf g g' t Hg. unfold applySelection. red in Hg.
  assert (G : forall l l', shs l l' -> forall t a a', shg a a' -> both sht (applySelection_loop f t l a) (applySelection_loop f t l' a')).
  { intros l l' H. induction H as [|v v' l l' Hv Hl IH]; intros t0 a a' Ha; cbn [applySelection_loop]; [constructor; split; auto|].
    eapply both_bind; [apply Hf; eauto|]. intros [b t1] [b' t1'] [H1 H2]. cbn [fst snd] in *. subst t1'. apply IH. exact H1. }
  apply G; [exact Hg|constructor].
Qed.

Lemma walkdown_sh : forall v v', sh v v' -> IsStructure v = true -> forall t, shl (walkdown W t v) (walkdown W t v').
Proof.
  intro v. induction v as [| | | | | | |l IH|m IH| | | | ] using val_tree_ind; intros v' Hv S t; try discriminate S.
  - inversion Hv as [? ? A _ _|? l' Hl|]; subst; [discriminate A|]. cbn [walkdown].
    match goal with |- shl (let (_, _) := ?F t l in _) _ =>
      assert (G : forall l l', shs l l' -> Forall (fun v => forall v', sh v v' -> IsStructure v = true -> forall t, shl (walkdown W t v) (walkdown W t v')) l ->
        forall t, Forall2 shs (fst (F t l)) (fst (F t l')) /\ snd (F t l) = snd (F t l')) end.
    { clear. intros l l' H. induction H as [|x y l l' Hx Hl IH]; intros HI t; [split; [constructor|reflexivity]|].
      inversion HI as [|? ? H1 H2]; subst. rewrite <- (sh_structure x y Hx). destruct (IsStructure x) eqn:E.
      - destruct (H1 y Hx ltac:(auto) t) as [X Y]. destruct (walkdown W t x) as [s t1], (walkdown W t y) as [s' t1']. cbn [fst snd] in X, Y. subst t1'.
        destruct (IH H2 t1) as [X' Y']. match goal with |- context [let (_, _) := ?q in _] => destruct q end.
        match goal with |- context [let (_, _) := ?q in _] => destruct q end. cbn [fst snd] in *. split; auto.
      - destruct (IH H2 t) as [X' Y']. match goal with |- context [let (_, _) := ?q in _] => destruct q end.
        match goal with |- context [let (_, _) := ?q in _] => destruct q end. cbn [fst snd] in *. split; [constructor; [constructor|exact X']|exact Y']. }
    destruct (G l l' Hl IH t) as [X Y]. match goal with |- context [let (_, _) := ?q in _] => destruct q end.
    match goal with |- context [let (_, _) := ?q in _] => destruct q end. cbn [fst snd] in X, Y. subst. split; [|reflexivity].
    cbn [fst]. constructor; [exact Hv|]. apply F2_concat. exact X.
  - inversion Hv as [? ? A _ _| |? m' Hm]; subst; [discriminate A|]. cbn [walkdown].
    match goal with |- shl (let (_, _) := ?F (Datatypes.S t) m in _) _ =>
      assert (G : forall m m', Forall2 shm m m' -> Forall (fun kv => forall v', sh (snd kv) v' -> IsStructure (snd kv) = true -> forall t, shl (walkdown W t (snd kv)) (walkdown W t v')) m ->
        forall t, Forall2 shs (fst (F t m)) (fst (F t m')) /\ snd (F t m) = snd (F t m')) end.
    { clear. intros m m' H. induction H as [|[k x] [k' y] m m' [_ Hx] Hl IH]; intros HI t; [split; [constructor|reflexivity]|].
      cbn [snd] in Hx. inversion HI as [|? ? H1 H2]; subst. cbn [snd] in H1. rewrite <- (sh_structure x y Hx). destruct (IsStructure x) eqn:E.
      - destruct (H1 y Hx ltac:(auto) t) as [X Y]. destruct (walkdown W t x) as [s t1], (walkdown W t y) as [s' t1']. cbn [fst snd] in X, Y. subst t1'.
        destruct (IH H2 t1) as [X' Y']. match goal with |- context [let (_, _) := ?q in _] => destruct q end.
        match goal with |- context [let (_, _) := ?q in _] => destruct q end. cbn [fst snd] in *. split; auto.
      - destruct (IH H2 t) as [X' Y']. match goal with |- context [let (_, _) := ?q in _] => destruct q end.
        match goal with |- context [let (_, _) := ?q in _] => destruct q end. cbn [fst snd] in *. split; [constructor; [constructor|exact X']|exact Y']. }
    destruct (G m m' Hm IH (Datatypes.S t)) as [X Y]. match goal with |- context [let (_, _) := ?q in _] => destruct q end.
    match goal with |- context [let (_, _) := ?q in _] => destruct q end. cbn [fst snd] in X, Y. subst. split; [|reflexivity].
    cbn [fst]. rewrite (F2_len _ _ _ _ _ Hm). constructor; [exact Hv|]. apply F2_concat. apply F2_reorder. exact X.
Qed.
Lemma walker_sh : forall l l', shs l l' -> forall t, shl (walker W t l) (walker W t l').
Proof.
  intros l l' H. induction H as [|x y l l' Hx Hl IH]; intro t; cbn [walker]; [split; [constructor|reflexivity]|].
  rewrite <- (sh_structure x y Hx). destruct (IsStructure x) eqn:E; [|apply IH].
  destruct (walkdown_sh x y Hx E t) as [X Y]. destruct (walkdown W t x) as [s t1], (walkdown W t y) as [s' t1']. cbn [fst snd] in X, Y. subst t1'.
  destruct (IH t1) as [X' Y']. destruct (walker W t1 l), (walker W t1 l'). cbn [fst snd] in *. split; [apply F2_app; auto|exact Y'].
Qed.

Lemma args_sh : forall root root' d d' t l, Forall plain_arg l -> ev_args W root d t l = ev_args W root' d' t l /\
  exists vs, ev_args W root d t l = OK (vs, t).
Proof.
  intros root root' d d' t l H. induction H as [|a l Ha Hl [E (vs & IH)]]; cbn [ev_args]; [split; eauto|].
  rewrite IH in E. destruct a; cbn [ev_arg obind]; try destruct Ha; rewrite <- ?E, ?IH; cbn [obind]; split; eauto.
Qed.
Variables root root' : val.
Lemma body_sh : forall s d d' g g' t, wf_step s -> Forall plain_arg (st_args s) -> dots d d' -> shg g g' ->
  both sht (ev_body W root s d g t) (ev_body W root' s d' g' t).
Proof.
  intros s d d' g g' t Hw Ha Hd Hg. unfold ev_body. destruct (args_sh root root' d d' t _ Ha) as [E (vs & E1)]. rewrite <- E, E1. cbn [obind].
  assert (S1 : forall sel n, both shg (select1 W sel n g d) (select1 W sel n g' d')).
  { intros. unfold select1. destruct (isNothing sel); [constructor; exact Hg|apply byKey_sh; auto]. }
  assert (S2 : forall sel n, both sht (let! o := select1 W sel n g d in OK (o, t)) (let! o := select1 W sel n g' d' in OK (o, t))).
  { intros. eapply both_bind; [apply S1|]. intros a b H. constructor. split; auto. }
  assert (S3 : forall sels, both sht (let! o := unionVals W g d sels in OK (o, t)) (let! o := unionVals W g' d' sels in OK (o, t))).
  { intros. eapply both_bind; [apply union_sh; auto|]. intros a b H. constructor. split; auto. }
  pose proof (wild_sh t g g' d d' Hg Hd) as S4.
  destruct Hw; cbn [st_op st_args] in *; try (destruct vs as [|v0 [|v1 vs]]; try constructor; auto; fail); try apply S3;
    try (apply Forall_inv in Ha; destruct Ha; fail).
Qed.
Lemma loop_sh : forall s ds ds', wf_step s -> Forall plain_arg (st_args s) -> Forall2 dots ds ds' -> forall g g' t, shg g g' ->
  both sht (ev_loop W root s ds g t) (ev_loop W root' s ds' g' t).
Proof.
  intros s ds ds' Hw Ha H. induction H as [|d d' ds ds' Hd Hds IH]; intros g g' t Hg; cbn [ev_loop]; [constructor; split; auto|].
  eapply both_bind; [apply body_sh; auto|]. intros [b t1] [b' t1'] [H1 H2]. cbn [fst snd] in *. subst t1'. apply IH. exact H1.
Qed.
Lemma shs_dots : forall l l', shs l l' -> Forall2 dots l l'.
Proof. intros l l' H. induction H; constructor; auto. left. assumption. Qed.
Lemma loop_step_sh : forall f s g g' t, wf_step s -> Forall plain_arg (st_args s) ->
  (forall l l', shs l l' -> forall t, shl (f t l) (f t l')) -> shg g g' -> both sht (ev_loop_step W root f s g t) (ev_loop_step W root' f s g' t).
Proof.
  intros f s g g' t Hw Ha Hf Hg. unfold ev_loop_step. pose proof Hg as Hl. red in Hl. destruct Hl as [|x y l l' Hx Hl]; [constructor; split; auto|].
  destruct (Hf (x :: l) (y :: l') (Forall2_cons _ _ Hx Hl) t) as [X Y].
  destruct (f t (x :: l)) as [a t1], (f t (y :: l')) as [a' t1']. cbn [fst snd] in X, Y. subst t1'.
  apply loop_sh; auto; [|constructor]. destruct X as [|u v a a' Hu Ha']; cbn [loop_dots].
  - constructor; [right; split; reflexivity|constructor].
  - apply shs_dots. constructor; auto.
Qed.
Lemma step_sh : forall s g g' t, wf_step s -> Forall plain_arg (st_args s) -> shg g g' -> both sht (ev_step W root s g t) (ev_step W root' s g' t).
Proof.
  intros s g g' t Hw Ha Hg. pose proof (fun f H => loop_step_sh f s g g' t Hw Ha H Hg) as L.
  destruct (args_sh root root' VNil VNil t _ Ha) as [E (vs & E1)].
  assert (D : forall v v', sh v v' -> dots v v') by (intros; left; assumption).
  assert (S2 : forall sel n, both sht (applySelection t g (fun t v acc => let! g := valsByKey W acc v sel n in OK (g, t)))
                                      (applySelection t g' (fun t v acc => let! g := valsByKey W acc v sel n in OK (g, t)))).
  { intros. apply apply_sh; auto. intros. eapply both_bind; [apply byKey_sh; auto|]. intros a b H'. constructor. split; auto. }
  destruct Hw; unfold ev_step; cbn [st_op st_args] in *; try (apply Forall_inv in Ha; destruct Ha; fail); try (apply L; apply walker_sh);
    rewrite <- E, E1; cbn [obind].
  - destruct vs; [|constructor]. apply apply_sh; auto. intros. constructor. apply wild_sh; auto.
  - destruct vs as [|v0 [|v1 vs]]; try constructor. destruct (isNothing v0); [constructor; split; [constructor|reflexivity]|apply S2].
  - destruct vs as [|v0 [|v1 vs]]; try constructor. destruct (isNothing v0); [constructor; split; [constructor|reflexivity]|apply S2].
  - apply apply_sh; auto. intros. eapply both_bind; [apply union_sh; auto|]. intros a b H'. constructor. split; auto.
Qed.
Lemma path_sh : forall ss, wf_path ss -> plain ss -> forall g g' t, shg g g' -> both sht (ev_path W root ss g t) (ev_path W root' ss g' t).
Proof.
  intros ss Hw. induction Hw as [|s ss Hs Hw IH]; intros Hp g g' t Hg; cbn [ev_path]; [constructor; split; auto|].
  inversion Hp as [|? ? P1 P2]; subst. eapply both_bind; [apply step_sh; auto|].
  intros [b t1] [b' t1'] [H1 H2]. cbn [fst snd] in *. subst t1'. apply IH; auto.
Qed.
Lemma run_sh : forall ss t, wf_path ss -> plain ss -> sh root root' -> both shs (ev_run W root t ss) (ev_run W root' t ss).
Proof.
  intros ss t Hw Hp H. unfold ev_run. eapply both_bind; [apply path_sh; auto; constructor; [exact H|constructor]|].
  intros [g t1] [g' t2] [H1 _]. constructor. exact H1.
Qed.
End shape.

Lemma eval_shape : forall TX s ss jp W t R root root' r, accepted TX s ss jp -> fits jp -> plain ss -> orders_ok W ->
  doc root -> doc root' -> shape R root root' -> JP_Eval W t jp root r ->
  exists r', JP_Eval W t jp root' r' /\ shape_outcome R r r'.
Proof.
  intros TX s ss jp W t R root root' r Ha Hf Hp HW Hr Hr' Hs H. pose proof (proj1 H) as Hfuel.
  apply (text_eval TX s ss jp Ha Hf W t root r HW Hr) in H. exists (ev_run W root' t ss). split.
  - apply (text_eval TX s ss jp Ha Hf W t root' _ HW Hr'). reflexivity.
  - rewrite H in Hfuel |- *. destruct (run_sh W R root root' ss t (text_wf TX s ss jp Ha) Hp Hs).
    + constructor. assumption.
    + constructor.
    + congruence.
Qed.

Lemma scalars_shape : forall f v, (forall v, IsStructure v = false -> IsStructure (f v) = false) -> shape (fun v v' => v' = f v) v (scalars f v).
Proof.
  intros f v Hf. induction v as [| | | | | | |l IH|m IH| | | | ] using val_tree_ind; try (constructor; [reflexivity|apply Hf; reflexivity|reflexivity]).
  - cbn [scalars]. apply ShArr. induction IH; constructor; auto.
  - cbn [scalars]. apply ShObj. induction IH; constructor; auto.
Qed.
Lemma shape_scalars : forall f v v', shape (fun v v' => v' = f v) v v' -> v' = scalars f v.
Proof.
  intros f v. induction v as [| | | | | | |l IH|m IH| | | | ] using val_tree_ind; intros v' H;
    try (inversion H; subst; reflexivity).
  - inversion H as [? ? A _ _|? l' Hl|]; subst; [discriminate A|]. cbn [scalars]. f_equal. clear H.
    induction Hl as [|x y l l' Hx Hl IHl]; [reflexivity|]. inversion IH; subst. cbn [map]. f_equal; auto.
  - inversion H as [? ? A _ _| |? m' Hm]; subst; [discriminate A|]. cbn [scalars]. f_equal. clear H.
    induction Hm as [|[k x] [k' y] m m' [E Hx] Hm IHm]; [reflexivity|]. inversion IH; subst. cbn [map fst snd] in *. subst k'. f_equal; auto.
    f_equal. auto.
Qed.
Lemma eval_scalars : forall TX s ss jp W t f root l, accepted TX s ss jp -> fits jp -> plain ss -> orders_ok W ->
  (forall v, IsStructure v = false -> IsStructure (f v) = false) -> doc root -> doc (scalars f root) ->
  JP_Eval W t jp root (OK l) -> JP_Eval W t jp (scalars f root) (OK (map (scalars f) l)).
Proof.
  intros TX s ss jp W t f root l Ha Hf Hp HW Hs Hr Hr' H.
  destruct (eval_shape TX s ss jp W t _ root (scalars f root) _ Ha Hf Hp HW Hr Hr' (scalars_shape f root Hs) H) as (r' & H' & O).
  inversion O as [? l' F|]; subst. replace (map (scalars f) l) with l'; [exact H'|].
  clear - F. induction F as [|x y l l' Hx F IH]; [reflexivity|]. cbn [map]. f_equal; [apply shape_scalars; exact Hx|exact IH].
Qed.
