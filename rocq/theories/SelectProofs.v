(** The selectors of the machine select what the specification says. *)
From Coq Require Import Permutation DecimalString DecimalPos.
From Verif Require Import SpecSyntax Machine Coder Eval SpecDoc DocProofs SpecSelect SliceProofs
  SpecRun RunProofs CoderProofs.
Local Open Scope Z_scope.

(** ** Decimal forms *)
Lemma uint_bytes_string : forall u, uint_bytes u = b_of (NilEmpty.string_of_uint u).
Proof.
  induction u; auto; unfold b_of in *; cbn; rewrite IHu; reflexivity.
Qed.

Lemma sprint_int_decimal : forall z, sprint_int z = decimal z.
Proof.
  intro z. unfold sprint_int, decimal. destruct z as [|p|p].
  - reflexivity.
  - cbn [Z.ltb Z.compare Z.to_N N.to_uint Z.to_int NilZero.string_of_int].
    rewrite uint_bytes_string. unfold NilZero.string_of_uint.
    destruct (Pos.to_uint p) eqn:E; try reflexivity.
    exfalso. revert E. apply DecimalPos.Unsigned.to_uint_nonnil.
  - cbn [Z.ltb Z.compare Z.opp Z.to_N N.to_uint Z.to_int NilZero.string_of_int].
    rewrite uint_bytes_string. unfold NilZero.string_of_uint.
    destruct (Pos.to_uint p) eqn:E; try reflexivity.
    exfalso. revert E. apply DecimalPos.Unsigned.to_uint_nonnil.
Qed.

(** ** Member lookup *)
Lemma beqb_eq : forall a b, beqb a b = true <-> a = b.
Proof.
  induction a as [|x a IH]; destruct b as [|y b]; simpl; split; intro H; try discriminate; auto.
  - apply andb_true_iff in H as [H1 H2]. apply Z.eqb_eq in H1. apply IH in H2. congruence.
  - injection H as -> ->. rewrite Z.eqb_refl. apply IH. reflexivity.
Qed.

Lemma lookup_some : forall A k (m : list (bytes * A)) v, lookup k m = Some v -> In (k, v) m.
Proof.
  induction m as [|[k' v'] m IH]; simpl; intros v H; [discriminate|].
  destruct (beqb k k') eqn:E; [|right; auto].
  apply beqb_eq in E. left. congruence.
Qed.

Lemma lookup_none : forall A k (m : list (bytes * A)), lookup k m = None <-> ~ In k (map fst m).
Proof.
  induction m as [|[k' v'] m IH]; simpl; [tauto|].
  destruct (beqb k k') eqn:E.
  - apply beqb_eq in E. split; [discriminate|]. intro H. exfalso. apply H. auto.
  - assert (k' <> k) by (intro; subst; assert (beqb k k = true) by (apply beqb_eq; auto); congruence).
    rewrite IH. tauto.
Qed.

Lemma in_lookup : forall A k (m : list (bytes * A)) v, NoDup (map fst m) ->
  In (k, v) m -> lookup k m = Some v.
Proof.
  induction m as [|[k' v'] m IH]; simpl; intros v Hnd H; [contradiction|].
  inversion Hnd; subst. destruct H as [H|H].
  - injection H as -> ->. assert (beqb k k = true) as -> by (apply beqb_eq; auto). reflexivity.
  - destruct (beqb k k') eqn:E; [|auto].
    apply beqb_eq in E. subst. exfalso. apply H2. apply in_map_iff. exists (k', v). auto.
Qed.

Lemma picks_name_fun : forall k v l l', json_node v -> picks_name k v l -> picks_name k v l' -> l = l'.
Proof.
  intros k v l l' Hj H H'. destruct H; inversion H'; subst; auto; try discriminate.
  - destruct Hj as [Hnd _]. apply in_lookup in H; auto. apply in_lookup in H1; auto. congruence.
  - exfalso. apply H1. apply in_map_iff. exists (k, x). auto.
  - exfalso. apply H. apply in_map_iff. exists (k, x). auto.
Qed.

Lemma picks_fun : forall s v l l', json_node v -> picks s v l -> picks s v l' -> l = l'.
Proof.
  intros s v l l' Hj H H'. destruct H; inversion H'; subst; auto; try discriminate.
  - eapply picks_name_fun; eauto.
  - destruct H0 as [H0 E0]. destruct H6 as [H6 E6].
    assert (i = i0) by lia. subst. congruence.
  - destruct H0 as [H0 E0]. exfalso.
    assert (Z.to_nat i < length l)%nat by (apply nth_error_Some; congruence). intuition lia.
  - exfalso. destruct H5 as [H5 E5].
    assert (Z.to_nat i < length l)%nat by (apply nth_error_Some; congruence). intuition lia.
  - eapply picks_name_fun; eauto.
  - assert (ps = ps0) by (eapply positions_fun; eauto). subst. eapply elems_fun; eauto.
Qed.

(** ** One application *)

(** the selector a value of the machine acts as; [neg]: negative indices count from the
    end.  Anything but an integer or a slice is a member name. *)
Inductive key_is (W : world) : bool -> val -> sel -> Prop :=
| KKey : forall neg v, isInt v = false -> isSlice v = false -> key_is W neg v (SName (mapKey W v))
| KInt : forall neg n, min_int64 <= n -> key_is W neg (VInt64 n) (SIndex neg n)
| KIntg : forall neg n, min_int64 <= n -> key_is W neg (VInt n) (SIndex neg n)
| KSlice : forall neg sl a b c, slice_ints sl = (a, b, c) -> in_oint64 a -> in_oint64 b ->
    in_oint64 c -> key_is W neg (VSlice sl) (SSlice a b c).

Lemma name_keys : forall W acc m key neg k, json_node (VObj m) -> mapKey W key = k ->
  isSlice key = false ->
  exists xs, valsByKey W acc (VObj m) key neg =
    OK (match xs with [] => acc | x :: _ => g_append acc x end) /\
    picks_name k (VObj m) xs /\ (length xs <= 1)%nat.
Proof.
  intros W acc m key neg k Hj Hk Hs.
  assert (E : valsByKey W acc (VObj m) key neg =
    OK (match lookup k m with Some v => g_append acc v | None => acc end)).
  { unfold valsByKey. rewrite <- Hk. destruct key; try discriminate Hs; reflexivity. }
  rewrite E. destruct (lookup k m) as [v|] eqn:El.
  - exists [v]. split; [reflexivity|]. split; [|auto]. constructor. apply lookup_some; auto.
  - exists []. split; [reflexivity|]. split; [|auto]. constructor. apply lookup_none; auto.
Qed.

Lemma index_keys : forall W acc l key neg n, Z.of_nat (length l) <= max_int64 -> min_int64 <= n ->
  isInt key = true -> cvi W key = n ->
  exists xs, valsByKey W acc (VArr l) key neg =
    OK (match xs with [] => acc | x :: _ => g_append acc x end) /\
    picks (SIndex neg n) (VArr l) xs /\ (length xs <= 1)%nat.
Proof.
  intros W acc l key neg n Hl Hn Hi Hc.
  assert (E : valsByKey W acc (VArr l) key neg =
    OK (match valByKey W (VArr l) key neg with Some v => g_append acc v | None => acc end)).
  { unfold valsByKey. destruct key; try discriminate Hi; reflexivity. }
  rewrite E. unfold valByKey. rewrite Hc.
  set (i := if neg && (n <? 0) then wrap64 (n + Z.of_nat (length l)) else n).
  assert (Hi' : i = n /\ (neg = false \/ 0 <= n) \/
                (neg = true /\ n < 0 /\ i = n + Z.of_nat (length l))).
  { unfold i. destruct neg; simpl; auto. destruct (Z.ltb_spec n 0); auto.
    right. split; auto. split; auto. apply wrap64_id.
    unfold in_int64, min_int64, max_int64 in *. lia. }
  destruct ((0 <=? i) && (i <? Z.of_nat (length l))) eqn:Er.
  - apply andb_true_iff in Er as [E1 E2]. apply Z.leb_le in E1. apply Z.ltb_lt in E2.
    destruct (elem_ex l i) as [x Hx]; [lia|]. pose proof Hx as Hx'. apply index_elem in Hx'.
    rewrite Hx'. exists [x]. split; [reflexivity|]. split; [|auto].
    apply PkElem with (i := i); [|exact Hx]. destruct Hi' as [[-> _]|Hi']; auto.
  - exists []. split; [reflexivity|]. split; [|auto]. constructor.
    apply andb_false_iff in Er. rewrite Z.leb_gt, Z.ltb_ge in Er.
    destruct Hi' as [[Hi1 Hi2]|(-> & Hi1 & Hi2)]; [destruct Hi2; [subst neg|]|];
      destruct Er; try lia; try (left; lia); try (right; split; [lia|discriminate]);
      right; split; try lia.
Qed.

(** a machine's accumulator and what has been selected *)
Lemma apply_key : forall W acc v key neg s, json_node v -> key_is W neg key s ->
  ~ discards (s, v) ->
  (exists g xs, valsByKey W acc v key neg = OK g /\ g_list g = g_list acc ++ xs /\
     (acc <> None -> g <> None) /\ picks s v xs /\ ~ app_overflows (s, v)) \/
  (valsByKey W acc v key neg = Panics /\ app_overflows (s, v)).
Proof.
  intros W acc v key neg s Hj Hk Hd.
  assert (Hone : forall xs, valsByKey W acc v key neg =
      OK (match xs with [] => acc | x :: _ => g_append acc x end) -> (length xs <= 1)%nat ->
      picks s v xs -> ~ app_overflows (s, v) ->
      exists g xs, valsByKey W acc v key neg = OK g /\ g_list g = g_list acc ++ xs /\
        (acc <> None -> g <> None) /\ picks s v xs /\ ~ app_overflows (s, v)).
  { intros xs E Hl Hp Ho. exists (match xs with [] => acc | x :: _ => g_append acc x end), xs.
    split; [exact E|]. destruct xs as [|x [|y xs]]; simpl in Hl; try lia.
    - rewrite app_nil_r. auto.
    - repeat split; auto. discriminate. }
  assert (Hscalar : forall k, IsStructure v = false -> isSlice key = false ->
    picks s v [] -> ~ app_overflows (s, v) -> k = 0 ->
    exists g xs, valsByKey W acc v key neg = OK g /\ g_list g = g_list acc ++ xs /\
        (acc <> None -> g <> None) /\ picks s v xs /\ ~ app_overflows (s, v)).
  { intros k Hs Hsl Hp Ho _. exists acc, []. split.
    - unfold valsByKey. destruct key; try discriminate Hsl; destruct v; try discriminate Hs; reflexivity.
    - rewrite app_nil_r. auto. }
  destruct Hk as [neg k Hi Hs|neg n Hn|neg n Hn|neg sl a b c Hsl Ha Hb Hc].
  - left. destruct v; try (apply (Hscalar 0); auto; repeat constructor; fail); try contradiction.
    + exists acc, []. rewrite app_nil_r. repeat split; auto; [|repeat constructor].
      destruct k; try discriminate; reflexivity.
    + destruct (name_keys W acc m k neg _ Hj eq_refl Hs) as (xs & E & Hp & Hl).
      apply (Hone xs E Hl); auto. constructor; auto.
  - left. destruct v; try contradiction;
      try (apply (Hscalar 0); auto; constructor; [reflexivity|constructor; reflexivity]).
    + destruct (index_keys W acc l (VInt64 n) neg n Hj Hn eq_refl eq_refl) as (xs & E & Hp & Hl).
      apply (Hone xs E Hl); auto.
    + destruct (name_keys W acc m (VInt64 n) neg (sprint_int n) Hj eq_refl eq_refl) as (xs & E & Hp & Hl).
      apply (Hone xs E Hl); auto. apply PkNumber; auto. rewrite <- sprint_int_decimal. exact Hp.
  - left. destruct v; try contradiction;
      try (apply (Hscalar 0); auto; constructor; [reflexivity|constructor; reflexivity]).
    + destruct (index_keys W acc l (VInt n) neg n Hj Hn eq_refl eq_refl) as (xs & E & Hp & Hl).
      apply (Hone xs E Hl); auto.
    + destruct (name_keys W acc m (VInt n) neg (sprint_int n) Hj eq_refl eq_refl) as (xs & E & Hp & Hl).
      apply (Hone xs E Hl); auto. apply PkNumber; auto. rewrite <- sprint_int_decimal. exact Hp.
  - destruct v; try (exfalso; apply Hd; reflexivity).
    destruct (slice_keys W acc l sl neg a b c Hsl Hj Ha Hb Hc)
      as [(g & xs & E & Hg & Hnn & Ho & Hp)|[E Ho]].
    + left. exists g, xs. auto 10.
    + right. auto.
Qed.

Lemma apply_discard : forall W acc v key neg s, key_is W neg key s -> discards (s, v) ->
  valsByKey W acc v key neg = OK None.
Proof.
  intros W acc v key neg s Hk Hd. destruct Hk; simpl in Hd; try contradiction.
  unfold discards in Hd. simpl in Hd. unfold valsByKey. destruct v; try reflexivity; discriminate.
Qed.

Lemma discards_dec : forall a, discards a \/ ~ discards a.
Proof.
  intros [s v]. unfold discards. simpl. destruct s; auto.
  destruct (IsArray v); [right; discriminate|auto].
Qed.

(** ** A sequence of applications *)
Fixpoint keyed (W : world) (neg : bool) (acc : gslice) (kvs : list (val * val)) : M gslice :=
  match kvs with
  | [] => OK acc
  | (k, v) :: r => let! acc' := valsByKey W acc v k neg in keyed W neg acc' r
  end.

Lemma keyed_app : forall W neg kvs1 kvs2 acc,
  keyed W neg acc (kvs1 ++ kvs2) = let! acc' := keyed W neg acc kvs1 in keyed W neg acc' kvs2.
Proof.
  induction kvs1 as [|[k v] kvs1 IH]; intros; simpl; auto.
  destruct (valsByKey W acc v k neg); simpl; auto.
Qed.

(** what has been collected when [acc] was there before *)
Definition collects_from (acc : list val) (apps : list (sel * val)) (r : list val) : Prop :=
  exists before after, apps = before ++ after /\
    (before = [] \/ exists b a, before = b ++ [a] /\ discards a) /\
    Forall (fun a => ~ discards a) after /\
    exists ls, Forall2 (fun a l => picks (fst a) (snd a) l) after ls /\
      r = (if before then acc else []) ++ concat ls.

Lemma collects_nil : forall apps r, collects_from [] apps r <-> collects apps r.
Proof.
  intros apps r. unfold collects_from, collects. split.
  - intros (b & a & E & Hb & Ha & ls & Hl & Hr). exists b, a. repeat split; auto.
    exists ls. split; auto. destruct b; auto.
  - intros (b & a & E & Hb & Ha & ls & Hl & Hr). exists b, a. repeat split; auto.
    exists ls. split; auto. destruct b; auto.
Qed.

Lemma keyed_collects : forall W neg kvs apps acc,
  Forall2 (fun kv a => key_is W neg (fst kv) (fst a) /\ snd kv = snd a /\ json_node (snd a)) kvs apps ->
  (exists g, keyed W neg acc kvs = OK g /\ collects_from (g_list acc) apps (g_list g) /\
     Forall (fun a => ~ app_overflows a) apps) \/
  (keyed W neg acc kvs = Panics /\ Exists app_overflows apps).
Proof.
  intros W neg kvs apps acc H. revert acc.
  induction H as [|[k v] [s v'] kvs apps (Hk & Hv & Hj) Hrest IH]; intro acc.
  - left. exists acc. split; [reflexivity|]. split; [|constructor].
    exists [], []. repeat split; auto. exists []. split; [constructor|].
    simpl. rewrite app_nil_r. reflexivity.
  - cbn [fst snd] in *. subst v'.
    destruct (discards_dec (s, v)) as [Hd|Hd].
    + cbn [keyed]. rewrite (apply_discard W acc v k neg s Hk Hd). cbn [obind].
      destruct (IH None) as [(g & Hg & (b & a & E & Hb & Ha & ls & Hl & Hr) & Ho)|[Hp He]].
      * left. exists g. split; [exact Hg|]. split.
        -- exists ((s, v) :: b), a. split; [simpl; f_equal; exact E|]. split.
           ++ right. destruct Hb as [->|(b' & x & -> & Hx)].
              ** exists [], (s, v). auto.
              ** exists ((s, v) :: b'), x. auto.
           ++ split; [exact Ha|]. exists ls. split; [exact Hl|]. rewrite Hr. destruct b; reflexivity.
        -- constructor; auto. intro K. unfold app_overflows, discards in *. simpl in Hd.
           destruct s; try contradiction. destruct v; try contradiction. discriminate.
      * right. auto.
    + destruct (apply_key W acc v k neg s Hj Hk Hd) as [(g1 & xs & E1 & Hg1 & Hnn & Hp & Ho1)|[E1 Ho1]].
      * cbn [keyed]. rewrite E1. cbn [obind].
        destruct (IH g1) as [(g & Hg & (b & a & E & Hb & Ha & ls & Hl & Hr) & Ho)|[Hpp He]].
        -- left. exists g. split; [exact Hg|]. split; [|constructor; auto].
           destruct Hb as [->|(b' & x & -> & Hx)].
           ++ exists [], ((s, v) :: a). split; [simpl in *; congruence|]. split; [auto|].
              split; [constructor; auto|]. exists (xs :: ls). split; [constructor; auto|].
              rewrite Hr. simpl. rewrite Hg1. symmetry. apply app_assoc.
           ++ exists ((s, v) :: b' ++ [x]), a. split; [simpl; congruence|].
              split; [right; exists ((s, v) :: b'), x; auto|]. split; [exact Ha|].
              exists ls. split; [exact Hl|]. rewrite Hr. destruct b'; reflexivity.
        -- right. auto.
      * right. cbn [keyed]. rewrite E1. auto.
Qed.

(** ** Select steps as sequences of applications *)

(** the key values that are not failures *)
Definition live (vs : list val) : list val := filter (fun v => negb (isNothing v)) vs.
Definition pairs (keys cands : list val) : list (val * val) :=
  flat_map (fun v => map (fun k => (k, v)) keys) cands.


Lemma pairs_cons : forall keys v cands,
  pairs keys (v :: cands) = map (fun k => (k, v)) keys ++ pairs keys cands.
Proof. reflexivity. Qed.

Lemma pairs_nil : forall cands, pairs [] cands = [].
Proof. induction cands; auto. Qed.

Lemma unionVals_keyed : forall W v keys acc,
  unionVals W acc v keys = keyed W true acc (map (fun k => (k, v)) (live keys)).
Proof.
  induction keys as [|k keys IH]; intro acc; auto. cbn [unionVals live filter].
  destruct (isNothing k); cbn [negb obind map keyed].
  - apply IH.
  - destruct (valsByKey W acc v k true); cbn [obind]; auto.
Qed.

Lemma select1_keyed : forall W v key neg acc,
  select1 W key neg acc v = keyed W neg acc (map (fun k => (k, v)) (live [key])).
Proof.
  intros. unfold select1. cbn [live filter]. destruct (isNothing key); cbn [negb map keyed]; auto.
  destruct (valsByKey W acc v key neg); reflexivity.
Qed.

Lemma applySelection_keyed : forall W neg keys f,
  (forall t v acc, f t v acc = let! g := keyed W neg acc (map (fun k => (k, v)) keys) in OK (g, t)) ->
  forall cands acc t, applySelection_loop f t cands acc =
    let! g := keyed W neg acc (pairs keys cands) in OK (g, t).
Proof.
  intros W neg keys f Hf. induction cands as [|v cands IH]; intros acc t; auto.
  cbn [applySelection_loop]. rewrite Hf, pairs_cons, keyed_app.
  destruct (keyed W neg acc (map (fun k => (k, v)) keys)); cbn [obind]; auto.
Qed.

Lemma step_keyed : forall W root s out t, wf_step s -> is_select (st_op s) = true ->
  ev_step W root s out t =
  let! (vs, t1) := ev_args W root VNil t (st_args s) in
  let! g := keyed W (counts_back (st_op s)) (Some []) (pairs (live vs) (g_list out)) in OK (g, t1).
Proof.
  intros W root s out t Hwf Hs. pose proof (wf_step_args s Hwf) as _.
  rewrite ev_step_plain by (destruct (st_op s); try discriminate Hs; reflexivity).
  destruct s as [o args]. cbn [st_op st_args] in *.
  assert (Hl : forall vs t1, ev_args W root VNil t args = OK (vs, t1) -> length vs = length args).
  { clear. revert t. induction args as [|a args IH]; intros t vs t1 H; cbn [ev_args] in H.
    - injection H as <- <-. reflexivity.
    - destruct (ev_arg W root VNil t a) as [[v t']| | |]; cbn [obind] in H; try discriminate.
      destruct (ev_args W root VNil t' args) as [[vs' t'']| | |] eqn:E; cbn [obind] in H; try discriminate.
      injection H as <- <-. simpl. f_equal. eapply IH; eauto. }
  destruct (ev_args W root VNil t args) as [[vs t1]| | |]; cbn [obind]; auto.
  specialize (Hl vs t1 eq_refl).
  pose proof (wf_step_ok _ Hwf) as Hok. cbn [st_op st_args] in Hok.
  destruct o; try discriminate Hs; cbn [plain_apply counts_back].
  - simpl in Hok. destruct vs as [|v [|]]; simpl in Hl; try lia.
    cbn [live filter]. destruct (isNothing v) eqn:Ev; cbn [negb].
    + rewrite pairs_nil. reflexivity.
    + unfold applySelection. apply applySelection_keyed. intros. cbn [map keyed].
      destruct (valsByKey W acc v0 v false); reflexivity.
  - simpl in Hok. destruct vs as [|v [|]]; simpl in Hl; try lia.
    cbn [live filter]. destruct (isNothing v) eqn:Ev; cbn [negb].
    + rewrite pairs_nil. reflexivity.
    + unfold applySelection. apply applySelection_keyed. intros. cbn [map keyed].
      destruct (valsByKey W acc v0 v true); reflexivity.
  - unfold applySelection. apply applySelection_keyed. intros.
    rewrite unionVals_keyed. reflexivity.
Qed.

Lemma ev_args_length : forall W root dot args t vs t1,
  ev_args W root dot t args = OK (vs, t1) -> length vs = length args.
Proof.
  induction args as [|a args IH]; intros t vs t1 H; cbn [ev_args] in H.
  - injection H as <- <-. reflexivity.
  - destruct (ev_arg W root dot t a) as [[v t']| | |]; cbn [obind] in H; try discriminate.
    destruct (ev_args W root dot t' args) as [[vs' t'']| | |] eqn:E; cbn [obind] in H; try discriminate.
    injection H as <- <-. simpl. f_equal. eapply IH; eauto.
Qed.

Lemma body_keyed : forall W root s dot out t, wf_step s -> is_nest_select (st_op s) = true ->
  ev_body W root s dot out t =
  let! (vs, t1) := ev_args W root dot t (st_args s) in
  let! g := keyed W (counts_back (st_op s)) out (pairs (live vs) [dot]) in OK (g, t1).
Proof.
  intros W root s dot out t Hwf Hs. unfold ev_body.
  pose proof (ev_args_length W root dot (st_args s) t) as Hl.
  destruct (ev_args W root dot t (st_args s)) as [[vs t1]| | |]; cbn [obind]; auto.
  specialize (Hl vs t1 eq_refl).
  pose proof (wf_step_ok _ Hwf) as Hok. rewrite <- Hl in Hok.
  destruct (st_op s); try discriminate Hs; cbn [counts_back];
    rewrite pairs_cons; cbn [pairs flat_map]; rewrite app_nil_r.
  - simpl in Hok. destruct vs as [|v [|]]; simpl in Hok; try lia. rewrite select1_keyed. reflexivity.
  - simpl in Hok. destruct vs as [|v [|]]; simpl in Hok; try lia. rewrite select1_keyed. reflexivity.
  - destruct vs as [|v [|v' vs]]; rewrite unionVals_keyed; reflexivity.
Qed.
